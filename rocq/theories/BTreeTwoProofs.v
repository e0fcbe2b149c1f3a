(** BTreeTwoProofs.v -- two maps do not disturb each other. *)
From Verif Require Import Base BaseLemmas Effect CmpSpec VecSpec HashModel BTreeModel BTreeSpec BTreeHistory BTreeProofs BTreeSafeProofs BTreeSepProofs.
Local Open Scope nat_scope.

Section Two.
  Context {K V : Type}.
  Variable cmp : K -> K -> ordering.
  Implicit Types (h : heap K V).

  (** [F] is a set of used nodes that contains the root of m and is closed. *)
  Definition area h (m : BTreeMap) (F : nat -> Prop) : Prop :=
    (match root m with Some r => F r | None => True end) /\ (forall a, F a -> a < length h) /\
    (forall a nd, F a -> nth_error h a = Some nd -> forall c, In (Some c) (childs nd) -> F c).
  Definition apart h a b : Prop := exists FA FB, area h a FA /\ area h b FB /\ forall x, FA x -> FB x -> False.
  Lemma apart_sym h a b : apart h a b -> apart h b a.
  Proof. intros (FA & FB & A & B & D). exists FB, FA. split; auto. split; auto. intros x X Y. eauto. Qed.
  Lemma apart_new h : apart h BTreeMapNew BTreeMapNew.
  Proof. exists (fun _ => False), (fun _ => False). unfold area. cbn. tauto. Qed.
  Lemma apart_exec h a b o a' r h' : apart h a b -> exec cmp a o h = Ret ((a', r), h') ->
    apart h' a' b /\ forall q x, reads q -> exec cmp b q h = Ret x -> exec cmp b q h' = Ret (fst x, h').
  Proof.
    intros (FA & FB & (RA & LA & CA) & (RB & LB & CB) & D) E.
    set (O := fun x => FA x \/ length h <= x).
    assert (IN : inside O (length h) h).
    { split; [lia|]. intros x nd [Fx|Lx] EX c I; [|apply nth_lt in EX; lia].
      assert (Fc : FA c) by (eapply CA; eauto). split; [left; auto|auto]. }
    assert (RO : root_own O a (length h)).
    { unfold root_own, maybe. destruct (root a); [|exact I]. split; [left; exact RA|auto]. }
    pose proof (sep_exec cmp O (length h) (fun x H => or_intror H) _ a o RO h (le_n _) IN) as Q. rewrite E in Q. destruct Q as (IN' & KE & LE & RO').
    cbn [fst] in RO'.
    assert (SAME : forall x, FB x -> nth_error h' x = nth_error h x).
    { intros x Fx. apply KE. intros [X|X]; [eauto|]. specialize (LB x Fx). lia. }
    destruct IN' as (LN & CL). split.
    - exists (fun x => O x /\ x < length h'), FB. split; [|split].
      + split; [|split].
        * unfold root_own, maybe in RO'. destruct (root a') as [r'|]; [exact RO'|exact I].
        * tauto.
        * intros x nd (Ox & _) EX c I. exact (CL x nd Ox EX c I).
      + split; [exact RB|]. split; [intros x Fx; specialize (LB x Fx); lia|].
        intros x nd Fx EX. rewrite (SAME x Fx) in EX. eauto.
      + intros x ([Fx|Lx] & _) Fb; [eauto|]. specialize (LB x Fb). lia.
    - intros q x RD EX. eapply (read_same cmp h h' LN FB); eauto.
  Qed.
  Lemma apart_run2 ops : forall h a b a' b' h', apart h a b -> run2 cmp a b ops h = Ret ((a', b'), h') -> apart h' a' b'.
  Proof.
    induction ops as [|[[] o] ops IH]; intros h a b a' b' h' AP E; cbn [run2] in E.
    - injection E as <- <- <-. exact AP.
    - unfold mbind in E. destruct (exec cmp a o h) as [[[a1 r] h1]| |] eqn:EE; try discriminate.
      eapply IH; [|exact E]. eapply apart_exec; eauto.
    - unfold mbind in E. destruct (exec cmp b o h) as [[[b1 r] h1]| |] eqn:EE; try discriminate.
      eapply IH; [|exact E]. apply apart_sym. eapply apart_exec; eauto. apply apart_sym, AP.
  Qed.
End Two.
