(** ListProofs.v -- proofs about LinkedList. *)
From Verif Require Import Base BaseLemmas Effect VecSpec ListModel.
From Verif Require ListSpec DequeSpec.
Local Open Scope Z_scope.
Import ListSpec(forward, forward_nil, forward_node, backward, backward_nil, backward_node, list_shows, apart, extends).

Lemma mb_Ret : forall S A B (m : M S A) (k : A -> M S B) s a s', m s = Ret (a, s') -> mbind m k s = k a s'.
Proof. intros S A B m k s a s' H. unfold mbind. now rewrite H. Qed.
Lemma mb_Panic : forall S A B (m : M S A) (k : A -> M S B) s, m s = Panic -> mbind m k s = Panic.
Proof. intros S A B m k s H. unfold mbind. now rewrite H. Qed.
Lemma mb_Diverge : forall S A B (m : M S A) (k : A -> M S B) s, m s = Diverge -> mbind m k s = Diverge.
Proof. intros S A B m k s H. unfold mbind. now rewrite H. Qed.

Section Proofs.
  Context {T : Type}.
  Implicit Types (h : heap T) (l : LinkedList) (cs ds : list (nat * T)) (p q : option nat).

  (** *** Doubly linked segments *)
  Definition first_or (cs : list (nat * T)) (q : option nat) : option nat := match cs with [] => q | (a, _) :: _ => Some a end.
  Fixpoint last_or (cs : list (nat * T)) (p : option nat) : option nat := match cs with [] => p | (a, _) :: r => last_or r (Some a) end.
  Fixpoint dll (h : heap T) (p : option nat) (cs : list (nat * T)) (q : option nat) : Prop :=
    match cs with
    | [] => True
    | (a, x) :: r => nth_error h a = Some (mkNode x (first_or r q) p) /\ dll h (Some a) r q
    end.
  Definition addrs (cs : list (nat * T)) : list nat := map fst cs.
  Definition vals (cs : list (nat * T)) : list T := map snd cs.

  Lemma first_or_app : forall cs ds q, first_or (cs ++ ds) q = first_or cs (first_or ds q).
  Proof. intros [|[a x] cs] ds q; reflexivity. Qed.
  Lemma last_or_app : forall cs ds p, last_or (cs ++ ds) p = last_or ds (last_or cs p).
  Proof. induction cs as [|[a x] cs IH]; intros ds p; cbn; auto. Qed.
  Lemma dll_app : forall h cs ds p q, dll h p (cs ++ ds) q <-> dll h p cs (first_or ds q) /\ dll h (last_or cs p) ds q.
  Proof.
    induction cs as [|[a x] cs IH]; intros ds p q; cbn [app dll last_or]; [tauto|].
    rewrite IH, first_or_app. tauto.
  Qed.
  Lemma dll_same : forall h h' cs p q, dll h p cs q -> (forall a, In a (addrs cs) -> nth_error h' a = nth_error h a) -> dll h' p cs q.
  Proof.
    induction cs as [|[a x] cs IH]; intros p q D H; cbn [dll addrs map fst] in *; auto. destruct D as [D1 D2]. split.
    - rewrite H by (left; reflexivity). exact D1.
    - apply IH; auto. intros b Hb. apply H. now right.
  Qed.
  Lemma dll_bound : forall h cs p q a, dll h p cs q -> In a (addrs cs) -> (a < length h)%nat.
  Proof.
    induction cs as [|[b x] cs IH]; intros p q a D H; cbn in *; [tauto|]. destruct D as [D1 D2]. destruct H as [<-|H]; eauto.
    apply nth_error_Some. congruence.
  Qed.

  (** *** What a list owns *)
  Definition own (h : heap T) (l : LinkedList) (cs : list (nat * T)) : Prop :=
    dll h None cs None /\ head l = first_or cs None /\ tail l = last_or cs None /\
    len l = Z.of_nat (length cs) /\ NoDup (addrs cs).
  Definition changes (h h' : heap T) (A : list nat) : Prop :=
    (length h <= length h')%nat /\ forall a, (a < length h)%nat -> ~ In a A -> nth_error h' a = nth_error h a.

  Lemma changes_refl : forall h A, changes h h A.
  Proof. intros h A. split; auto. Qed.
  Lemma changes_trans : forall h1 h2 h3 A B, changes h1 h2 A -> changes h2 h3 B ->
    (forall a, In a B -> In a A \/ (length h1 <= a)%nat) -> changes h1 h3 A.
  Proof.
    intros h1 h2 h3 A B [L1 C1] [L2 C2] H. split; [lia|]. intros a La Na. rewrite C2; [auto|lia|].
    intros I. destruct (H a I); [auto|lia].
  Qed.
  Lemma changes_weaken : forall h h' A B, changes h h' A -> incl A B -> changes h h' B.
  Proof. intros h h' A B [L C] I. split; auto. Qed.
  Lemma changes_extends : forall h h', changes h h' [] -> extends h h'.
  Proof.
    intros h h' [L C] a n H. rewrite C; auto. apply nth_error_Some. congruence.
  Qed.
  Lemma own_bound : forall h l cs a, own h l cs -> In a (addrs cs) -> (a < length h)%nat.
  Proof. intros h l cs a (D & _) H. eapply dll_bound; eauto. Qed.
  Lemma own_frame : forall h h' l cs A, own h l cs -> changes h h' A -> apart A (addrs cs) -> own h' l cs.
  Proof.
    intros h h' l cs A (D & Hd & Tl & Ln & ND) [L C] Ap. repeat split; auto.
    eapply dll_same; eauto. intros a Ha. apply C; [eapply dll_bound; eauto|]. intros I. now apply (Ap a).
  Qed.

  (** *** Primitive steps *)
  Lemma load_spec : forall h a n, nth_error h a = Some n -> load (Some a) h = Ret (n, h).
  Proof. intros h a n H. unfold load, idx. cbn [of_option bind]. now rewrite H. Qed.
  Lemma set_next_spec : forall h a n q, nth_error h a = Some n ->
    set_next (Some a) q h = Ret (tt, list_set h a (mkNode (value n) q (prev n))).
  Proof.
    intros h a n q H. unfold set_next, idx. cbn [of_option bind]. rewrite H. cbn [of_option bind].
    rewrite upd_Ret by (apply nth_error_Some; congruence). reflexivity.
  Qed.
  Lemma set_prev_spec : forall h a n q, nth_error h a = Some n ->
    set_prev (Some a) q h = Ret (tt, list_set h a (mkNode (value n) (next n) q)).
  Proof.
    intros h a n q H. unfold set_prev, idx. cbn [of_option bind]. rewrite H. cbn [of_option bind].
    rewrite upd_Ret by (apply nth_error_Some; congruence). reflexivity.
  Qed.
  Lemma store_spec : forall h a n x, nth_error h a = Some n ->
    store (Some a) x h = Ret (tt, list_set h a (mkNode x (next n) (prev n))).
  Proof.
    intros h a n x H. unfold store, idx. cbn [of_option bind]. rewrite H. cbn [of_option bind].
    rewrite upd_Ret by (apply nth_error_Some; congruence). reflexivity.
  Qed.
  Lemma list_set_changes : forall h a n, changes h (list_set h a n) [a].
  Proof.
    intros h a n. split; [now rewrite list_set_length|]. intros b Hb N. apply nth_error_list_set_neq. cbn in N. tauto.
  Qed.
  Lemma snoc_changes : forall h n, changes h (h ++ [n]) [].
  Proof. intros h n. split; [rewrite app_length; lia|]. intros b Hb _. now apply nth_error_app1. Qed.
  Lemma u64_small : forall z, 0 <= z < 2 ^ 64 -> u64 z = z.
  Proof. intros. unfold u64. now apply Z.mod_small. Qed.

  Lemma last_or_snoc : forall cs a x p, last_or (cs ++ [(a, x)]) p = Some a.
  Proof. intros. rewrite last_or_app. reflexivity. Qed.
  Lemma addrs_app : forall cs ds, addrs (cs ++ ds) = addrs cs ++ addrs ds.
  Proof. intros. apply map_app. Qed.
  Lemma NoDup_snoc : forall (A : list nat) a, NoDup A -> ~ In a A -> NoDup (A ++ [a]).
  Proof.
    intros A a N H. apply NoDup_rev in N. rewrite <- (rev_involutive (A ++ [a])). apply NoDup_rev.
    rewrite rev_app_distr. cbn. constructor; auto. now rewrite <- in_rev.
  Qed.
  Lemma NoDup_snoc_inv : forall (A : list nat) a, NoDup (A ++ [a]) -> NoDup A /\ ~ In a A.
  Proof.
    intros A a N. apply NoDup_rev in N. rewrite rev_app_distr in N. cbn in N. inversion N as [|? ? H N']; subst.
    rewrite <- in_rev in H. apply NoDup_rev in N'. rewrite rev_involutive in N'. auto.
  Qed.

  Lemma NoDup_apart : forall A B : list nat, NoDup A -> NoDup B -> apart A B -> NoDup (A ++ B).
  Proof.
    intros A B ND ND' Ap. induction A as [|c A IH]; cbn [app]; auto. inversion ND; subst. constructor.
    - rewrite in_app_iff. intros [I|I]; [auto|]. apply (Ap c); [now left | exact I].
    - apply IH; auto. intros e I1 I2. apply (Ap e); [now right | exact I2].
  Qed.

  Lemma PushBack_spec : forall h l cs x, own h l cs -> Z.of_nat (length cs) + 1 < 2 ^ 64 ->
    exists h' l', PushBack l x h = Ret (l', h') /\ own h' l' (cs ++ [(length h, x)]) /\ changes h h' (addrs cs).
  Proof.
    intros h l cs x O B. pose proof O as (D & Hd & Tl & Ln & ND).
    assert (Fr : ~ In (length h) (addrs cs)) by (intros I; apply (own_bound h l cs) in I; auto; lia).
    unfold PushBack, alloc, mbind at 1. rewrite Hd, Tl, Ln, u64_small by lia.
    assert (Nn : nth_error (h ++ [mkNode x None (last_or cs None)]) (length h) = Some (mkNode x None (last_or cs None))).
    { rewrite nth_error_app2, Nat.sub_diag by lia. reflexivity. }
    destruct cs as [|[t y] cs _] using rev_ind.
    - cbn [last_or when first_or]. unfold mbind, mret. eexists _, _. split; [reflexivity|]. cbn [app]. split.
      + repeat split; cbn; auto. constructor; auto.
      + apply (changes_weaken _ _ []); [apply snoc_changes | intros a []].
    - rewrite last_or_snoc in *. cbn [when].
      apply dll_app in D. destruct D as [D1 D2]. cbn [dll first_or] in D2. destruct D2 as [D2 _].
      assert (Nt : nth_error (h ++ [mkNode x None (Some t)]) t = Some (mkNode y None (last_or cs None))).
      { rewrite nth_error_app1; auto. apply nth_error_Some. congruence. }
      rewrite addrs_app in *. apply NoDup_snoc_inv in ND as ND'. destruct ND' as [ND1 ND2].
      assert (Net : t <> length h) by (intros ->; apply Fr; rewrite in_app_iff; right; left; reflexivity).
      rewrite (mb_Ret _ _ _ _ _ _ tt _ (set_next_spec _ _ _ _ Nt)). unfold mret. cbn [value prev].
      eexists _, _. split; [reflexivity|]. split.
      + split; [|split; [|split; [|split]]].
        * rewrite dll_app. split; [|cbn [dll]; split; [|exact I]].
          -- rewrite dll_app. split; [|cbn [dll]; split; [|exact I]].
             ++ eapply dll_same; [exact D1|]. intros a Ha. rewrite nth_error_list_set_neq by (intros <-; auto).
                apply nth_error_app1. eapply dll_bound; eauto.
             ++ cbn [first_or]. rewrite nth_error_list_set_eq; [reflexivity|].
                apply nth_error_Some. rewrite Nt. discriminate.
          -- rewrite last_or_snoc. cbn [first_or]. rewrite nth_error_list_set_neq by auto. exact Nn.
        * cbn [head]. rewrite !first_or_app. destruct cs as [|[a z] cs]; reflexivity.
        * cbn [tail]. now rewrite last_or_snoc.
        * cbn [len]. rewrite (app_length (cs ++ [(t, y)])). cbn [length]. lia.
        * rewrite addrs_app. apply NoDup_snoc; now rewrite addrs_app.
      + eapply changes_trans; [eapply changes_weaken; [apply snoc_changes | intros a []] | apply list_set_changes |].
        intros a [<-|[]]. left. rewrite in_app_iff. right. left. reflexivity.
  Qed.

  Lemma PushFront_spec : forall h l cs x, own h l cs -> Z.of_nat (length cs) + 1 < 2 ^ 64 ->
    exists h' l', PushFront l x h = Ret (l', h') /\ own h' l' ((length h, x) :: cs) /\ changes h h' (addrs cs).
  Proof.
    intros h l cs x O B. pose proof O as (D & Hd & Tl & Ln & ND).
    assert (Fr : ~ In (length h) (addrs cs)) by (intros I; apply (own_bound h l cs) in I; auto; lia).
    unfold PushFront, alloc, mbind at 1. rewrite Hd, Tl, Ln, u64_small by lia.
    assert (Nn : nth_error (h ++ [mkNode x (first_or cs None) None]) (length h) = Some (mkNode x (first_or cs None) None)).
    { rewrite nth_error_app2, Nat.sub_diag by lia. reflexivity. }
    destruct cs as [|[t y] cs].
    - cbn [last_or when first_or]. unfold mbind, mret. eexists _, _. split; [reflexivity|]. split.
      + repeat split; cbn; auto. constructor; auto.
      + apply (changes_weaken _ _ []); [apply snoc_changes | intros a []].
    - cbn [first_or when dll] in *. destruct D as [D1 D2].
      assert (Nt : nth_error (h ++ [mkNode x (Some t) None]) t = Some (mkNode y (first_or cs None) None)).
      { rewrite nth_error_app1; auto. apply nth_error_Some. congruence. }
      cbn [addrs map fst] in *. inversion ND as [|? ? ND1 ND2]; subst.
      assert (Net : t <> length h) by (intros ->; apply Fr; now left).
      rewrite (mb_Ret _ _ _ _ _ _ tt _ (set_prev_spec _ _ _ _ Nt)). unfold mret. cbn [value next].
      eexists _, _. split; [reflexivity|]. split.
      + split; [|split; [|split; [|split]]].
        * cbn [dll first_or]. split; [|split].
          -- rewrite nth_error_list_set_neq by auto. exact Nn.
          -- rewrite nth_error_list_set_eq; [reflexivity|]. apply nth_error_Some. rewrite Nt. discriminate.
          -- eapply dll_same; [exact D2|]. intros a Ha. rewrite nth_error_list_set_neq by (intros ->; auto).
             apply nth_error_app1. eapply dll_bound; eauto.
        * reflexivity.
        * cbn [tail last_or]. clear. revert t. induction cs as [|[a z] cs IH]; intros t; cbn [last_or]; auto.
        * cbn [len length]. lia.
        * cbn [addrs map fst]. constructor; auto.
      + eapply changes_trans; [eapply changes_weaken; [apply snoc_changes | intros a []] | apply list_set_changes |].
        intros a [<-|[]]. left. now left.
  Qed.

  Lemma PopBack_nil : forall h l, own h l [] -> PopBack l h = Ret (l, None, h).
  Proof. intros h l (D & Hd & Tl & Ln & ND). unfold PopBack. now rewrite Tl. Qed.
  Lemma PopBack_snoc : forall h l cs t y, own h l (cs ++ [(t, y)]) -> Z.of_nat (length cs) + 1 < 2 ^ 64 ->
    exists h' l', PopBack l h = Ret (l', Some y, h') /\ own h' l' cs /\ changes h h' (addrs cs).
  Proof.
    intros h l cs t y (D & Hd & Tl & Ln & ND) B. unfold PopBack. rewrite Tl, last_or_snoc.
    apply dll_app in D. destruct D as [D1 D2]. cbn [dll first_or] in D1, D2. destruct D2 as [D2 _].
    rewrite (mb_Ret _ _ _ _ _ _ _ _ (load_spec _ _ _ D2)). cbn [value next prev].
    rewrite app_length in Ln. cbn [length] in Ln. rewrite Ln, u64_small by lia.
    rewrite addrs_app in ND. apply NoDup_snoc_inv in ND. destruct ND as [ND1 ND2].
    destruct cs as [|[u z] cs _] using rev_ind.
    - cbn [last_or when]. unfold mbind, mret. eexists _, _. split; [reflexivity|]. split; [|apply changes_refl].
      repeat split; auto.
    - rewrite last_or_snoc in *. cbn [when]. apply dll_app in D1. destruct D1 as [D1 D3]. cbn [dll first_or] in D1, D3.
      destruct D3 as [D3 _]. rewrite addrs_app in *. apply NoDup_snoc_inv in ND1 as ND'. destruct ND' as [ND3 ND4].
      rewrite (mb_Ret _ _ _ _ _ _ _ _ (set_next_spec _ _ _ _ D3)). unfold mret. cbn [value prev].
      eexists _, _. split; [reflexivity|]. split.
      + split; [|split; [|split; [|split]]].
        * rewrite dll_app. split; [|cbn [dll]; split; [|exact I]].
          -- eapply dll_same; [exact D1|]. intros a Ha. rewrite nth_error_list_set_neq; [reflexivity|]. intros <-. auto.
          -- cbn [first_or]. rewrite nth_error_list_set_eq; [reflexivity|]. apply nth_error_Some. congruence.
        * cbn [head]. rewrite Hd, !first_or_app. destruct cs as [|[a w] cs]; reflexivity.
        * cbn [tail]. now rewrite last_or_snoc.
        * cbn [len]. lia.
        * rewrite addrs_app. auto.
      + eapply changes_weaken; [apply list_set_changes|]. intros a [<-|[]]. rewrite in_app_iff. right. left. reflexivity.
  Qed.

  Lemma PopFront_nil : forall h l, own h l [] -> PopFront l h = Ret (l, None, h).
  Proof. intros h l (D & Hd & Tl & Ln & ND). unfold PopFront. now rewrite Hd. Qed.
  Lemma PopFront_cons : forall h l cs t y, own h l ((t, y) :: cs) -> Z.of_nat (length cs) + 1 < 2 ^ 64 ->
    exists h' l', PopFront l h = Ret (l', Some y, h') /\ own h' l' cs /\ changes h h' (addrs cs).
  Proof.
    intros h l cs t y (D & Hd & Tl & Ln & ND) B. unfold PopFront. rewrite Hd. cbn [first_or].
    cbn [dll first_or] in D. destruct D as [D1 D2].
    rewrite (mb_Ret _ _ _ _ _ _ _ _ (load_spec _ _ _ D1)). cbn [value next prev].
    cbn [length] in Ln. rewrite Ln, u64_small by lia. cbn [addrs map fst] in ND. inversion ND as [|? ? ND1 ND2]; subst.
    destruct cs as [|[u z] cs].
    - cbn [first_or when]. unfold mbind, mret. eexists _, _. split; [reflexivity|]. split; [|apply changes_refl].
      repeat split; auto.
    - cbn [first_or when] in *. cbn [dll first_or] in D2. destruct D2 as [D2 D3].
      cbn [addrs map fst] in *. inversion ND2 as [|? ? ND3 ND4]; subst.
      rewrite (mb_Ret _ _ _ _ _ _ _ _ (set_prev_spec _ _ _ _ D2)). unfold mret. cbn [value next].
      eexists _, _. split; [reflexivity|]. split.
      + split; [|split; [|split; [|split]]].
        * cbn [dll]. split.
          -- rewrite nth_error_list_set_eq; [reflexivity|]. apply nth_error_Some. congruence.
          -- eapply dll_same; [exact D3|]. intros a Ha. rewrite nth_error_list_set_neq; [reflexivity|]. intros <-. auto.
        * reflexivity.
        * cbn [tail]. rewrite Tl. reflexivity.
        * cbn [len length] in *. lia.
        * constructor; auto.
      + eapply changes_weaken; [apply list_set_changes|]. intros a [<-|[]]. now left.
  Qed.

  Lemma write_spec : forall h l cs a y ds x, own h l (cs ++ (a, y) :: ds) ->
    exists h', store (Some a) x h = Ret (tt, h') /\ own h' l (cs ++ (a, x) :: ds) /\ changes h h' [a].
  Proof.
    intros h l cs a y ds x (D & Hd & Tl & Ln & ND). apply dll_app in D. destruct D as [D1 D2]. cbn [dll first_or] in D2.
    destruct D2 as [D2 D3]. rewrite (store_spec _ _ _ _ D2). cbn [next prev]. eexists. split; [reflexivity|].
    unfold own. rewrite addrs_app in *. cbn [addrs map fst] in *. apply NoDup_remove in ND as NR. destruct NR as [_ NR]. rewrite in_app_iff in NR.
    split; [|apply list_set_changes]. split; [|split; [|split; [|split]]].
    - rewrite dll_app. split; [|cbn [dll]; split].
      + eapply dll_same; [exact D1|]. intros b Hb. rewrite nth_error_list_set_neq; [reflexivity|]. intros <-. auto.
      + rewrite nth_error_list_set_eq; [reflexivity|]. apply nth_error_Some. congruence.
      + eapply dll_same; [exact D3|]. intros b Hb. rewrite nth_error_list_set_neq; [reflexivity|]. intros <-. auto.
    - rewrite Hd, !first_or_app. reflexivity.
    - rewrite Tl, !last_or_app. reflexivity.
    - rewrite Ln, !app_length. reflexivity.
    - exact ND.
  Qed.

  Lemma own_new : forall h, own h LinkedListNew [].
  Proof. intros h. repeat split; cbn; auto. constructor. Qed.

  Lemma Append_spec : forall h l cs m ds, own h l cs -> own h m ds -> apart (addrs cs) (addrs ds) ->
    Z.of_nat (length cs + length ds) < 2 ^ 64 ->
    exists h' l' m', Append l m h = Ret (l', m', h') /\ own h' l' (cs ++ ds) /\ own h' m' [] /\
      changes h h' (addrs cs ++ addrs ds).
  Proof.
    intros h l cs m ds O1 O2 Ap B. pose proof O1 as (D & Hd & Tl & Ln & ND). pose proof O2 as (D' & Hd' & Tl' & Ln' & ND').
    unfold Append. rewrite Hd'. destruct ds as [|[b y] ds].
    - cbn [first_or]. unfold mret. eexists _, _, _. split; [reflexivity|]. rewrite app_nil_r. split; [exact O1|]. split; [exact O2|]. apply changes_refl.
    - cbn [first_or]. rewrite Hd. destruct cs as [|[t x] cs _] using rev_ind.
      + cbn [first_or]. unfold mret. eexists _, _, _. split; [reflexivity|]. cbn [app].
        split; [|split; [apply own_new | apply changes_refl]]. exact (conj D' (conj eq_refl (conj Tl' (conj Ln' ND')))).
      + assert (Hd2 : exists a, first_or (cs ++ [(t, x)]) None = Some a) by (destruct cs as [|[a z] cs]; eexists; reflexivity).
        destruct Hd2 as [a Hd2]. rewrite Hd2. rewrite Tl, last_or_snoc.
        apply dll_app in D. destruct D as [D1 D2]. cbn [dll first_or] in D2. destruct D2 as [D2 _].
        cbn [dll] in D'. destruct D' as [D3 D4].
        rewrite addrs_app in *. apply NoDup_snoc_inv in ND as NR. destruct NR as [ND1 ND2].
        assert (Nb : b <> t). { intros ->. apply (Ap t); [rewrite in_app_iff; right|]; now left. }
        assert (Nbc : ~ In b (addrs cs)). { intros I. apply (Ap b); [rewrite in_app_iff; now left | now left]. }
        assert (Ntd : ~ In t (addrs ds)). { intros I. apply (Ap t); [rewrite in_app_iff; right; now left | now right]. }
        inversion ND' as [|? ? ND3 ND4]; subst.
        rewrite (mb_Ret _ _ _ _ _ _ _ _ (set_next_spec _ _ _ _ D2)). cbn [value prev].
        set (h1 := list_set h t _).
        assert (N1 : nth_error h1 b = Some (mkNode y (first_or ds None) None)) by (unfold h1; rewrite nth_error_list_set_neq; auto).
        rewrite (mb_Ret _ _ _ _ _ _ _ _ (set_prev_spec _ _ _ _ N1)). cbn [value next]. unfold mret.
        assert (Nt1 : nth_error h1 t = Some (mkNode x (Some b) (last_or cs None))).
        { unfold h1. rewrite nth_error_list_set_eq; [reflexivity|]. apply nth_error_Some. congruence. }
        eexists _, _, _. split; [reflexivity|]. split; [|split; [apply own_new|]].
        * rewrite app_length in Ln. cbn [length] in *. rewrite Ln, Ln', u64_small by (rewrite app_length in B; cbn [length] in B; lia).
          unfold own. cbn [head tail len]. rewrite <- app_assoc. cbn [app].
          split; [|split; [|split; [|split]]].
          -- rewrite dll_app. cbn [dll first_or last_or]. split; [|split; [|split]].
             ++ eapply dll_same; [exact D1|]. intros c Hc. rewrite nth_error_list_set_neq by (intros <-; auto).
                unfold h1. apply nth_error_list_set_neq. intros <-. auto.
             ++ rewrite nth_error_list_set_neq by auto. exact Nt1.
             ++ rewrite nth_error_list_set_eq; [reflexivity|]. apply nth_error_Some. congruence.
             ++ eapply dll_same; [exact D4|]. intros c Hc. rewrite nth_error_list_set_neq by (intros <-; auto).
                unfold h1. apply nth_error_list_set_neq. intros <-. auto.
          -- rewrite <- Hd2. rewrite !first_or_app. destruct cs as [|[c z] cs]; reflexivity.
          -- rewrite Tl'. rewrite last_or_app. reflexivity.
          -- rewrite app_length. cbn [length]. lia.
          -- rewrite addrs_app. change (addrs ((t, x) :: (b, y) :: ds)) with ([t] ++ addrs ((b, y) :: ds)). rewrite app_assoc.
             apply NoDup_apart; auto.
        * eapply changes_trans; [eapply changes_weaken; [apply list_set_changes|] | apply list_set_changes |].
          -- intros c [<-|[]]. rewrite !in_app_iff. left. right. now left.
          -- intros c [<-|[]]. left. rewrite !in_app_iff. right. now left.
  Qed.
  Lemma AppendSelf_spec : forall h l cs, own h l cs ->
    exists h' l', AppendSelf l h = Ret (l', h') /\ own h' l' [] /\ changes h h' (addrs cs).
  Proof.
    intros h l cs O. pose proof O as (D & Hd & Tl & Ln & ND). unfold AppendSelf. rewrite Hd. destruct cs as [|[b y] ds].
    - cbn [first_or]. unfold mret. eexists _, _. split; [reflexivity|]. split; [exact O | apply changes_refl].
    - cbn [first_or]. rewrite Tl. 
      assert (exists t n, last_or ((b, y) :: ds) None = Some t /\ In t (addrs ((b, y) :: ds)) /\ nth_error h t = Some n) as (t & n & Et & It & Nt).
      { assert (NE : (b, y) :: ds <> []) by discriminate. clear -D NE.
        destruct ((b, y) :: ds) as [|[t z] cs _] using rev_ind; [exfalso|].
        - now apply NE.
        - apply dll_app in D. destruct D as [D1 [D2 _]]. exists t. eexists. rewrite last_or_snoc. split; [reflexivity|]. split; [|exact D2].
          rewrite addrs_app, in_app_iff. right. now left. }
      rewrite Et. rewrite (mb_Ret _ _ _ _ _ _ _ _ (set_next_spec _ _ _ _ Nt)). set (h1 := list_set h t _).
      assert (exists n', nth_error h1 b = Some n') as [n' N1].
      { destruct (nth_error h1 b) eqn:E; [eauto|]. apply nth_error_None in E. unfold h1 in E. rewrite list_set_length in E.
        assert (b < length h)%nat by (eapply own_bound; [exact O | now left]). lia. }
      rewrite (mb_Ret _ _ _ _ _ _ _ _ (set_prev_spec _ _ _ _ N1)). unfold mret. eexists _, _. split; [reflexivity|].
      split; [apply own_new|].
      eapply changes_trans; [eapply changes_weaken; [apply list_set_changes|] | apply list_set_changes |].
      + intros c [<-|[]]. exact It.
      + intros c [<-|[]]. left. now left.
  Qed.

  (** *** Ownership and what is shown *)
  Lemma dll_forward : forall h cs p, dll h p cs None -> forward h (first_or cs None) (addrs cs) (vals cs).
  Proof.
    induction cs as [|[a x] cs IH]; intros p D; cbn [first_or addrs vals map fst snd]; [constructor|].
    cbn [dll] in D. destruct D as [D1 D2]. change x with (value (mkNode x (first_or cs None) p)). constructor; [exact D1|].
    cbn [next]. eapply IH. exact D2.
  Qed.
  Lemma dll_backward : forall h cs q, dll h None cs q -> backward h (last_or cs None) (rev (addrs cs)) (rev (vals cs)).
  Proof.
    induction cs as [|[a x] cs IH] using rev_ind; intros q D; [constructor|].
    apply dll_app in D. destruct D as [D1 [D2 _]]. unfold addrs, vals. rewrite last_or_snoc, !map_app, !rev_app_distr. cbn [map rev app fst snd].
    change x with (value (mkNode x (first_or [] q) (last_or cs None))). constructor; [exact D2|]. cbn [prev]. eapply IH. exact D1.
  Qed.
  Lemma own_shows : forall h l cs, own h l cs -> list_shows h l (addrs cs) (vals cs).
  Proof.
    intros h l cs (D & Hd & Tl & Ln & ND). split; [|split].
    - rewrite Hd. eapply dll_forward; eauto.
    - rewrite Tl. eapply dll_backward; eauto.
    - unfold Len, vals. now rewrite map_length.
  Qed.
  Lemma forward_fun : forall h p as1 v1, forward h p as1 v1 -> forall as2 v2, forward h p as2 v2 -> as1 = as2 /\ v1 = v2.
  Proof.
    induction 1; intros as2 v2 F2; inversion F2; subst; auto. assert (n0 = n) by congruence. subst.
    edestruct IHforward as [-> ->]; eauto.
  Qed.
  Lemma forward_length : forall h p A v, forward h p A v -> length A = length v.
  Proof. induction 1; cbn; auto. Qed.
  (** A walk that ends meets no node twice. *)
  Lemma forward_suffix : forall h p A v, forward h p A v -> forall a, In a A -> exists A' v', forward h (Some a) A' v' /\ (length A' <= length A)%nat.
  Proof.
    induction 1; intros b Hb; [destruct Hb|]. destruct Hb as [<-|Hb].
    - eexists _, _. split; [econstructor; eauto | auto].
    - destruct (IHforward b Hb) as (A' & v' & F & L). exists A', v'. split; [exact F | cbn; lia].
  Qed.
  Lemma forward_NoDup : forall h p A v, forward h p A v -> NoDup A.
  Proof.
    induction 1; constructor; auto. intros I. destruct (forward_suffix _ _ _ _ H0 a I) as (A' & v' & F & L).
    assert (F2 : forward h (Some a) (a :: addrs0) (value n :: values)) by (econstructor; eauto).
    destruct (forward_fun _ _ _ _ F _ _ F2) as [-> _]. cbn in L. lia.
  Qed.
  Lemma forward_bound : forall h p A v, forward h p A v -> forall a, In a A -> (a < length h)%nat.
  Proof. induction 1; intros b []; subst; auto. apply nth_error_Some. congruence. Qed.
  Lemma NoDup_bounded : forall n (A : list nat), NoDup A -> (forall a, In a A -> (a < n)%nat) -> (length A <= n)%nat.
  Proof.
    intros n A N H. rewrite <- (seq_length n 0). apply NoDup_incl_length; auto. intros a Ha. apply in_seq. specialize (H a Ha). lia.
  Qed.
  Lemma forward_short : forall h p A v, forward h p A v -> (length v <= length h)%nat.
  Proof.
    intros h p A v F. rewrite <- (forward_length _ _ _ _ F). apply NoDup_bounded; [eapply forward_NoDup; eauto | eapply forward_bound; eauto].
  Qed.

  Lemma combine_addrs : forall A v, length A = length v -> addrs (combine A v) = A /\ vals (combine A v) = v.
  Proof.
    induction A as [|a A IH]; intros [|x v] L; cbn in *; try discriminate; auto.
    destruct (IH v) as [E1 E2]; [lia|]. unfold addrs, vals in *. now rewrite E1, E2.
  Qed.
  (** Conversely: links that agree in both directions are a doubly linked segment. *)
  Lemma backward_length : forall h p A v, backward h p A v -> length A = length v.
  Proof. induction 1; cbn; auto. Qed.
  Lemma shows_own : forall h l A v, list_shows h l A v -> own h l (combine A v) /\ addrs (combine A v) = A /\ vals (combine A v) = v.
  Proof.
    intros h l A v (F & B & Ln). pose proof (forward_length _ _ _ _ F) as L. destruct (combine_addrs A v L) as [E1 E2].
    split; [|auto]. pose proof (forward_NoDup _ _ _ _ F) as ND.
    set (cs := combine A v) in *. 
    assert (Lc : length cs = length v) by (unfold cs; rewrite combine_length; lia).
    rewrite <- E1, <- E2 in F, B. rewrite <- E1 in ND. clearbody cs. clear L.
    unfold Len in Ln. rewrite <- Lc in Ln. clear E1 E2 Lc A v.
    assert (Hd : head l = first_or cs None).
    { destruct cs as [|[a x] cs]; cbn in F; inversion F; subst; reflexivity. }
    assert (Tl : tail l = last_or cs None).
    { destruct cs as [|[a x] cs _] using rev_ind; cbn in B; [inversion B; subst; reflexivity|].
      unfold addrs, vals in B. rewrite !map_app, !rev_app_distr in B. cbn in B. inversion B; subst. now rewrite last_or_snoc. }
    repeat split; auto.
    (* the nodes *)
    assert (G : forall pre post, cs = pre ++ post -> forall p, backward h (last_or pre None) (rev (addrs pre)) (rev (vals pre)) -> p = last_or pre None ->
               forward h (first_or post None) (addrs post) (vals post) ->
               backward h (last_or post p) (rev (addrs post) ++ rev (addrs pre)) (rev (vals post) ++ rev (vals pre)) ->
               dll h p post None).
    { clear. intros pre post _. revert pre. induction post as [|[a x] post IH]; intros pre p Bp -> F B; cbn [dll]; auto.
      cbn [first_or addrs vals map fst snd] in F. inversion F; subst.
      assert (Fx : forward h (next n) (addrs post) (vals post)) by assumption.
      assert (Enx : next n = first_or post None).
      { destruct post as [|[b y] post]; cbn in Fx; inversion Fx; subst; cbn; congruence. }
      (* the node's prev, from the backward walk *)
      assert (Bn : backward h (Some a) (a :: rev (addrs pre)) (value n :: rev (vals pre))).
      { cbn [last_or addrs vals map fst snd rev] in B. rewrite <- !app_assoc in B. cbn [app] in B.
        assert (Gen : forall q A0 V0 A1 V1, backward h q (A0 ++ a :: A1) (V0 ++ value n :: V1) -> length A0 = length V0 -> backward h (Some a) (a :: A1) (value n :: V1)).
        { clear. intros q A0. revert q. induction A0 as [|c A0 IH]; intros q [|w V0] A1 V1 B L; cbn in *; try discriminate.
          - inversion B; subst. rewrite H2; exact B.
          - inversion B; subst. eapply IH; eauto. }
        eapply Gen; [exact B | rewrite !rev_length; unfold addrs, vals; now rewrite !map_length]. }
      inversion Bn as [|? n' ? ? Nn' Bp']; subst. assert (n' = n) by congruence. subst n'.
      assert (Epv : prev n = last_or pre None).
      { destruct pre as [|[b y] pre _] using rev_ind; unfold addrs, vals in Bp'; cbn in Bp'; [inversion Bp'; subst; reflexivity|].
        rewrite !map_app, !rev_app_distr in Bp'. cbn in Bp'. inversion Bp'; subst. now rewrite last_or_snoc. }
      split.
      - rewrite <- Enx, <- Epv. destruct n; cbn in *; auto.
      - apply (IH (pre ++ [(a, value n)])).
        + rewrite last_or_snoc. unfold addrs, vals. rewrite !map_app, !rev_app_distr. cbn. exact Bn.
        + now rewrite last_or_snoc.
        + rewrite <- Enx. exact Fx.
        + cbn [last_or addrs vals map fst snd rev] in B. rewrite <- !app_assoc in B. cbn [app] in B.
          unfold addrs, vals in *. rewrite !map_app, !rev_app_distr. cbn [map fst snd rev app]. exact B. }
    eapply (G [] cs); auto; try constructor.
    - rewrite Hd in F. exact F.
    - cbn. rewrite !app_nil_r. rewrite Tl in B. exact B.
  Qed.
End Proofs.
