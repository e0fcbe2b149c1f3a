(** ListShareProofs.v -- copies of linked lists: those that are only read. *)
From Verif Require Import Base BaseLemmas Effect VecSpec ListModel ListProofs ListIterProofs ListRunProofs.
From Verif Require Import ListHistory IterShareSpec IterShareModel IterShareListProofs ListShareSpec ListShareModel.
From Verif Require ListSpec.
Import ListSpec(forward, forward_nil, forward_node, apart, lstep, countable).

Section Copies.
  Context {T : Type}.
  Variable eqb : T -> T -> bool.
  Variable clone : T -> T.
  Implicit Types (h : heap T) (cs ds : list (nat * T)) (css : list (list (nat * T))).

  Lemma chain_forward : forall h ds p q A v, chain h p ds q -> forward h q A v -> forward h p (addrs ds ++ A) (vals ds ++ v).
  Proof.
    induction ds as [|[b x] ds IH]; intros p q A v C F; cbn [chain addrs vals map app fst snd] in *; [now subst|].
    destruct C as (-> & n & N & <- & C). econstructor; eauto.
  Qed.
  Lemma rests_forward : forall w css it r, owns w css -> rests (cells w) css it r ->
    exists A, forward (cells w) (pointer it) A (from_place (map vals css) r).
  Proof.
    intros w css it [pre pl] O (ds & V & Lo & C). cbn [fst snd] in *. unfold from_place. cbn [fst snd]. subst pre.
    destruct pl as [[v k]|].
    - destruct C as (q & Aq & C). unfold addr_at in Aq. destruct (nth_error css v) as [cs|] eqn:Hv; [|discriminate].
      destruct (nth_error cs k) as [[q' x]|] eqn:Hk; [|discriminate]. cbn in Aq. injection Aq as ->.
      pose proof (tail_chain _ _ _ _ k O Hv) as TC. rewrite Hk in TC. cbn [option_map fst] in TC.
      rewrite (nth_vals_eq _ _ _ Hv). exists (addrs ds ++ (addrs (skipn k cs) ++ [])). eapply chain_forward; [exact C|].
      replace (skipn k (vals cs)) with (vals (skipn k cs) ++ []) by (unfold vals; now rewrite skipn_map, app_nil_r).
      eapply chain_forward; [exact TC|constructor].
    - exists (addrs ds ++ []). eapply chain_forward; [exact C|constructor].
  Qed.

  (** Where the last element is. *)
  Lemma rests_last : forall w css v cs l, owns w css -> nth_error css v = Some cs -> nth_error (vars w) v = Some l ->
    rests (cells w) css (mkIter (tail l)) ([], match vals cs with [] => None | _ => Some (v, length (vals cs) - 1) end).
  Proof.
    intros w css v cs l O Hv Hl. destruct O as (_ & O & _). destruct (O v l cs Hl Hv) as (_ & _ & Tl & _).
    exists []. split; [reflexivity|]. split; [intros b []|]. cbn [snd pointer chain]. rewrite Tl.
    destruct cs as [|[b x] cs _] using rev_ind; [reflexivity|]. rewrite last_or_snoc.
    destruct (vals (cs ++ [(b, x)])) as [|y ys] eqn:E; [unfold vals in E; rewrite map_app in E; destruct (map snd cs); discriminate|].
    rewrite <- E, vals_length, app_length. cbn [length]. exists b. split; [|reflexivity]. unfold addr_at. rewrite Hv.
    rewrite nth_error_app2 by lia. replace (length cs + 1 - 1 - length cs) with 0 by lia. reflexivity.
  Qed.

  Definition stands (w : world T) css (l : LinkedList) (c : copy) : Prop :=
    len l = Z.of_nat (number c) /\ rests (cells w) css (mkIter (head l)) (first_at c) /\ rests (cells w) css (mkIter (tail l)) (last_at c).
  Lemma stands_copied : forall w css v cs l, owns w css -> nth_error css v = Some cs -> nth_error (vars w) v = Some l ->
    stands w css l (copied v (vals cs)).
  Proof.
    intros w css v cs l O Hv Hl. pose proof (rests_iter _ _ _ _ _ O Hv Hl) as R1. pose proof (rests_last _ _ _ _ _ O Hv Hl) as R2.
    destruct O as (_ & O & _). destruct (O v l cs Hl Hv) as (_ & _ & _ & Ln & _). rewrite <- vals_length in Ln.
    unfold stands, copied. destruct (vals cs); cbn [number first_at last_at length] in *; auto.
  Qed.

  Lemma eq_loop_agree : forall v1 v2 p1 A1 p2 A2 h fuel, forward h p1 A1 v1 -> forward h p2 A2 v2 -> length v1 < fuel ->
    eq_loop fuel (Some eqb) (mkIter p1) (mkIter p2) h = Ret (agree eqb v1 v2, h).
  Proof.
    induction v1 as [|x v1 IH]; intros [|y v2] p1 A1 p2 A2 h fuel F1 F2 Hf; cbn [length] in *;
      (destruct fuel as [|k]; [lia|]); cbn [eq_loop agree];
      pose proof (Next_spec _ _ _ _ F1) as N1; pose proof (Next_spec _ _ _ _ F2) as N2; cbv beta iota in N1, N2.
    - rewrite (mb_Ret _ _ _ _ _ _ _ _ N1), (mb_Ret _ _ _ _ _ _ _ _ N2). reflexivity.
    - destruct N2 as (q2 & B2 & N2 & F2' & _). rewrite (mb_Ret _ _ _ _ _ _ _ _ N1), (mb_Ret _ _ _ _ _ _ _ _ N2). reflexivity.
    - destruct N1 as (q1 & B1 & N1 & F1' & _). rewrite (mb_Ret _ _ _ _ _ _ _ _ N1), (mb_Ret _ _ _ _ _ _ _ _ N2). reflexivity.
    - destruct N1 as (q1 & B1 & N1 & F1' & _). destruct N2 as (q2 & B2 & N2 & F2' & _).
      rewrite (mb_Ret _ _ _ _ _ _ _ _ N1), (mb_Ret _ _ _ _ _ _ _ _ N2). cbn [snd fst]. unfold mbind. cbn [of_option bind].
      destruct (eqb x y); [|reflexivity]. cbn [andb]. eapply IH; eauto. lia.
  Qed.
  Lemma Eq_agree : forall l m A1 v1 A2 v2 h, forward h (head l) A1 v1 -> forward h (head m) A2 v2 ->
    ListModel.Eq (Some eqb) l m h = Ret ((Z.eqb (len l) (len m) && agree eqb v1 v2)%bool, h).
  Proof.
    intros l m A1 v1 A2 v2 h F1 F2. unfold ListModel.Eq, Len, IntoIter. destruct (Z.eqb (len l) (len m)); [|reflexivity].
    cbn [negb andb]. eapply eq_loop_agree; eauto. pose proof (forward_short _ _ _ _ F1). lia.
  Qed.

  Lemma world_eta : forall w : world T, mkWorld (cells w) (vars w) = w.
  Proof. now intros []. Qed.
  Lemma read_Ret : forall w ls c l f a, nth_error ls c = Some l -> f l (cells w) = Ret (a, cells w) ->
    read (T := T) (w, ls) c f = Ret (w, ls, a).
  Proof. intros w ls c l f a N E. unfold read. cbn [fst snd]. rewrite N. cbn [of_option bind]. rewrite E. cbn [bind fst snd]. now rewrite world_eta. Qed.

  Lemma shared_run : forall s cps prog ans, shared eqb clone s cps prog ans -> forall w css ls, owns w css -> s = map vals css -> countable s ->
    Forall2 (stands w css) ls cps -> srun eqb clone (w, ls) prog = Ret ans.
  Proof.
    induction 1 as [s cps|s cps o s' a p l St Cn Id IH|s cps v xs p l N Id IH|s cps c x p l N Id IH|s cps c x p l N Id IH
      |s cps c x p l N Id IH|s cps c x p l N Id IH|s cps c x p l N Id IH|s cps c v x ys p l N N' Id IH];
      intros w css ls O E C F; cbn [srun sexec]; subst s.
    1: reflexivity.
    1:{ destruct (exec_shape eqb clone _ _ _ _ _ O C St Cn) as (w' & css' & Ex & O' & V & Sh & Qt). rewrite Ex. cbn [bind fst snd].
        rewrite (IH w' css' ls O' V Cn); [reflexivity|].
        eapply Forall2_map2; [|exact F]. intros l0 cp (S1 & S2 & S3). unfold stands, moved. cbn [number first_at last_at].
        split; [auto|]. split; eapply rests_step; eauto. }
    1:{ apply nth_vals in N as (cs & Hcs & <-). destruct (owns_var _ _ _ _ O Hcs) as (l0 & Hl & Ol).
        unfold idx. rewrite Hl. cbn [of_option bind fst snd]. rewrite (IH w css (ls ++ [l0]) O eq_refl C); [reflexivity|].
        apply Forall2_app; [auto|]. constructor; [|constructor]. eapply stands_copied; eauto. }
    all: destruct (Forall2_next _ _ _ _ _ _ _ F N) as (l0 & N2 & (S1 & S2 & S3) & _);
         destruct (rests_forward _ _ _ _ O S2) as (A1 & F1); destruct (rests_forward _ _ _ _ O S3) as (A2 & F2); cbn [pointer] in F1, F2.
    6: apply nth_vals in N' as (cs & Hcs & <-); destruct (owns_var _ _ _ _ O Hcs) as (k0 & Hk & Ok);
       unfold idx; rewrite Hk; cbn [of_option bind fst snd].
    all: erewrite read_Ret; [cbn [bind fst snd]; rewrite (IH w css ls O eq_refl C F); reflexivity|exact N2|].
    - unfold IntoIter. rewrite (mb_Ret _ _ _ _ _ _ _ _ (It_CollectToVec_spec _ _ _ _ F1)). reflexivity.
    - unfold mret, Len. now rewrite S1.
    - unfold mret, IsEmpty. rewrite S1. destruct (number x); reflexivity.
    - unfold Front. rewrite (mb_Ret _ _ _ _ _ _ _ _ (peek_Ret _ _ _ _ F1)). reflexivity.
    - unfold Back. rewrite (mb_Ret _ _ _ _ _ _ _ _ (peek_Ret _ _ _ _ F2)). reflexivity.
    - destruct (own_shows _ _ _ Ok) as (Fk & _ & Ln). rewrite (mb_Ret _ _ _ _ _ _ _ _ (Eq_agree _ _ _ _ _ _ _ F1 Fk)).
      unfold mret. unfold Len in Ln. rewrite S1, Ln. do 4 f_equal.
      destruct (Nat.eqb_spec (number x) (length (vals cs))) as [->|D]; [apply Z.eqb_refl|apply Z.eqb_neq; lia].
  Qed.

  (** *** Calls at the front only *)
  Definition still (w : list (list T)) (xs : list T) (c : copy) : Prop :=
    number c = length xs /\ sound w (first_at c) /\ from_place w (first_at c) = xs /\
    sound w (last_at c) /\ from_place w (last_at c) = match rev xs with [] => [] | x :: _ => [x] end.
  Lemma agree_same : forall xs ys, length xs = length ys -> agree eqb xs ys = same_elements eqb xs ys.
  Proof. induction xs as [|x xs IH]; intros [|y ys] L; cbn in *; try discriminate; auto. rewrite IH; auto. Qed.
  Lemma still_copied : forall w v xs, nth_error w v = Some xs -> still w xs (copied v xs).
  Proof.
    intros w v xs N. apply nth_of in N as [N L]. unfold still, copied. destruct xs as [|x xs]; cbn [number first_at last_at].
    - unfold sound, from_place. cbn. auto.
    - unfold sound, from_place. cbn [snd fst app]. rewrite N. split; [reflexivity|]. split; [cbn [length]; lia|]. split; [reflexivity|].
      split; [cbn [length]; lia|]. destruct (x :: xs) as [|y l _] eqn:E using rev_ind; [discriminate|].
      rewrite app_length, rev_app_distr. cbn [length rev app]. replace (length l + 1 - 1) with (length l) by lia.
      rewrite skipn_app, skipn_all, Nat.sub_diag. reflexivity.
  Qed.
  Lemma values_shared : forall w vs p l, values eqb clone w vs p l -> forall watched cps, only_fronts watched p = true ->
    (watched = false -> cps = []) -> Forall2 (still w) vs cps -> shared eqb clone w cps p l.
  Proof.
    induction 1 as [s vs|s vs o s' a p l St Cn Id IH|s vs v xs p l N Id IH|s vs c xs p l N Id IH|s vs c xs p l N Id IH
      |s vs c xs p l N Id IH|s vs c xs p l N Id IH|s vs c xs p l N Id IH|s vs c v xs ys p l N N' Id IH]; intros watched cps C W F; cbn [only_fronts] in C.
    1: constructor.
    1:{ apply andb_prop in C as [C1 C2]. econstructor; eauto. apply (IH watched); auto.
        - intros ->. rewrite W by auto. reflexivity.
        - destruct watched; cbn [negb orb] in C1; [|rewrite W in * by auto; inversion F; subst; constructor].
          eapply Forall2_map2; [|exact F]. intros e c (E1 & S1 & E2 & S2 & E3). unfold still, moved. cbn [number first_at last_at].
          destruct (ahead_step eqb clone s o s' a _ St C1 S1) as [A1 A2]. destruct (ahead_step eqb clone s o s' a _ St C1 S2) as [B1 B2].
          unfold from_place in *. unfold ahead in *. rewrite A2, B2. auto. }
    1:{ econstructor; eauto. apply (IH true); auto; [discriminate|]. apply Forall2_app; auto. constructor; [now apply still_copied|constructor]. }
    all: assert (F' : Forall2 (fun r e => still s e r) cps vs) by (clear - F; induction F; constructor; auto);
      destruct (Forall2_next _ _ _ _ _ _ _ F' N) as (c0 & N2 & (E1 & S1 & E2 & S2 & E3) & _).
    - rewrite <- E2. econstructor; eauto.
    - rewrite <- E1. econstructor; eauto.
    - rewrite <- E1. econstructor; eauto.
    - rewrite <- E2. econstructor; eauto.
    - replace (hd_error (rev xs)) with (hd_error (from_place s (last_at c0))) by (rewrite E3; now destruct (rev xs)). econstructor; eauto.
    - replace (same_elements eqb xs ys) with ((number c0 =? length ys) && agree eqb (from_place s (first_at c0)) ys)%bool; [econstructor; eauto|].
      rewrite E1, E2. destruct (Nat.eqb_spec (length xs) (length ys)) as [L|L]; [now apply agree_same|]. symmetry. now apply same_elements_length.
  Qed.
  Lemma values_run : forall p l, values eqb clone [] [] p l -> only_fronts false p = true -> srun eqb clone (start, []) p = Ret l.
  Proof.
    intros p l V C. eapply (shared_run [] []); [eapply values_shared; eauto; constructor|apply owns_start|reflexivity|constructor|constructor].
  Qed.
End Copies.
