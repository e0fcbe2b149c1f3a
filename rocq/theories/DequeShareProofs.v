(** DequeShareProofs.v -- windows on rings, and variables that share nothing. *)
From Verif Require Import Base BaseLemmas Effect VecSpec VecProofs DequeHistory.
From Verif Require Import DequeModel DequeProofs DequeRunProofs IterShareDequeProofs DequeShareSpec DequeShareModel.
From Verif Require Import IterShareModel.
From Verif Require DequeSpec.
From Verif Require VecModel.
Notation oloop := VecModel.oloop.
Local Open Scope Z_scope.
Import DequeSpec(dstep, danswer, dop).

Lemma NoDup_app_iff_snoc : forall A (l : list A) x, NoDup l -> ~ In x l -> NoDup (l ++ [x]).
Proof.
  induction l as [|y l IH]; intros x H N; cbn.
  - constructor; auto.
  - inversion H; subst. constructor; [|apply IH; cbn in N; tauto]. rewrite in_app_iff. cbn in *. intuition congruence.
Qed.
Lemma Forall2_impl_in : forall A B (P Q : A -> B -> Prop) la lb, Forall2 P la lb -> (forall a b, In a la -> P a b -> Q a b) -> Forall2 Q la lb.
Proof. intros A B P Q la lb H. induction H; intros HQ; constructor; [apply HQ; cbn; auto|]. apply IHForall2. intros. apply HQ; cbn; auto. Qed.

Section Share.
  Context {T : Type}.
  Variable zero : T.
  Variable limit : Z.
  Hypothesis limit_ok : 7 <= limit < 2 ^ 63.
  Variable eqb : T -> T -> bool.
  Notation rep := (DequeProofs.rep (T := T) limit).
  Notation exec := (DequeHistory.exec zero limit eqb).
  Notation fits := (DequeShareSpec.fits limit).
  Implicit Types (d : VecDeque T) (xs : list T).

  (** *** One call: the exact capacity. *)
  Lemma exec_exact : forall d xs c o xs' a, rep d xs c -> dstep eqb xs o xs' a -> fits (capacity_after o (length xs) c) ->
    exists d', exec d o = Ret (d', a) /\ rep d' xs' (capacity_after o (length xs) c).
  Proof.
    intros d xs c o xs' a R St HL. unfold DequeShareSpec.fits in HL. pose proof (rep_pos _ _ _ _ R) as P. pose proof (rep_len _ _ _ _ R) as L.
    inversion St; subst; cbn [capacity_after DequeHistory.exec] in *.
    - destruct (PushFront_spec zero limit limit_ok d xs c x R) as (d' & E & R').
      { unfold roomier. destruct (Nat.eqb_spec (length xs) c); subst; auto. }
      rewrite E. cbn [bind]. eexists. split; [reflexivity|]. unfold roomier in R'. destruct (Nat.eqb_spec (length xs) c) as [<-|]; auto.
    - destruct (PushBack_spec zero limit limit_ok d xs c x R) as (d' & E & R').
      { unfold roomier. destruct (Nat.eqb_spec (length xs) c); subst; auto. }
      rewrite E. cbn [bind]. eexists. split; [reflexivity|]. unfold roomier in R'. destruct (Nat.eqb_spec (length xs) c) as [<-|]; auto.
    - rewrite (PopFront_nil _ _ _ R). cbn [bind fst snd]. eauto.
    - destruct (PopFront_cons _ limit_ok _ _ _ _ R) as (d' & E & R'). rewrite E. cbn [bind fst snd]. eauto.
    - rewrite (PopBack_nil _ _ _ R). cbn [bind fst snd]. eauto.
    - destruct (PopBack_snoc _ limit_ok _ _ _ _ R) as (d' & E & R'). rewrite E. cbn [bind fst snd]. eauto.
    - exists d. replace i with (Z.of_nat (Z.to_nat i)) by lia. rewrite (Get_spec _ limit_ok _ _ _ _ R), at_nat. auto.
    - match goal with H : DequeSpec.inside _ _ |- _ => destruct H as [I1 I2] end.
      destruct (Set_in _ limit_ok d xs c (Z.to_nat i) x R) as (d' & E & R'); [lia|]. rewrite Z2Nat.id in E by lia.
      rewrite E. cbn [bind fst snd]. exists d'. rewrite <- list_set_seq_set by lia. auto.
    - rewrite (Set_out _ _ _ _ _ x R) by lia. cbn [bind fst snd]. eauto.
    - match goal with H : DequeSpec.inside _ i, H' : DequeSpec.inside _ j |- _ => destruct H as [I1 I2]; destruct H' as [J1 J2] end.
      destruct (nth_error xs (Z.to_nat i)) as [x|] eqn:Ni; [|apply nth_error_None in Ni; lia].
      destruct (nth_error xs (Z.to_nat j)) as [y|] eqn:Nj; [|apply nth_error_None in Nj; lia].
      destruct (Swap_spec _ limit_ok d xs c _ _ _ _ R Ni Nj) as (d' & E & R'). rewrite !Z2Nat.id in E by lia.
      rewrite E. cbn [bind]. exists d'.
      match goal with H : exchanged xs xs' _ _ |- _ =>
        rewrite (exchanged_unique _ _ _ _ _ H (list_set_exchanged _ _ _ _ _ Ni Nj)) end. auto.
    - exists d. change (Front d) with (Get d (Z.of_nat 0)). rewrite (Get_spec _ limit_ok _ _ _ _ R). cbn [bind]. split; auto.
    - exists d. unfold Back, Len. rewrite L. split; [|auto].
      destruct (rev xs') as [|y r] eqn:Er.
      + assert (xs' = []) by (rewrite <- (rev_involutive xs'), Er; reflexivity). subst xs'. cbn [length].
        change (u64 (Z.of_nat 0 - 1)) with (2 ^ 64 - 1). unfold Get, Len. rewrite L. reflexivity.
      + assert (E : xs' = rev r ++ [y]) by (rewrite <- (rev_involutive xs'), Er; reflexivity).
        rewrite E in *. rewrite app_length in *. cbn [length] in *. rewrite u64_small by lia.
        replace (Z.of_nat (length (rev r) + 1) - 1) with (Z.of_nat (length (rev r))) by lia.
        rewrite (Get_spec _ limit_ok _ _ _ _ R). cbn [bind]. rewrite nth_error_app2, Nat.sub_diag by lia. reflexivity.
    - destruct (Clear_spec zero limit limit_ok d) as (d' & E & R'). rewrite E. cbn [bind]. eauto.
    - exists d. unfold Len. rewrite L. auto.
    - exists d. unfold IsEmpty. rewrite L. split; auto. destruct xs'; reflexivity.
    - exists d. rewrite (Contains_spec _ limit_ok eqb d xs' c x R). auto.
    - destruct (Reserve_spec zero limit limit_ok d xs' c (Z.to_nat n) R) as (d' & E & R'); [lia|].
      rewrite Z2Nat.id in E by lia. rewrite E. cbn [bind]. eauto.
    - pose proof (Retain_spec _ limit_ok unit (fun x => mret (p x)) d xs c tt R) as H.
      rewrite each_filter_pure in H. destruct H as (d' & E & R' & Hd). rewrite E. cbn [bind fst]. eauto.
    - destruct (Dedup_spec _ limit_ok eqb d xs c R) as (d' & E & R' & Hd). rewrite E. cbn [bind]. eauto.
    - destruct (Fill_spec _ limit_ok d xs c x R) as (d' & E & R' & Hd). rewrite E. cbn [bind]. eauto.
  Qed.
  Lemma replaced_leaves : forall d xs c o d' xs', rep d xs c -> rep d' xs' (capacity_after o (length xs) c) ->
    replaced o d d' = leaves o (length xs) c.
  Proof.
    intros d xs c o d' xs' R R'. pose proof (rep_cap _ _ _ _ R) as C. pose proof (rep_cap _ _ _ _ R') as C'.
    unfold replaced, leaves. rewrite C, C'.
    assert (Q : (Z.of_nat (capacity_after o (length xs) c) =? Z.of_nat c) = Nat.eqb (capacity_after o (length xs) c) c).
    { destruct (Nat.eqb_spec (capacity_after o (length xs) c) c) as [->|N]; [apply Z.eqb_refl|apply Z.eqb_neq; lia]. }
    destruct o; try reflexivity; now rewrite Q.
  Qed.

  (** *** A call in place writes no cell outside its window. *)
  Definition kept (d d' : VecDeque T) (n : Z) : Prop :=
    head d' = head d /\ length (buffer d') = length (buffer d) /\
    forall j, (forall i, 0 <= i < n -> Z.of_nat j <> ToPhysicalIndex d i) -> nth_error (buffer d') j = nth_error (buffer d) j.
  Lemma kept_refl : forall d n, kept d d n.
  Proof. split; [|split]; auto. Qed.
  Lemma phys_same : forall d d' i, head d' = head d -> length (buffer d') = length (buffer d) -> ToPhysicalIndex d' i = ToPhysicalIndex d i.
  Proof. intros d d' i H L. unfold ToPhysicalIndex, WrapAdd, WrapIndex, Capacity. now rewrite H, L. Qed.
  Lemma kept_trans : forall d d1 d2 n, kept d d1 n -> kept d1 d2 n -> kept d d2 n.
  Proof.
    intros d d1 d2 n (A1 & A2 & A3) (B1 & B2 & B3). split; [congruence|]. split; [congruence|]. intros j H. rewrite B3; auto.
    intros i Hi. rewrite (phys_same d d1); auto.
  Qed.
  Lemma kept_le : forall d d' n m, kept d d' n -> n <= m -> kept d d' m.
  Proof. intros d d' n m (A & B & C) H. split; [auto|]. split; [auto|]. intros j Q. apply C. intros i Hi. apply Q. lia. Qed.
  Lemma bupd_cells : forall (b b' : list T) i v, bupd b i v = Ret b' -> length b' = length b /\
    forall j, Z.of_nat j <> i -> nth_error b' j = nth_error b j.
  Proof.
    intros b b' i v E. unfold bupd in E. destruct ((0 <=? i) && (i <? Z.of_nat (length b))) eqn:B; [|discriminate].
    apply andb_prop in B as [B1 B2]. apply Z.leb_le in B1. apply Z.ltb_lt in B2. rewrite upd_Ret in E by lia. injection E as <-.
    split; [apply list_set_length|]. intros j N. apply nth_error_list_set_neq. lia.
  Qed.
  Lemma set_kept : forall d i v d' n, SetUnchecked d i v = Ret d' -> 0 <= i < n -> kept d d' n.
  Proof.
    intros d i v d' n E Hi. unfold SetUnchecked in E. apply bind_Ret in E as (b & E & Q). injection Q as <-. apply bupd_cells in E as [L C].
    split; [reflexivity|]. split; [exact L|]. intros j H. apply C. auto.
  Qed.
  Lemma retain_kept : forall (p : T -> bool) l d n d' n', 0 <= n -> n + Z.of_nat (length l) < 2 ^ 64 ->
    mloop (retain_body (S := unit) (fun x => mret (p x))) l (d, n) tt = Ret (d', n', tt) -> n <= n' /\ kept d d' n'.
  Proof.
    intros p. induction l as [|i l IH]; intros d n d' n' Hn HL E; cbn [mloop] in E.
    - injection E as <- <-. split; [lia|apply kept_refl].
    - cbn [length] in HL. unfold mbind at 1 in E. unfold retain_body at 1, mbind, mlift, mret in E.
      destruct (GetUnchecked d i) as [x| |]; cbn [bind] in E; try discriminate. destruct (p x).
      + destruct (SetUnchecked d n x) as [d1| |] eqn:S1; cbn [bind] in E; try discriminate. rewrite u64_small in E by lia.
        apply IH in E as [A B]; [|lia|lia]. split; [lia|]. eapply kept_trans; [|exact B]. eapply set_kept; [exact S1|lia].
      + apply IH in E as [A B]; [|lia|lia]. auto.
  Qed.
  Lemma dedup_kept : forall e l d n d' n', 0 <= n -> n + Z.of_nat (length l) < 2 ^ 64 ->
    oloop (dedup_body (Some e)) l (d, n) = Ret (d', n') -> n <= n' /\ kept d d' n'.
  Proof.
    intros e. induction l as [|i l IH]; intros d n d' n' Hn HL E; cbn [oloop] in E.
    - injection E as <- <-. split; [lia|apply kept_refl].
    - cbn [length] in HL. unfold dedup_body at 1 in E. cbn [of_option bind] in E.
      destruct (GetUnchecked d i) as [x| |]; cbn [bind] in E; try discriminate.
      destruct (GetUnchecked d (u64 (n - 1))) as [y| |]; cbn [bind] in E; try discriminate. destruct (negb (e x y)).
      + destruct (SetUnchecked d n x) as [d1| |] eqn:S1; cbn [bind] in E; try discriminate. rewrite u64_small in E by lia.
        apply IH in E as [A B]; [|lia|lia]. split; [lia|]. eapply kept_trans; [|exact B]. eapply set_kept; [exact S1|lia].
      + cbn [bind] in E. apply IH in E as [A B]; [|lia|lia]. auto.
  Qed.
  Lemma fill_kept : forall x l d d' n, (forall i, In i l -> 0 <= i < n) ->
    oloop (fun d i => SetUnchecked d i x) l d = Ret d' -> kept d d' n.
  Proof.
    intros x. induction l as [|i l IH]; intros d d' n H E; cbn [oloop] in E.
    - injection E as <-. apply kept_refl.
    - destruct (SetUnchecked d i x) as [d1| |] eqn:S1; cbn [bind] in E; try discriminate.
      eapply kept_trans; [eapply set_kept; [exact S1|apply H; now left]|]. eapply IH; [|exact E]. intros k Hk. apply H. now right.
  Qed.

  Lemma rep_phys : forall d xs c i, rep d xs c -> (i <= c)%nat -> ToPhysicalIndex d (Z.of_nat i) = Z.of_nat (ring c (Z.to_nat (head d)) i).
  Proof.
    intros d xs c i (b & h & -> & (Hh & HL & Hn) & Lb & Hl) Hi. subst c. rewrite (phys limit limit_ok) by auto.
    cbn [deq_of head]. now rewrite Nat2Z.id.
  Qed.
  Lemma kept_frame : forall d xs c d' n, rep d xs c -> (n <= c)%nat -> kept d d' (Z.of_nat n) ->
    forall j, (forall i, (i < n)%nat -> j <> ring c (Z.to_nat (head d')) i) -> nth_error (buffer d') j = nth_error (buffer d) j.
  Proof.
    intros d xs c d' n R Hn (A & B & C) j H. apply C. intros i Hi E. apply (H (Z.to_nat i)); [lia|].
    rewrite <- (Z2Nat.id i) in E by lia. rewrite (rep_phys d xs c) in E by (auto; lia). rewrite A. lia.
  Qed.
  Lemma exec_frame : forall d xs c o xs' a d' a', rep d xs c -> rep d' xs' c -> dstep eqb xs o xs' a ->
    exec d o = Ret (d', a') -> replaced o d d' = false ->
    forall j, (forall i, (i < length xs')%nat -> j <> ring c (Z.to_nat (head d')) i) -> nth_error (buffer d') j = nth_error (buffer d) j.
  Proof.
    intros d xs c o xs' a d' a' R R' St E Np j Hj.
    destruct (exec_shape zero limit limit_ok eqb d xs c o xs' a d' c a' R R' St E Np) as (_ & Sh & Rd).
    destruct (reading o) eqn:Ro; [now rewrite Rd|]. clear Rd.
    pose proof (rep_pos _ _ _ _ R) as P. pose proof (rep_pos _ _ _ _ R') as P'. pose proof (rep_len _ _ _ _ R) as L.
    pose proof (rep_len _ _ _ _ R') as L'.
    assert (Cq : Capacity d' = Capacity d) by (rewrite (rep_cap _ _ _ _ R), (rep_cap _ _ _ _ R'); reflexivity).
    assert (K : kept d d' (Z.of_nat (length xs')) -> nth_error (buffer d') j = nth_error (buffer d) j).
    { intros K. apply (kept_frame d xs c d' (length xs')); auto. lia. }
    inversion St; subst; cbn [reading] in Ro; try discriminate; cbn [DequeHistory.exec] in E.
    - apply bind_Ret in E as (d1 & E & Q). injection Q as -> _.
      pose proof (not_full zero limit limit_ok d xs c x d' R (or_intror E) Cq) as F. unfold PushFront in E. rewrite F in E. cbn [bind] in E.
      apply bind_Ret in E as (b1 & E1 & E). injection E as <-. apply bupd_cells in E1 as [_ C]. cbn [buffer head] in *. apply C.
      specialize (Hj 0%nat ltac:(cbn; lia)).
      assert (HH : (Z.to_nat (WrapSub d (head d) 1) < c)%nat) by exact (rep_head _ _ _ _ R').
      assert (0 <= WrapSub d (head d) 1) by (destruct R' as (b0 & h0 & E0 & _); inversion E0; lia).
      intros Q. apply Hj. rewrite <- Q, Nat2Z.id. rewrite <- Q, Nat2Z.id in HH. ring_cases.
    - apply bind_Ret in E as (d1 & E & Q). injection Q as -> _.
      pose proof (not_full zero limit limit_ok d xs c x d' R (or_introl E) Cq) as F. unfold PushBack in E. rewrite F in E. cbn [bind] in E.
      apply bind_Ret in E as (b1 & E1 & E). injection E as <-. apply bupd_cells in E1 as [_ C]. cbn [buffer head] in *. apply C.
      rewrite L. rewrite (rep_phys d xs c) by (auto; lia). intros Q. apply (Hj (length xs)); [rewrite app_length; cbn; lia|lia].
    - apply bind_Ret in E as (p & E & Q). injection Q as <- _. apply K. destruct H as [H1 H2]. unfold Set_ in E.
      destruct (Len d <=? i); [injection E as <-; apply kept_refl|].
      apply (set_kept d i x (fst p)); [|unfold seq_set; rewrite <- list_set_split, list_set_length by lia; lia].
      unfold SetUnchecked. apply bind_Ret in E as (b & E & Q). rewrite E. cbn [bind]. now injection Q as <-.
    - apply bind_Ret in E as (p & E & Q). injection Q as <- _. apply K. unfold Set_ in E.
      unfold Len in E. rewrite L in E. rewrite (proj2 (Z.leb_le _ _)) in E by lia. injection E as <-. apply kept_refl.
    - apply bind_Ret in E as (p & E & Q). injection Q as <- _. apply K. unfold Swap in E.
      destruct (Z.eqb_spec i j0); [injection E as <-; apply kept_refl|].
      apply bind_Ret in E as (x & _ & E). apply bind_Ret in E as (y & _ & E). apply bind_Ret in E as (b1 & E1 & E). apply bind_Ret in E as (b2 & E2 & E).
      injection E as <-. apply bupd_cells in E1 as [L1 C1]. apply bupd_cells in E2 as [L2 C2].
      match goal with H : exchanged _ _ _ _ |- _ => pose proof (proj1 H) as LL end. unfold DequeSpec.inside in *.
      split; [reflexivity|]. split; [cbn; congruence|]. intros k Hk. cbn [buffer]. rewrite C2, C1; auto; apply Hk; lia.
    - apply bind_Ret in E as ([q u] & E & Q). injection Q as <- _. apply K. unfold Retain in E.
      match type of E with mbind ?m ?k tt = _ => change m with (mloop (retain_body (S := unit) (fun x => mret (p x))) (indices 0 (Len d)) (d, 0)) in E end.
      unfold mbind in E. destruct (mloop _ _ _ tt) as [[[d1 n1] []]| |] eqn:M; try discriminate. unfold mret in E. injection E as <- _.
      cbn [fst snd] in *. unfold Len in M. rewrite L, indices_0 in M. apply retain_kept in M as [_ M]; [|lia|rewrite map_length, seq_length; lia].
      cbn [dlen] in L'. rewrite L' in M. destruct M as (M1 & M2 & M3). split; [exact M1|]. split; [exact M2|exact M3].
    - apply bind_Ret in E as (q & E & Q). injection Q as <- _. apply K. unfold Dedup in E. destruct (IsEmpty d) eqn:Em; [injection E as <-; apply kept_refl|].
      fold (dedup_body (T := T) (Some eqb)) in E. apply bind_Ret in E as ([d1 n1] & M & E). injection E as <-. cbn [fst snd] in *.
      unfold IsEmpty in Em. rewrite L in Em. apply Z.eqb_neq in Em. destruct xs as [|x xs]; [now elim Em|]. cbn [length] in L. unfold Len in M. rewrite L, indices_1 in M.
      apply dedup_kept in M as [_ M]; [|lia|rewrite map_length, seq_length; cbn [length] in P; lia].
      cbn [dlen] in L'. rewrite L' in M. destruct M as (M1 & M2 & M3). split; [exact M1|]. split; [exact M2|exact M3].
    - apply bind_Ret in E as (q & E & Q). injection Q as <- _. apply K. unfold Fill in E. unfold Len in E. rewrite L, indices_0 in E.
      eapply fill_kept; [|exact E]. intros i Hi. apply in_map_iff in Hi as (k & <- & Hk). apply in_seq in Hk. rewrite map_length. lia.
  Qed.

  (** *** Circles *)
  Implicit Types (r : circle (T := T)) (w : window).
  Lemma ring_mod : forall c h i, (h < c)%nat -> (i <= c)%nat -> ring c h i = ((h + i) mod c)%nat.
  Proof.
    intros c h i H1 H2. unfold ring. destruct (Nat.ltb_spec (h + i) c).
    - symmetry. now apply Nat.mod_small.
    - replace (h + i)%nat with (h + i - c + 1 * c)%nat at 2 by lia. rewrite Nat.mod_add by lia. symmetry. apply Nat.mod_small. lia.
  Qed.
  Lemma lay_length : forall xs r p, length (lay r p xs) = length r.
  Proof. induction xs as [|x xs IH]; intros r p; cbn [lay]; auto. rewrite IH. apply list_set_length. Qed.
  (** Cells not written. *)
  Lemma lay_out : forall xs r p q, (forall i, (i < length xs)%nat -> q <> place r (p + i)) -> nth_error (lay r p xs) q = nth_error r q.
  Proof.
    induction xs as [|x xs IH]; intros r p q H; cbn [lay]; auto. rewrite IH.
    - apply nth_error_list_set_neq. specialize (H 0%nat ltac:(cbn; lia)). rewrite Nat.add_0_r in H. auto.
    - intros i Hi. unfold place. rewrite list_set_length. specialize (H (S i) ltac:(cbn; lia)). unfold place in H.
      replace (S p + i)%nat with (p + S i)%nat by lia. exact H.
  Qed.
  Lemma lay_in : forall xs r p i x, (0 < length r)%nat -> (length xs <= length r)%nat -> nth_error xs i = Some x ->
    nth_error (lay r p xs) (place r (p + i)) = Some (Some x).
  Proof.
    induction xs as [|y xs IH]; intros r p i x H0 HL N; [destruct i; discriminate|]. cbn [lay length] in *. destruct i as [|i].
    - injection N as ->. rewrite Nat.add_0_r. rewrite lay_out.
      + apply nth_error_list_set_eq. apply Nat.mod_upper_bound. lia.
      + intros i Hi. unfold place. rewrite list_set_length. replace (S p + i)%nat with (p + (S i))%nat by lia.
        intros E. assert (D : ((p + S i) mod length r = (p + 0) mod length r)%nat) by (rewrite Nat.add_0_r; auto).
        pose proof (Nat.div_mod (p + S i) (length r) ltac:(lia)) as D1. pose proof (Nat.div_mod (p + 0) (length r) ltac:(lia)) as D2.
        rewrite D in D1. assert (length r * ((p + S i) / length r) - length r * ((p + 0) / length r) = S i)%nat by lia.
        rewrite <- Nat.mul_sub_distr_l in H. destruct ((p + S i) / length r - (p + 0) / length r)%nat as [|k]; [lia|]. nia.
    - replace (p + S i)%nat with (S p + i)%nat by lia. specialize (IH (list_set r (place r p) (Some y)) (S p) i x).
      unfold place in *. rewrite list_set_length in IH. apply IH; auto; lia.
  Qed.
  Lemma contents_known : forall r w xs, (0 < length r)%nat -> contents r w = map Some xs -> count w = length xs /\
    forall i x, nth_error xs i = Some x -> nth_error r (place r (first w + i)%nat) = Some (Some x).
  Proof.
    intros r w xs H0 E. assert (L : count w = length xs).
    { apply (f_equal (@length _)) in E. unfold contents in E. rewrite !map_length, seq_length in E. exact E. }
    split; [exact L|]. intros i x N.
    assert (Hi : (i < length xs)%nat) by (apply nth_error_Some; congruence).
    apply (f_equal (fun l => nth_error l i)) in E. unfold contents in E. rewrite !nth_error_map, N in E.
    rewrite (nth_error_nth' _ 0%nat) in E by (rewrite seq_length; lia). rewrite seq_nth in E by lia. cbn in E. injection E as E.
    rewrite (nth_error_nth' _ None) by (apply Nat.mod_upper_bound; lia). f_equal. exact E.
  Qed.
  Lemma fresh_length : forall xs c, (length xs <= c)%nat -> length (fresh xs c) = c.
  Proof. intros. unfold fresh. rewrite app_length, map_length, repeat_length. lia. Qed.
  Lemma fresh_known : forall xs c p x, nth_error (fresh xs c) p = Some (Some x) -> nth_error xs p = Some x.
  Proof.
    intros xs c p x H. unfold fresh in H. destruct (Nat.lt_ge_cases p (length xs)).
    - rewrite nth_error_app1 in H by (rewrite map_length; auto). rewrite nth_error_map in H. destruct (nth_error xs p); cbn in H; congruence.
    - rewrite nth_error_app2 in H by (rewrite map_length; auto). apply nth_error_In, repeat_spec in H. discriminate.
  Qed.

  (** *** Simulation.  [K]: how far each buffer is turned against its circle. *)
  Definition turned (k : nat) (r : circle (T := T)) (b : list T) : Prop :=
    length b = length r /\ (k < length r)%nat /\ Z.of_nat (length r) <= limit /\
    forall p x, nth_error r p = Some (Some x) -> nth_error b (ring (length r) k p) = Some x.
  Definition known (r : circle (T := T)) (w : window) : Prop :=
    forall i, (i < count w)%nat -> exists x, nth_error r (ring (length r) (first w) i) = Some (Some x).
  Definition head_of (K : nat -> nat) (rs : list (circle (T := T))) (h : header) (w : window) : Prop :=
    exists r, nth_error rs (on w) = Some r /\ buf h = on w /\ (first w < length r)%nat /\ (count w <= length r)%nat /\
      hlen h = Z.of_nat (count w) /\ hhead h = Z.of_nat (ring (length r) (K (on w)) (first w)) /\ known r w.
  Record sim (K : nat -> nat) (m : world (T := T)) (s : circles (T := T)) : Prop := {
    sim_number : length (fst m) = length (fst s);
    sim_turned : forall id r, nth_error (fst s) id = Some r -> exists b, nth_error (fst m) id = Some b /\ turned (K id) r b;
    sim_heads : Forall2 (head_of K (fst s)) (snd m) (snd s)
  }.

  Lemma Forall2_nth : forall A B (P : A -> B -> Prop) la lb i b, Forall2 P la lb -> nth_error lb i = Some b -> exists a, nth_error la i = Some a /\ P a b.
  Proof. intros A B P la lb i b H. revert i. induction H; intros [|i] E; cbn in *; try discriminate; [injection E as <-; eauto|eauto]. Qed.
  Lemma Forall2_set : forall A B (P Q : A -> B -> Prop) la lb i a b, Forall2 P la lb -> (forall a b, P a b -> Q a b) -> Q a b -> Forall2 Q (list_set la i a) (list_set lb i b).
  Proof.
    intros A B P Q la lb i a b H HQ N. revert i. induction H; intros [|i]; cbn; constructor; auto.
    clear - HQ H0. induction H0; constructor; auto.
  Qed.
  Lemma Forall2_weaken : forall A B (P Q : A -> B -> Prop) la lb, Forall2 P la lb -> (forall a b, P a b -> Q a b) -> Forall2 Q la lb.
  Proof. intros A B P Q la lb H HQ. induction H; constructor; auto. Qed.

  (** The deque a variable shows. *)
  Lemma sim_view : forall K bs hs rs ws i w r xs, sim K (bs, hs) (rs, ws) -> nth_error ws i = Some w -> nth_error rs (on w) = Some r ->
    contents r w = map Some xs ->
    exists h b, nth_error hs i = Some h /\ nth_error bs (on w) = Some b /\ buf h = on w /\ turned (K (on w)) r b /\
      view bs h = Ret (mkDeque b (hlen h) (hhead h)) /\ rep (mkDeque b (hlen h) (hhead h)) xs (length r) /\
      hhead h = Z.of_nat (ring (length r) (K (on w)) (first w)) /\ (first w < length r)%nat.
  Proof.
    intros K bs hs rs ws i w r xs S Wi Ri Cx. destruct (Forall2_nth _ _ _ _ _ _ _ (sim_heads _ _ _ S) Wi) as (h & Hi & r0 & Ri0 & Bh & Fw & Cw & Hl & Hh & Kn).
    cbn [fst snd] in *. assert (r0 = r) by congruence. subst r0. destruct (sim_turned _ _ _ S (on w) r Ri) as (b & Bi & Tu). cbn [fst] in Bi.
    exists h, b. split; [exact Hi|]. split; [exact Bi|]. split; [exact Bh|]. split; [exact Tu|].
    split. { unfold view. rewrite Bh, Bi. reflexivity. }
    split; [|auto]. destruct (contents_known r w xs ltac:(lia) Cx) as [Lx Cn]. destruct Tu as (T1 & T2 & T3 & T4).
    exists b, (ring (length r) (K (on w)) (first w)). unfold deq_of. split; [rewrite Hl, Hh, Lx; reflexivity|].
    split; [|split; [exact T1|exact T3]]. split; [rewrite T1; apply ring_lt; lia|]. split; [lia|]. intros j Hj.
    destruct (nth_error xs j) as [x|] eqn:N; [|apply nth_error_None in N; lia]. apply Cn in N. apply T4 in N. rewrite <- N, T1. f_equal.
    unfold place. rewrite <- ring_mod by lia. ring_cases.
  Qed.

  (** A variable moves to a new buffer. *)
  Lemma new_sim : forall K bs hs rs ws i d xs c, sim K (bs, hs) (rs, ws) -> rep d xs c ->
    sim (fun id => if Nat.eqb id (length rs) then Z.to_nat (head d) else K id)
      (bs ++ [buffer d], list_set hs i (mkHeader (length bs) (dlen d) (head d)))
      (rs ++ [fresh xs c], list_set ws i (mkWin (length rs) 0 (length xs))) /\
    sim (fun id => if Nat.eqb id (length rs) then Z.to_nat (head d) else K id)
      (bs ++ [buffer d], hs ++ [mkHeader (length bs) (dlen d) (head d)])
      (rs ++ [fresh xs c], ws ++ [mkWin (length rs) 0 (length xs)]).
  Proof.
    intros K bs hs rs ws i d xs c S R. pose proof (rep_pos _ _ _ _ R) as P. pose proof (sim_number _ _ _ S) as N. cbn [fst] in N.
    pose proof (rep_head _ _ _ _ R) as Hh. pose proof (rep_len _ _ _ _ R) as L.
    assert (FL : length (fresh xs c) = c) by (apply fresh_length; lia).
    set (K' := fun id => if Nat.eqb id (length rs) then Z.to_nat (head d) else K id).
    assert (KN : K' (length rs) = Z.to_nat (head d)) by (unfold K'; now rewrite Nat.eqb_refl).
    assert (KO : forall id, (id < length rs)%nat -> K' id = K id) by (intros id Hid; unfold K'; destruct (Nat.eqb_spec id (length rs)); auto; lia).
    assert (Old : forall h w, head_of K rs h w -> head_of K' (rs ++ [fresh xs c]) h w).
    { intros h w (r & A1 & A2 & A3). assert (HI : (on w < length rs)%nat) by (apply nth_error_Some; congruence).
      exists r. rewrite nth_error_app1 by auto. rewrite KO by auto. auto. }
    assert (New : head_of K' (rs ++ [fresh xs c]) (mkHeader (length bs) (dlen d) (head d)) (mkWin (length rs) 0 (length xs))).
    { exists (fresh xs c). cbn [on first count buf hlen hhead]. rewrite nth_error_app2, Nat.sub_diag by lia. rewrite FL, KN. split; [reflexivity|].
      split; [exact N|]. split; [lia|]. split; [lia|]. split; [exact L|]. split.
      - replace (ring c (Z.to_nat (head d)) 0) with (Z.to_nat (head d)) by ring_cases. destruct R as (b & h & -> & _). cbn [deq_of head]. lia.
      - intros j Hj. cbn [count] in Hj. destruct (nth_error xs j) as [x|] eqn:Nj; [|apply nth_error_None in Nj; lia]. exists x.
        cbn [first]. rewrite FL. replace (ring c 0 j) with j by ring_cases. unfold fresh. rewrite nth_error_app1 by (rewrite map_length; auto).
        now rewrite nth_error_map, Nj. }
    assert (Tu : forall id r, nth_error (rs ++ [fresh xs c]) id = Some r -> exists b, nth_error (bs ++ [buffer d]) id = Some b /\ turned (K' id) r b).
    { intros id r E. destruct (Nat.lt_ge_cases id (length rs)) as [Hl|Hl].
      - rewrite nth_error_app1 in E by auto. destruct (sim_turned _ _ _ S id r E) as (b & B & Tu). exists b. cbn [fst] in B.
        rewrite nth_error_app1 by lia. rewrite KO by auto. auto.
      - assert (id = length rs).
        { assert (id < length (rs ++ [fresh xs c]))%nat by (apply nth_error_Some; congruence). rewrite app_length in H. cbn in H. lia. }
        subst id. rewrite nth_error_app2, Nat.sub_diag in E by lia. injection E as <-. exists (buffer d).
        rewrite nth_error_app2 by lia. rewrite N, Nat.sub_diag. split; [reflexivity|]. rewrite KN.
        destruct R as (b & h & -> & (R1 & R2 & R3) & Lb & Hl'). cbn [deq_of buffer head] in *. rewrite Nat2Z.id in *. split; [now rewrite FL|].
        rewrite FL. split; [lia|]. split; [lia|]. intros p x E. apply fresh_known in E. rewrite <- E. rewrite <- Lb. apply R3. apply nth_error_Some. congruence. }
    split; constructor; cbn [fst snd]; auto.
    - rewrite !app_length. cbn. lia.
    - eapply Forall2_set; [exact (sim_heads _ _ _ S)|exact Old|exact New].
    - rewrite !app_length. cbn. lia.
    - apply Forall2_app; [|constructor; auto]. eapply Forall2_weaken; [exact (sim_heads _ _ _ S)|exact Old].
  Qed.
  Lemma moved_shift : forall o xs r k p, (p < length r)%nat -> (k < length r)%nat ->
    (moved o xs r p < length r)%nat /\ shift (length r) (ring (length r) k p) xs o = ring (length r) k (moved o xs r p).
  Proof.
    intros o xs r k p Hp Hk. destruct o; cbn [moved shift]; auto.
    - split; [apply Nat.mod_upper_bound; lia|]. unfold place. destruct p as [|p].
      + cbn [Nat.add]. rewrite Nat.mod_small by lia. destruct (Nat.eqb_spec (ring (length r) k 0) 0); ring_cases.
      + replace (S p + length r - 1)%nat with (p + 1 * length r)%nat by lia. rewrite Nat.mod_add by lia. rewrite Nat.mod_small by lia.
        destruct (Nat.eqb_spec (ring (length r) k (S p)) 0); ring_cases.
    - destruct xs as [|x xs]; auto. split; [apply Nat.mod_upper_bound; lia|]. unfold place. rewrite <- ring_mod by lia. ring_cases.
  Qed.
  (** A variable changes in place. *)
  Lemma here_sim : forall K bs hs rs ws i w r o xs xs' a h b d', sim K (bs, hs) (rs, ws) -> nth_error ws i = Some w -> nth_error rs (on w) = Some r ->
    nth_error bs (on w) = Some b -> buf h = on w -> turned (K (on w)) r b ->
    rep (mkDeque b (hlen h) (hhead h)) xs (length r) -> hhead h = Z.of_nat (ring (length r) (K (on w)) (first w)) -> (first w < length r)%nat ->
    dstep eqb xs o xs' a -> exec (mkDeque b (hlen h) (hhead h)) o = Ret (d', a) -> rep d' xs' (length r) ->
    replaced o (mkDeque b (hlen h) (hhead h)) d' = false ->
    sim K (list_set bs (buf h) (buffer d'), list_set hs i (mkHeader (buf h) (dlen d') (head d')))
      (list_set rs (on w) (lay r (moved o xs r (first w)) xs'), list_set ws i (mkWin (on w) (moved o xs r (first w)) (length xs'))).
  Proof.
    intros K bs hs rs ws i w r o xs xs' a h b d' S Wi Ri Bi Bh Tu R Hh Fw St E R' Np.
    pose proof (sim_number _ _ _ S) as N. cbn [fst] in N. pose proof (rep_pos _ _ _ _ R) as P. pose proof (rep_pos _ _ _ _ R') as P'.
    destruct (exec_shape zero limit limit_ok eqb _ _ _ _ _ _ _ _ _ R R' St E Np) as (_ & Sh & _). cbn [head] in Sh. rewrite Hh, Nat2Z.id in Sh.
    pose proof (exec_frame _ _ _ _ _ _ _ _ R R' St E Np) as Fr. cbn [buffer] in Fr.
    destruct Tu as (T1 & T2 & T3 & T4). destruct (moved_shift o xs r (K (on w)) (first w) Fw T2) as [Mv Ms].
    set (p := moved o xs r (first w)) in *. rewrite Ms in Sh. rewrite Sh, Nat2Z.id in Fr.
    assert (Lw : (on w < length rs)%nat) by (apply nth_error_Some; congruence).
    assert (Lr : length (lay r p xs') = length r) by apply lay_length.
    assert (Pl : forall j, (j < length xs')%nat -> place r (p + j) = ring (length r) p j).
    { intros j Hj. unfold place. rewrite <- ring_mod by lia. reflexivity. }
    assert (Inside : forall q, (exists j, (j < length xs')%nat /\ q = place r (p + j)) \/ (forall j, (j < length xs')%nat -> q <> place r (p + j))).
    { intros q. clear. induction (length xs') as [|n IH]; [right; lia|]. destruct IH as [(j & A & B)|IH]; [left; exists j; auto|].
      destruct (Nat.eq_dec q (place r (p + n))) as [->|Ne]; [left; exists n; auto|]. right. intros j Hj.
      destruct (Nat.eq_dec j n) as [->|]; auto. apply IH. lia. }
    assert (Old : forall h' w', head_of K rs h' w' -> head_of K (list_set rs (on w) (lay r p xs')) h' w').
    { intros h' w' (r' & A1 & A2 & A3 & A4 & A5 & A6 & A7). destruct (Nat.eq_dec (on w') (on w)) as [Eq|Ne].
      - rewrite Eq in *. assert (r' = r) by congruence. subst r'. exists (lay r p xs'). rewrite Eq. rewrite nth_error_list_set_eq by auto. rewrite Lr.
        repeat (split; [auto|]). intros j Hj. rewrite Lr. destruct (A7 j Hj) as (x & Ex).
        destruct (Inside (ring (length r) (first w') j)) as [(j' & B1 & B2)|B].
        + destruct (nth_error xs' j') as [y|] eqn:Ny; [|apply nth_error_None in Ny; lia]. exists y. rewrite B2. apply lay_in; auto; lia.
        + exists x. now rewrite lay_out.
      - exists r'. rewrite nth_error_list_set_neq by auto. auto 10. }
    constructor; cbn [fst snd].
    - rewrite !list_set_length. exact N.
    - intros id r' Er. destruct (Nat.eq_dec id (on w)) as [->|Ne].
      + rewrite nth_error_list_set_eq in Er by auto. injection Er as <-. exists (buffer d'). rewrite Bh, nth_error_list_set_eq by lia. split; [reflexivity|].
        destruct R' as (b' & h' & Ed & (R1 & R2 & R3) & Lb & Hl'). rewrite Ed in Fr, Sh |- *. cbn [deq_of buffer head] in *.
        apply Nat2Z.inj in Sh. subst h'. split; [now rewrite Lr|]. rewrite Lr. split; [auto|]. split; [auto|]. intros q x Eq.
        destruct (Inside q) as [(j & B1 & B2)|B].
        * destruct (nth_error xs' j) as [y|] eqn:Ny; [|apply nth_error_None in Ny; lia].
          pose proof (lay_in xs' r p j y ltac:(lia) ltac:(lia) Ny) as Q. rewrite <- B2, Eq in Q. injection Q as <-.
          rewrite <- Ny, <- (R3 j B1), Lb. f_equal. rewrite B2, Pl by auto. ring_cases.
        * rewrite lay_out in Eq by exact B. assert (Hq : (q < length r)%nat) by (apply nth_error_Some; congruence).
          apply T4 in Eq. rewrite <- Eq. apply Fr. intros j Hj Q. apply (B j Hj). rewrite Pl by auto.
          apply (ring_inj (length r) (K (on w))); auto; [apply ring_lt; lia|]. rewrite Q. ring_cases.
      + rewrite nth_error_list_set_neq in Er by auto. destruct (sim_turned _ _ _ S id r' Er) as (b' & B & Tu). exists b'. cbn [fst] in B.
        rewrite Bh, nth_error_list_set_neq by auto. auto.
    - eapply Forall2_set; [exact (sim_heads _ _ _ S)|exact Old|]. exists (lay r p xs'). cbn [on first count buf hlen hhead].
      rewrite nth_error_list_set_eq by auto. rewrite Lr. split; [reflexivity|]. split; [exact Bh|]. split; [exact Mv|]. split; [lia|].
      split; [exact (rep_len _ _ _ _ R')|]. split; [exact Sh|]. intros j Hj. cbn [count first] in *. rewrite Lr.
      destruct (nth_error xs' j) as [y|] eqn:Ny; [|apply nth_error_None in Ny; lia]. exists y. rewrite <- Pl by auto. apply lay_in; auto; lia.
  Qed.

  Lemma list_set_same : forall A (l : list A) i x, nth_error l i = Some x -> list_set l i x = l.
  Proof. induction l as [|y l IH]; intros [|i] x E; cbn in *; try discriminate; [congruence|]. f_equal. auto. Qed.
  Lemma known_contents : forall r w, known r w -> (first w < length r)%nat -> (count w <= length r)%nat -> exists xs, contents r w = map Some xs.
  Proof.
    intros r w Kn Hf Hc. unfold contents. assert (G : forall n, (n <= count w)%nat -> exists xs, map (fun i => nth (place r (first w + i)) r None) (seq 0 n) = map Some xs).
    { induction n as [|n IH]; intros Hn; [exists []; reflexivity|]. destruct IH as (xs & E); [lia|]. destruct (Kn n ltac:(lia)) as (x & Ex).
      exists (xs ++ [x]). rewrite seq_S, !map_app, E. cbn [map Nat.add]. f_equal. f_equal. unfold place. rewrite <- ring_mod by lia.
      apply nth_error_nth with (d := None) in Ex. exact Ex. }
    apply G. lia.
  Qed.
  Notation wexec := (DequeShareModel.wexec zero limit eqb).
  Notation wrun := (DequeShareModel.wrun zero limit eqb).
  Lemma append_nothing : forall d e c, rep e [] c -> exists e', Append zero limit d e = Ret (d, e') /\ rep e' [] 7.
  Proof.
    intros d e c R. unfold Append, Len. rewrite (rep_len _ _ _ _ R). cbn [length]. change (Z.of_nat 0) with 0.
    unfold Reserve. rewrite Z.add_0_r.
    assert (Q : (Capacity d <? u64 (Capacity d)) = false).
    { apply Z.ltb_ge. unfold Capacity, u64. apply Z.mod_le; lia. }
    rewrite Q. cbn [bind]. change (indices 0 0) with (@nil Z). cbn [oloop bind].
    destruct (Clear_spec zero limit limit_ok e) as (e' & E & R'). rewrite E. cbn [bind]. eauto.
  Qed.
  Lemma new_spec : exists d, VecDequeNew zero limit = Ret d /\ rep d [] 7.
  Proof. destruct (Clear_spec zero limit limit_ok (mkDeque [] 0 0)) as (d & E & R). exists d. split; [exact E|exact R]. Qed.

  Theorem cstep_sim : forall K m s o s' a, sim K m s -> cstep zero limit eqb s o s' a ->
    exists m' K', wexec m o = Ret (m', a) /\ sim K' m' s'.
  Proof.
    intros K [bs hs] s o s' a S St. inversion St; subst; unfold DequeShareModel.wexec.
    - destruct new_spec as (d & E & R). rewrite E. cbn [bind]. destruct (new_sim K bs hs rs ws 0 d _ _ S R) as [_ N]. eauto.
    - destruct (WithCapacity_spec zero limit n) as (d & E & R); [auto|]. rewrite E. cbn [bind]. destruct (new_sim K bs hs rs ws 0 d _ _ S R) as [_ N]. eauto.
    - destruct (WithLen_spec zero limit n) as (d & E & R); [auto|]. rewrite E. cbn [bind]. destruct (new_sim K bs hs rs ws 0 d _ _ S R) as [_ N].
      rewrite repeat_length in N. eauto.
    - destruct (Forall2_nth _ _ _ _ _ _ _ (sim_heads _ _ _ S) H) as (h & Hh & Hw). cbn [snd] in Hh. rewrite Hh. cbn [of_option bind].
      eexists _, K. split; [reflexivity|]. constructor; [exact (sim_number _ _ _ S)|exact (sim_turned _ _ _ S)|]. cbn [fst snd].
      apply Forall2_app; [exact (sim_heads _ _ _ S)|constructor; auto].
    - destruct (sim_view _ _ _ _ _ _ _ _ _ S H H0 H1) as (h & b & Hi & Bi & Bh & Tu & Vw & R & Hh & Fw).
      assert (CE : capacity_after o0 (length l) (length r) = length r).
      { destruct o0; try discriminate; unfold leaves in H3; apply Bool.negb_false_iff, Nat.eqb_eq in H3; exact H3. }
      destruct (exec_exact _ _ _ _ _ _ R H2) as (d' & E & R'). { rewrite CE. exact (proj2 (rep_pos _ _ _ _ R)). }
      pose proof (replaced_leaves _ _ _ _ _ _ R R') as Q. rewrite H3 in Q. rewrite CE in R'.
      rewrite Hi. cbn [of_option bind]. rewrite Vw. cbn [bind]. rewrite E. cbn [bind fst snd]. rewrite Q. unfold stored.
      eexists _, K. split; [reflexivity|]. eapply here_sim; eauto.
    - destruct (sim_view _ _ _ _ _ _ _ _ _ S H H0 H1) as (h & b & Hi & Bi & Bh & Tu & Vw & R & Hh & Fw).
      destruct (exec_exact _ _ _ _ _ _ R H2 H4) as (d' & E & R').
      pose proof (replaced_leaves _ _ _ _ _ _ R R') as Q. rewrite H3 in Q.
      rewrite Hi. cbn [of_option bind]. rewrite Vw. cbn [bind]. rewrite E. cbn [bind fst snd]. rewrite Q. unfold stored.
      eexists _, _. split; [reflexivity|]. exact (proj1 (new_sim K bs hs rs ws i d' _ _ S R')).
    - destruct (Forall2_nth _ _ _ _ _ _ _ (sim_heads _ _ _ S) H) as (h & Hh & r0 & A1 & A2 & A3 & A4 & A5 & A6 & A7). cbn [fst snd] in *.
      assert (r0 = r) by congruence. subst r0. destruct (known_contents r w A7 A3 A4) as (l & Cl).
      destruct (sim_view _ _ _ _ _ _ _ _ _ S H H0 Cl) as (h0 & b & Hi & Bi & Bh & Tu & Vw & R & _). assert (h0 = h) by congruence. subst h0.
      rewrite Hh. cbn [of_option bind]. rewrite Vw. cbn [bind]. rewrite (rep_cap _ _ _ _ R). eauto.
    - destruct (Forall2_nth _ _ _ _ _ _ _ (sim_heads _ _ _ S) H0) as (h & Hh & r & A1 & A2 & A3 & A4 & A5 & A6 & A7).
      destruct (Forall2_nth _ _ _ _ _ _ _ (sim_heads _ _ _ S) H1) as (h2 & Hh2 & r2 & B1 & B2 & B3 & B4 & B5 & B6 & B7). cbn [fst snd] in *.
      destruct (known_contents r w A7 A3 A4) as (l & Cl).
      destruct (sim_view _ _ _ _ _ _ _ _ _ S H0 A1 Cl) as (h0 & b & Hi & Bi & Bh & Tu & Vw & R & _). assert (h0 = h) by congruence. subst h0.
      assert (C2 : contents r2 w2 = map Some []) by (unfold contents; rewrite H2; reflexivity).
      destruct (sim_view _ _ _ _ _ _ _ _ _ S H1 B1 C2) as (h0 & b2 & Hi2 & Bi2 & Bh2 & Tu2 & Vw2 & R2 & _). assert (h0 = h2) by congruence. subst h0.
      rewrite Hh. cbn [of_option bind]. rewrite Vw. cbn [bind]. rewrite Hh2. cbn [of_option bind]. rewrite Vw2. cbn [bind].
      destruct (append_nothing (mkDeque b (hlen h) (hhead h)) _ _ R2) as (e' & E & R'). rewrite E. cbn [bind fst snd].
      unfold replaced. rewrite Z.eqb_refl. cbn [negb]. unfold stored at 2. cbn [buffer dlen head].
      rewrite (list_set_same _ bs (buf h) b) by (rewrite Bh; exact Bi).
      rewrite (list_set_same _ hs i (mkHeader (buf h) (hlen h) (hhead h))) by (rewrite Hh; destruct h; reflexivity). unfold stored.
      eexists _, _. split; [reflexivity|]. exact (proj1 (new_sim K bs hs rs ws j e' _ _ S R')).
    - destruct (sim_view _ _ _ _ _ _ _ _ _ S H0 H1 H2) as (h & b & Hi & Bi & Bh & Tu & Vw & R & _).
      destruct (sim_view _ _ _ _ _ _ _ _ _ S H3 H4 H5) as (h2 & b2 & Hi2 & Bi2 & Bh2 & Tu2 & Vw2 & R2 & _).
      rewrite Hi. cbn [of_option bind]. rewrite Vw. cbn [bind]. rewrite Hi2. cbn [of_option bind]. rewrite Vw2. cbn [bind].
      destruct (Append_spec zero limit limit_ok _ _ _ _ _ _ R R2 H7) as (d' & e' & E & R' & R2'). rewrite E. cbn [bind fst snd].
      assert (Q : replaced (DequeSpec.Reserve (Len (mkDeque b2 (hlen h2) (hhead h2)))) (mkDeque b (hlen h) (hhead h)) d' = true).
      { unfold replaced. rewrite (rep_cap _ _ _ _ R), (rep_cap _ _ _ _ R'). apply Bool.negb_true_iff, Z.eqb_neq. destruct l2; [congruence|]. cbn [length]. lia. }
      rewrite Q. unfold stored. eexists _, _. split; [reflexivity|].
      pose proof (proj1 (new_sim K bs hs rs ws i d' _ _ S R')) as S1. pose proof (proj1 (new_sim _ _ _ _ _ j e' _ _ S1 R2')) as S2.
      assert (LL : length (rs ++ [fresh (l ++ l2) (length r + length l2)]) = Datatypes.S (length rs)) by (rewrite app_length; cbn [length]; lia).
      rewrite LL in S2. rewrite <- (app_assoc rs) in S2. exact S2.
  Qed.
  Theorem crun_sim : forall s p l, crun zero limit eqb s p l -> forall K m, sim K m s -> wrun m p = Ret l.
  Proof.
    intros s p l H. induction H as [|s o s' a p l St _ IH]; intros K m S; [reflexivity|]. destruct (cstep_sim K m s o s' a S St) as (m' & K' & E & S').
    cbn [DequeShareModel.wrun]. rewrite E. cbn [bind fst snd]. rewrite (IH K' m' S'). reflexivity.
  Qed.
  Lemma sim_nothing : sim (fun _ => 0%nat) nothing ([], []).
  Proof. constructor; cbn; auto. intros [|id] r E; discriminate. Qed.

  Lemma reached_sim : forall s, reached zero limit eqb s -> exists K m, sim K m s.
  Proof.
    intros s H. induction H as [|s o s' a _ (K & m & S) St]; [exists (fun _ => 0%nat), nothing; exact sim_nothing|].
    destruct (cstep_sim K m s o s' a S St) as (m' & K' & _ & S'). eauto.
  Qed.
  Lemma reached_contents : forall rs ws i w, reached zero limit eqb (rs, ws) -> nth_error ws i = Some w ->
    exists r l, nth_error rs (on w) = Some r /\ contents r w = map Some l /\ (length l <= length r)%nat /\ Z.of_nat (length r) <= limit.
  Proof.
    intros rs ws i w H Wi. destruct (reached_sim _ H) as (K & m & S).
    destruct (Forall2_nth _ _ _ _ _ _ _ (sim_heads _ _ _ S) Wi) as (h & _ & r & A1 & A2 & A3 & A4 & A5 & A6 & A7). cbn [fst] in A1.
    destruct (known_contents r w A7 A3 A4) as (l & Cl). destruct (contents_known r w l ltac:(lia) Cl) as [L _].
    destruct (sim_turned _ _ _ S _ _ A1) as (b & _ & _ & _ & T3 & _). exists r, l. repeat split; auto. lia.
  Qed.

  (** *** Without copies *)
  Definition own (bs : list (list T)) (h : header) (v : list T * nat) : Prop :=
    exists b, nth_error bs (buf h) = Some b /\ rep (mkDeque b (hlen h) (hhead h)) (fst v) (snd v).
  Record apart (m : world (T := T)) (s : vars (T := T)) : Prop := {
    apart_own : Forall2 (own (fst m)) (snd m) s;
    apart_distinct : NoDup (map buf (snd m))
  }.
  Lemma own_lt : forall bs h v, own bs h v -> (buf h < length bs)%nat.
  Proof. intros bs h v (b & E & _). apply nth_error_Some. congruence. Qed.
  Lemma owns_lt : forall bs hs s, Forall2 (own bs) hs s -> forall k, In k (map buf hs) -> (k < length bs)%nat.
  Proof. intros bs hs s H. induction H; intros k Hk; [destruct Hk|]. destruct Hk as [<- | Hk]; auto. eapply own_lt; eauto. Qed.
  Lemma own_app : forall bs x h v, own bs h v -> own (bs ++ [x]) h v.
  Proof. intros bs x h v O. pose proof (own_lt _ _ _ O) as L. destruct O as (b & E & R). exists b. rewrite nth_error_app1; auto. Qed.
  Lemma own_new : forall bs d xs c, rep d xs c -> own (bs ++ [buffer d]) (mkHeader (length bs) (dlen d) (head d)) (xs, c).
  Proof. intros bs d xs c R. exists (buffer d). cbn [buf]. rewrite nth_error_app2, Nat.sub_diag by auto. destruct d. auto. Qed.
  Lemma declared_apart : forall bs hs s d xs c, apart (bs, hs) s -> rep d xs c -> apart (declared (bs, hs) d) (s ++ [(xs, c)]).
  Proof.
    intros bs hs s d xs c [A B] R. cbn [fst snd] in *. unfold declared. constructor; cbn [fst snd].
    - apply Forall2_app; [|constructor; [now apply own_new|constructor]]. eapply Forall2_weaken; [exact A|]. intros. now apply own_app.
    - rewrite map_app. cbn [map buf]. apply NoDup_app_iff_snoc; auto. intros H. apply (owns_lt _ _ _ A) in H. lia.
  Qed.
  Lemma map_buf_set : forall hs i (h h' : header), nth_error hs i = Some h -> buf h' = buf h -> map buf (list_set hs i h') = map buf hs.
  Proof. induction hs as [|x hs IH]; intros [|i] h h' E Q; cbn in *; try discriminate; [congruence|]. f_equal. eauto. Qed.
  Lemma NoDup_set : forall (l : list nat) i x, NoDup l -> ~ In x l -> NoDup (list_set l i x).
  Proof.
    induction l as [|y l IH]; intros [|i] x H N; cbn; auto; inversion H; subst; constructor; cbn in N; auto.
    intros Q. apply In_nth_error in Q as (k & Q). destruct (Nat.eq_dec k i) as [->|Ne].
    - destruct (Nat.lt_ge_cases i (length l)).
      + rewrite nth_error_list_set_eq in Q by auto. injection Q as <-. tauto.
      + assert (nth_error (list_set l i x) i = None) by (apply nth_error_None; rewrite list_set_length; auto). congruence.
    - rewrite nth_error_list_set_neq in Q by auto. apply nth_error_In in Q. tauto.
  Qed.
  Lemma map_list_set : forall A B (f : A -> B) l i x, map f (list_set l i x) = list_set (map f l) i (f x).
  Proof. induction l as [|y l IH]; intros [|i] x; cbn; auto. f_equal. auto. Qed.
  Lemma stored_apart : forall bs hs s i h new d xs c, apart (bs, hs) s -> nth_error hs i = Some h -> rep d xs c ->
    apart (stored (bs, hs) i h new d) (list_set s i (xs, c)).
  Proof.
    intros bs hs s i h new d xs c [A B] Hi R. cbn [fst snd] in *. unfold stored. destruct new; constructor; cbn [fst snd].
    - eapply Forall2_set; [exact A|intros; now apply own_app|now apply own_new].
    - rewrite map_list_set. apply NoDup_set; auto. cbn [buf]. intros H. apply (owns_lt _ _ _ A) in H. lia.
    - assert (L : (buf h < length bs)%nat) by (apply (owns_lt _ _ _ A); apply in_map; eapply nth_error_In; eauto).
      assert (Q : own (list_set bs (buf h) (buffer d)) (mkHeader (buf h) (dlen d) (head d)) (xs, c)).
      { exists (buffer d). cbn [buf]. rewrite nth_error_list_set_eq by auto. destruct d. auto. }
      revert i Hi. clear R. induction A as [|h0 v0 hs s O A IH]; intros [|i] Hi; cbn in *; try discriminate; inversion B; subst.
      + injection Hi as ->. constructor; auto. eapply Forall2_impl_in; [exact A|]. intros k v Hk (b & E & R). exists b. split; auto.
        rewrite nth_error_list_set_neq; auto. intros Eq. apply H1. rewrite Eq. now apply in_map.
      + constructor; auto. destruct O as (b & E & R). exists b. split; auto. rewrite nth_error_list_set_neq; auto.
        intros Eq. apply H1. rewrite <- Eq. apply in_map. eapply nth_error_In; eauto.
    - erewrite map_buf_set; eauto.
  Qed.
  Lemma apart_view : forall bs hs s i l c, apart (bs, hs) s -> nth_error s i = Some (l, c) ->
    exists h d, nth_error hs i = Some h /\ view bs h = Ret d /\ rep d l c.
  Proof.
    intros bs hs s i l c [A _] Si. destruct (Forall2_nth _ _ _ _ _ _ _ A Si) as (h & Hh & b & E & R). cbn [fst snd] in *.
    exists h. unfold view. rewrite E. cbn [of_option bind]. eauto.
  Qed.
  Theorem vstep_sim : forall m s o s' a, apart m s -> vstep zero limit eqb s o s' a -> copies o = false ->
    exists m', wexec m o = Ret (m', a) /\ apart m' s'.
  Proof.
    intros [bs hs] s o s' a A St C. inversion St; subst; unfold DequeShareModel.wexec; try discriminate.
    - destruct new_spec as (d & E & R). rewrite E. cbn [bind]. eexists. split; [reflexivity|]. now apply declared_apart.
    - destruct (WithCapacity_spec zero limit n) as (d & E & R); [auto|]. rewrite E. cbn [bind]. eexists. split; [reflexivity|]. now apply declared_apart.
    - destruct (WithLen_spec zero limit n) as (d & E & R); [auto|]. rewrite E. cbn [bind]. eexists. split; [reflexivity|]. now apply declared_apart.
    - destruct (apart_view _ _ _ _ _ _ A H) as (h & d & Hh & V & R). destruct (exec_exact _ _ _ _ _ _ R H0 H1) as (d' & E & R').
      rewrite Hh. cbn [of_option bind]. rewrite V. cbn [bind]. rewrite E. cbn [bind fst snd]. eexists. split; [reflexivity|]. now apply stored_apart.
    - destruct (apart_view _ _ _ _ _ _ A H) as (h & d & Hh & V & R). rewrite Hh. cbn [of_option bind]. rewrite V. cbn [bind].
      rewrite (rep_cap _ _ _ _ R). eauto.
    - destruct (apart_view _ _ _ _ _ _ A H0) as (h & d & Hh & V & R). destruct (apart_view _ _ _ _ _ _ A H1) as (h2 & e & Hh2 & V2 & R2).
      rewrite Hh. cbn [of_option bind]. rewrite V. cbn [bind]. rewrite Hh2. cbn [of_option bind]. rewrite V2. cbn [bind].
      destruct (Append_spec zero limit limit_ok _ _ _ _ _ _ R R2 H2) as (d' & e' & E & R' & R2'). rewrite E. cbn [bind fst snd].
      eexists. split; [reflexivity|].
      pose proof (stored_apart bs hs s i h (replaced (DequeSpec.Reserve (Len e)) d d') d' _ _ A Hh R') as A1.
      destruct (stored (bs, hs) i h (replaced (DequeSpec.Reserve (Len e)) d d') d') as [bs1 hs1] eqn:Q.
      apply stored_apart; auto. unfold stored in Q. destruct (replaced _ _ _); injection Q as <- <-; rewrite nth_error_list_set_neq; auto.
  Qed.
  Theorem vrun_sim : forall s p l, vrun zero limit eqb s p l -> Forall (fun o => copies o = false) p -> forall m, apart m s -> wrun m p = Ret l.
  Proof.
    intros s p l H. induction H as [|s o s' a p l St _ IH]; intros F m S; [reflexivity|]. inversion F; subst.
    destruct (vstep_sim m s o s' a S St) as (m' & E & S'); auto.
    cbn [DequeShareModel.wrun]. rewrite E. cbn [bind fst snd]. rewrite (IH H2 m' S'). reflexivity.
  Qed.
  Lemma apart_nothing : apart nothing [].
  Proof. constructor; cbn; constructor. Qed.
End Share.
