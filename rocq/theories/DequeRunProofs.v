(** DequeRunProofs.v -- histories of a deque; sorting and searching. *)
From Coq Require Import Permutation Sorted.
From Verif Require Import Base BaseLemmas Effect CmpSpec VecModel VecSpec VecProofs VecSortProofs DequeHistory.
From Verif Require Import DequeModel DequeProofs.
From Verif Require DequeSpec.
Local Open Scope Z_scope.
Import DequeSpec(at_, inside, dstep, dhistory, space, cost).

Section Run.
  Context {T : Type}.
  Variable zero : T.
  Variable limit : Z.
  Hypothesis limit_ok : 7 <= limit < 2 ^ 63.
  Variable eqb : T -> T -> bool.

  Notation rep := (@DequeProofs.rep T limit).

  Lemma at_nat : forall (l : list T) i, at_ l (Z.of_nat i) = nth_error l i.
  Proof. intros. unfold at_. destruct (Z.ltb_spec (Z.of_nat i) 0); [lia|]. now rewrite Nat2Z.id. Qed.

  Lemma rep_shows : forall d xs c, rep d xs c -> shows d xs /\ layout limit d /\ Capacity d = Z.of_nat c.
  Proof.
    intros d xs c R. pose proof (rep_pos _ _ _ _ R) as P. pose proof (rep_len _ _ _ _ R) as L.
    pose proof (rep_cap _ _ _ _ R) as C. split; [split; [exact L|]|split; [|exact C]].
    - intros i Hi. replace i with (Z.of_nat (Z.to_nat i)) by lia. rewrite at_nat. eapply Get_spec; eauto.
    - unfold layout, Len. rewrite L, C. destruct R as (b & h & -> & (R1 & _) & Lb & Hl). cbn [deq_of head]. lia.
  Qed.

  Lemma shows_rep : forall d xs, shows d xs -> layout limit d -> rep d xs (Z.to_nat (Capacity d)).
  Proof.
    intros [b n h] xs (L & G) (B1 & B2 & B3). unfold Len, Capacity in *. cbn [dlen buffer head] in *.
    exists b, (Z.to_nat h). unfold deq_of. subst n. split; [f_equal; lia|]. split; [|rewrite Nat2Z.id; auto].
    split; [lia|]. split; [lia|]. intros i Hi.
    specialize (G (Z.of_nat i) ltac:(lia)). rewrite at_nat in G.
    unfold Get, Len in G. cbn [dlen buffer] in G.
    destruct (Z.leb_spec (Z.of_nat (length xs)) (Z.of_nat i)); [lia|].
    replace (mkDeque b (Z.of_nat (length xs)) h) with (deq_of b (Z.to_nat h) xs) in G by (unfold deq_of; f_equal; lia).
    rewrite (phys limit) in G by lia. rewrite bidx_nat in G. unfold idx in G.
    destruct (nth_error b (ring (length b) (Z.to_nat h) i)); cbn [of_option bind] in G; [congruence | discriminate].
  Qed.

  Lemma shows_unique : forall d (xs ys : list T), shows d xs -> shows d ys -> Z.of_nat (length xs) < 2 ^ 64 -> xs = ys.
  Proof.
    intros d xs ys (L1 & G1) (L2 & G2) B. apply nth_error_ext. intros i.
    destruct (Z_lt_le_dec (Z.of_nat i) (2 ^ 64)) as [H|H].
    - specialize (G1 (Z.of_nat i) ltac:(lia)). specialize (G2 (Z.of_nat i) ltac:(lia)). rewrite at_nat in *. congruence.
    - transitivity (@None T); [|symmetry]; apply nth_error_None; lia.
  Qed.

  (** *** PushBack fails only for want of memory *)
  Lemma Grow_Panic : forall d xs c, rep d xs c -> limit < 2 * Z.of_nat c -> Grow zero limit d = Panic.
  Proof.
    intros d xs c R H. pose proof (rep_pos _ _ _ _ R) as P. unfold Grow. destruct (negb (IsFull d)); [reflexivity|].
    rewrite (rep_cap _ _ _ _ R). rewrite u64_small by lia. rewrite make_Panic by lia. reflexivity.
  Qed.
  Lemma Push_Panic : forall d xs c x, rep d xs c -> limit < Z.of_nat (roomier (length xs) c) ->
    PushBack zero limit d x = Panic /\ PushFront zero limit d x = Panic.
  Proof.
    intros d xs c x R H. pose proof (rep_pos _ _ _ _ R) as P. unfold roomier in H.
    destruct (Nat.eqb_spec (length xs) c) as [E|E]; [|lia].
    assert (F : IsFull d = true).
    { unfold IsFull. rewrite (rep_len _ _ _ _ R), (rep_cap _ _ _ _ R), E. apply Z.eqb_refl. }
    unfold PushBack, PushFront. rewrite F. rewrite (Grow_Panic d xs c) by (auto; lia). auto.
  Qed.

  Lemma self_loop : forall fuel d xs c i d', rep d xs c -> (i < length xs)%nat ->
    append_self_loop zero limit fuel d (Z.of_nat i) <> Ret d'.
  Proof.
    induction fuel as [|k IH]; intros d xs c i d' R Hi; cbn [append_self_loop]; [discriminate|].
    pose proof (rep_pos _ _ _ _ R) as P. unfold Len. rewrite (rep_len _ _ _ _ R).
    destruct (Z.ltb_spec (Z.of_nat i) (Z.of_nat (length xs))); [|lia].
    destruct (nth_error xs i) as [x|] eqn:N; [|apply nth_error_None in N; lia].
    rewrite (GetUnchecked_spec _ limit_ok _ _ _ _ _ R N). cbn [bind].
    destruct (Z_le_gt_dec (Z.of_nat (roomier (length xs) c)) limit) as [L|L].
    - destruct (PushBack_spec zero limit limit_ok d xs c x R L) as (d1 & E1 & R1). rewrite E1. cbn [bind].
      rewrite u64_small by lia. replace (Z.of_nat i + 1) with (Z.of_nat (S i)) by lia.
      apply (IH _ _ _ _ _ R1). rewrite app_length. cbn [length]. lia.
    - destruct (Push_Panic d xs c x R) as (E1 & _); [lia|]. rewrite E1. discriminate.
  Qed.
  Lemma Reserve_Ret_rep : forall d xs c n d', rep d xs c -> 0 <= n < 2 ^ 64 -> Reserve zero limit d n = Ret d' ->
    exists c', rep d' xs c'.
  Proof.
    intros d xs c n d' R Hn E. pose proof (rep_pos _ _ _ _ R) as P.
    destruct (Z_le_gt_dec (Z.of_nat c + n) limit) as [L|L].
    - destruct (Reserve_spec zero limit limit_ok d xs c (Z.to_nat n) R) as (d1 & E1 & R1); [lia|].
      rewrite Z2Nat.id in E1 by lia. rewrite E in E1. injection E1 as ->. eauto.
    - unfold Reserve in E. rewrite (rep_cap _ _ _ _ R) in E.
      destruct (Z.ltb_spec (Z.of_nat c) (u64 (Z.of_nat c + n))) as [H|H].
      + destruct (Z_lt_le_dec (Z.of_nat c + n) (2 ^ 64)) as [B|B].
        * rewrite u64_small in E by lia. rewrite make_Panic in E by lia. discriminate.
        * exfalso. unfold u64 in H. replace (Z.of_nat c + n) with (Z.of_nat c + n - 2 ^ 64 + 1 * 2 ^ 64) in H by lia.
          rewrite Z.mod_add in H by lia. rewrite Z.mod_small in H by lia. lia.
      + injection E as <-. eauto.
  Qed.

  (** *** Histories *)
  Lemma exchanged_unique : forall (l l1 l2 : list T) i j, exchanged l l1 i j -> exchanged l l2 i j -> l1 = l2.
  Proof.
    intros l l1 l2 i j (L1 & A1 & B1 & C1) (L2 & A2 & B2 & C2). apply nth_error_ext. intros k.
    destruct (Nat.eq_dec k i) as [->|Ni]; [congruence|].
    destruct (Nat.eq_dec k j) as [->|Nj]; [congruence|]. rewrite C1, C2; auto.
  Qed.
  Lemma list_set_exchanged : forall (l : list T) i j x y, nth_error l i = Some x -> nth_error l j = Some y ->
    exchanged l (list_set (list_set l i y) j x) i j.
  Proof.
    intros l i j x y Ni Nj.
    assert (Hi : (i < length l)%nat) by (apply nth_error_Some; congruence).
    assert (Hj : (j < length l)%nat) by (apply nth_error_Some; congruence).
    unfold exchanged. rewrite !list_set_length. split; [reflexivity|].
    split; [|split].
    - destruct (Nat.eq_dec j i) as [->|E].
      + rewrite nth_error_list_set_eq by (rewrite list_set_length; auto). congruence.
      + rewrite nth_error_list_set_neq by auto. rewrite nth_error_list_set_eq by auto. congruence.
    - rewrite nth_error_list_set_eq by (rewrite list_set_length; auto). congruence.
    - intros k K1 K2. rewrite !nth_error_list_set_neq by auto. reflexivity.
  Qed.

  Lemma roomier_bound : forall n c b, Z.of_nat c <= b -> 2 * Z.of_nat n <= b -> Z.of_nat (roomier n c) <= b.
  Proof. intros n c b H1 H2. unfold roomier. destruct (Nat.eqb_spec n c); lia. Qed.

  Lemma Handle_head0 : forall (d : VecDeque T) old d', head d = 0 -> HandleCapacityIncrease d old = Ret d' -> head d' = 0.
  Proof.
    intros d old d' H E. unfold HandleCapacityIncrease in E. destruct (Capacity d <? old); [discriminate|].
    rewrite H in E at 1. pose proof (Z.mod_pos_bound (old - dlen d) (2 ^ 64) ltac:(lia)) as B. fold (u64 (old - dlen d)) in B.
    destruct (Z.leb_spec 0 (u64 (old - dlen d))); [|lia]. now injection E as <-.
  Qed.
  Lemma PushBack_head0 : forall d x d', head d = 0 -> PushBack zero limit d x = Ret d' -> head d' = 0.
  Proof.
    intros d x d' H E. unfold PushBack in E. apply bind_Ret in E. destruct E as (d1 & E1 & E).
    assert (H1 : head d1 = 0).
    { destruct (IsFull d); [|now injection E1 as <-].
      unfold Grow in E1. destruct (negb _); [discriminate|].
      apply bind_Ret in E1. destruct E1 as (b & _ & E1). apply bind_Ret in E1. destruct E1 as (d2 & E2 & E1).
      destruct (IsFull d2); [discriminate|]. injection E1 as <-. eapply Handle_head0; [|exact E2]. exact H. }
    apply bind_Ret in E. destruct E as (b & _ & E). injection E as <-. exact H1.
  Qed.
  Lemma Reserve_head0 : forall d n d', head d = 0 -> Reserve zero limit d n = Ret d' -> head d' = 0.
  Proof.
    intros d n d' H E. unfold Reserve in E. destruct (_ <? _); [|now injection E as <-].
    apply bind_Ret in E. destruct E as (b & _ & E). eapply Handle_head0; [|exact E]. exact H.
  Qed.

  Lemma list_set_seq_set : forall (l : list T) i x, (i < length l)%nat -> list_set l i x = seq_set l i x.
  Proof. intros. unfold seq_set. now apply list_set_split. Qed.

  Lemma exec_step : forall d xs c b o xs' a, rep d xs c -> Z.of_nat c <= b -> 2 * Z.of_nat (length xs) <= b -> 7 <= b ->
    dstep eqb xs o xs' a -> b + cost o <= limit ->
    exists d' c', exec zero limit eqb d o = Ret (d', a) /\ rep d' xs' c' /\
      Z.of_nat c' <= b + cost o /\ 2 * Z.of_nat (length xs') <= b + cost o /\ 7 <= b + cost o /\
      (front_untouched o -> head d = 0 -> head d' = 0).
  Proof.
    intros d xs c b o xs' a R Hc Hn Hb St HL. pose proof (rep_pos _ _ _ _ R) as P. pose proof (rep_len _ _ _ _ R) as L.
    inversion St; subst; cbn [cost exec] in *; try rewrite Z.add_0_r in *.
    - destruct (PushFront_spec zero limit limit_ok d xs c x R) as (d' & E & R').
      { eapply Z.le_trans; [eapply (roomier_bound _ _ b); lia|lia]. }
      rewrite E. cbn [bind]. eexists _, _. split; [reflexivity|]. split; [exact R'|].
      pose proof (roomier_bound (length xs) c b Hc Hn). cbn [length]. repeat split; try lia. intros [].
    - destruct (PushBack_spec zero limit limit_ok d xs c x R) as (d' & E & R').
      { eapply Z.le_trans; [eapply (roomier_bound _ _ b); lia|lia]. }
      rewrite E. cbn [bind]. eexists _, _. split; [reflexivity|]. split; [exact R'|].
      pose proof (roomier_bound (length xs) c b Hc Hn). rewrite app_length. cbn [length]. repeat split; try lia.
      intros _ H0. eapply PushBack_head0; eauto.
    - rewrite (PopFront_nil _ _ _ R). cbn [bind fst snd]. exists d, c. repeat split; auto.
    - destruct (PopFront_cons _ limit_ok _ _ _ _ R) as (d' & E & R'). rewrite E. cbn [bind fst snd]. cbn [length] in Hn.
      exists d', c. repeat split; auto; try lia. intros [].
    - rewrite (PopBack_nil _ _ _ R). cbn [bind fst snd]. exists d, c. repeat split; auto.
    - destruct (PopBack_snoc _ limit_ok _ _ _ _ R) as (d' & E & R'). rewrite E. cbn [bind fst snd].
      rewrite app_length in Hn. cbn [length] in Hn.
      exists d', c. repeat split; auto; try lia. intros _ H0. unfold PopBack in E. destruct (IsEmpty d); [now injection E as <-|].
      apply bind_Ret in E. destruct E as (v & _ & E). now injection E as <- _.
    - exists d, c. replace i with (Z.of_nat (Z.to_nat i)) by lia. rewrite (Get_spec _ limit_ok _ _ _ _ R), at_nat. cbn [bind].
      repeat split; auto.
    - match goal with H : inside _ _ |- _ => destruct H as [I1 I2] end.
      destruct (Set_in _ limit_ok d xs c (Z.to_nat i) x R) as (d' & E & R'); [lia|]. rewrite Z2Nat.id in E by lia.
      rewrite E. cbn [bind fst snd]. exists d', c. rewrite <- list_set_seq_set by lia. rewrite list_set_length.
      repeat split; auto. intros _ H0. unfold Set_ in E. destruct (_ <=? _); [now injection E as <-|].
      apply bind_Ret in E. destruct E as (v & _ & E). now injection E as <-.
    - rewrite (Set_out _ _ _ _ _ x R) by lia. cbn [bind fst snd]. exists d, c. repeat split; auto.
    - match goal with H : inside _ i, H' : inside _ j |- _ => destruct H as [I1 I2]; destruct H' as [J1 J2] end.
      destruct (nth_error xs (Z.to_nat i)) as [x|] eqn:Ni; [|apply nth_error_None in Ni; lia].
      destruct (nth_error xs (Z.to_nat j)) as [y|] eqn:Nj; [|apply nth_error_None in Nj; lia].
      destruct (Swap_spec _ limit_ok d xs c _ _ _ _ R Ni Nj) as (d' & E & R'). rewrite !Z2Nat.id in E by lia.
      rewrite E. cbn [bind]. exists d', c.
      match goal with H : exchanged xs xs' _ _ |- _ =>
        rewrite (exchanged_unique _ _ _ _ _ H (list_set_exchanged _ _ _ _ _ Ni Nj)) end.
      rewrite !list_set_length. repeat split; auto. intros _ H0. unfold Swap in E. destruct (_ =? _); [now injection E as <-|].
      repeat (apply bind_Ret in E; destruct E as (? & _ & E)). now injection E as <-.
    - exists d, c. change (Front d) with (Get d (Z.of_nat 0)). rewrite (Get_spec _ limit_ok _ _ _ _ R). cbn [bind].
      repeat split; auto.
    - exists d, c. unfold Back, Len. rewrite L. split; [|repeat split; auto].
      destruct (rev xs') as [|y r] eqn:Er.
      + assert (xs' = []) by (rewrite <- (rev_involutive xs'), Er; reflexivity). subst xs'. cbn [length].
        change (u64 (Z.of_nat 0 - 1)) with (2 ^ 64 - 1). unfold Get, Len. rewrite L. reflexivity.
      + assert (E : xs' = rev r ++ [y]) by (rewrite <- (rev_involutive xs'), Er; reflexivity).
        rewrite E in *. rewrite app_length in *. cbn [length] in *. rewrite u64_small by lia.
        replace (Z.of_nat (length (rev r) + 1) - 1) with (Z.of_nat (length (rev r))) by lia.
        rewrite (Get_spec _ limit_ok _ _ _ _ R). cbn [bind]. rewrite nth_error_app2, Nat.sub_diag by lia. reflexivity.
    - destruct (Clear_spec zero limit limit_ok d) as (d' & E & R'). rewrite E. cbn [bind]. exists d', 7%nat.
      cbn [length]. repeat split; auto; try lia. intros _ _. unfold Clear in E. apply bind_Ret in E.
      destruct E as (v & _ & E). now injection E as <-.
    - exists d, c. unfold Len. rewrite L. repeat split; auto.
    - exists d, c. unfold IsEmpty. rewrite L. repeat split; auto. destruct xs'; reflexivity.
    - exists d, c. rewrite (Contains_spec _ limit_ok eqb d xs' c x R). cbn [bind]. repeat split; auto.
    - destruct (Reserve_spec zero limit limit_ok d xs' c (Z.to_nat n) R) as (d' & E & R'); [lia|].
      rewrite Z2Nat.id in E by lia. rewrite E. cbn [bind]. exists d', (c + Z.to_nat n)%nat. repeat split; auto; try lia.
      intros _ H0. eapply Reserve_head0; eauto.
    - pose proof (Retain_spec _ limit_ok unit (fun x => mret (p x)) d xs c tt R) as H.
      rewrite each_filter_pure in H. destruct H as (d' & E & R' & Hd). rewrite E. cbn [bind fst].
      exists d', c. assert (LL : (length (filter p xs) <= length xs)%nat) by (clear; induction xs as [|y xs IH]; cbn; [|destruct (p y); cbn]; lia). repeat split; auto; lia.
    - destruct (Dedup_spec _ limit_ok eqb d xs c R) as (d' & E & R' & Hd). rewrite E. cbn [bind].
      assert (LL : (length (dedup (fun kept x => eqb x kept) xs) <= length xs)%nat).
      { clear. destruct xs as [|x xs]; cbn; [lia|]. revert x. induction xs as [|y xs IH]; intros x; cbn; [lia|].
        destruct (eqb y x); cbn; [specialize (IH x) | specialize (IH y)]; lia. }
      exists d', c. repeat split; auto; lia.
    - destruct (Fill_spec _ limit_ok d xs c x R) as (d' & E & R' & Hd). rewrite E. cbn [bind].
      exists d', c. rewrite map_length. repeat split; auto; lia.
  Qed.

  Lemma cost_nonneg : forall xs o xs' a, dstep eqb xs o xs' a -> 0 <= cost o.
  Proof. intros xs o xs' a H. inversion H; subst; cbn [cost]; lia. Qed.

  Lemma fold_cost : forall xs ops xs' l b, dhistory eqb xs ops xs' l -> b <= fold_left (fun b o => b + cost o) ops b.
  Proof.
    intros xs ops xs' l b H. revert b. induction H; intros b; cbn [fold_left]; [lia|].
    pose proof (cost_nonneg _ _ _ _ H). specialize (IHdhistory (b + cost o)). lia.
  Qed.

  Lemma run_history : forall xs ops xs' l, dhistory eqb xs ops xs' l -> forall d c b,
    rep d xs c -> Z.of_nat c <= b -> 2 * Z.of_nat (length xs) <= b -> 7 <= b ->
    fold_left (fun b o => b + cost o) ops b <= limit ->
    exists d' c', run zero limit eqb d ops = Ret (d', l) /\ rep d' xs' c' /\
      (Forall front_untouched ops -> head d = 0 -> head d' = 0).
  Proof.
    induction 1 as [|xs o xs1 a ops xs2 l St Hist IH]; intros d c b R Hc Hn Hb HL; cbn [run fold_left] in *.
    - exists d, c. auto.
    - pose proof (fold_cost _ _ _ _ (b + cost o) Hist) as F.
      destruct (exec_step d xs c b o xs1 a R Hc Hn Hb St) as (d1 & c1 & E1 & R1 & A1 & A2 & A3 & A4); [lia|].
      rewrite E1. cbn [bind fst snd]. destruct (IH d1 c1 (b + cost o) R1 A1 A2 A3 HL) as (d2 & c2 & E2 & R2 & A5).
      rewrite E2. cbn [bind fst snd]. exists d2, c2. split; [reflexivity|]. split; [exact R2|].
      intros Fo H0. inversion Fo; subst. auto.
  Qed.

  Lemma makes_rep : forall m l n, makes zero limit m l n -> 7 + 2 * n <= limit ->
    exists d c, m = Ret d /\ rep d l c /\ Z.of_nat c <= 7 + 2 * n /\ 2 * Z.of_nat (length l) <= 7 + 2 * n /\ 0 <= n /\ head d = 0.
  Proof.
    intros m l n [(-> & -> & ->)|[(-> & -> & Hn)|(-> & -> & Hn)]] HL.
    - destruct (WithCapacity_spec zero limit 7) as (d & E & R); [lia|]. unfold VecDequeNew, initial_capacity.
      change 7 with (Z.of_nat 7). exists d, 7%nat. rewrite E. cbn [length]. repeat split; auto; try lia.
      unfold VecDequeWithCapacity in E. apply bind_Ret in E. destruct E as (v & _ & E). now injection E as <-.
    - destruct (WithCapacity_spec zero limit (Z.to_nat n)) as (d & E & R); [lia|].
      rewrite Z2Nat.id in E by lia. eexists d, _. rewrite E. split; [reflexivity|]. split; [exact R|]. cbn [length].
      repeat split; try lia. unfold VecDequeWithCapacity in E. apply bind_Ret in E. destruct E as (v & _ & E). now injection E as <-.
    - destruct (WithLen_spec zero limit (Z.to_nat n)) as (d & E & R); [lia|].
      rewrite Z2Nat.id in E by lia. eexists d, _. rewrite E. split; [reflexivity|]. split; [exact R|].
      rewrite repeat_length. repeat split; try lia.
      unfold VecDequeWithLen, VecDequeWithCapacity in E. apply bind_Ret in E. destruct E as (v & E' & E).
      injection E as <-. apply bind_Ret in E'. destruct E' as (w & _ & E'). now injection E' as <-.
  Qed.

  Lemma history_run : forall m l n ops l' answers, makes zero limit m l n ->
    dhistory eqb l ops l' answers -> space n ops <= limit ->
    exists d d' c, m = Ret d /\ run zero limit eqb d ops = Ret (d', answers) /\ rep d' l' c
      /\ (Forall front_untouched ops -> head d' = 0).
  Proof.
    intros m l n ops l' answers Mk H HL. unfold space in HL.
    pose proof (fold_cost _ _ _ _ (7 + 2 * n) H) as F.
    destruct (makes_rep m l n Mk) as (d & c & -> & R & A1 & A2 & A3 & A4); [lia|].
    destruct (run_history _ _ _ _ H d c (7 + 2 * n) R A1 A2 ltac:(lia) HL) as (d' & c' & E & R' & A5).
    exists d, d', c'. repeat split; auto.
  Qed.

  (** *** With the front at cell 0, the buffer starts with the contents *)
  Lemma head0_buffer : forall d xs c, rep d xs c -> head d = 0 -> exists rest, buffer d = xs ++ rest.
  Proof.
    intros d xs c (b & h & -> & (R1 & R2 & R3) & Lb & Hl) H. cbn [deq_of head buffer] in *.
    replace h with 0%nat in * by lia. exists (skipn (length xs) b). rewrite <- (firstn_skipn (length xs) b) at 1. f_equal.
    apply nth_error_ext. intros i. rewrite nth_error_firstn. destruct (Nat.ltb_spec i (length xs)).
    - rewrite <- R3 by auto. f_equal. ring_cases.
    - symmetry. apply nth_error_None. lia.
  Qed.
  Lemma AsSlice_head0 : forall d xs c, rep d xs c -> head d = 0 -> AsSlice d = Ret xs.
  Proof.
    intros d xs c R H. destruct (head0_buffer _ _ _ R H) as (rest & E). pose proof (rep_pos _ _ _ _ R) as P.
    unfold AsSlice. rewrite (rep_cap _ _ _ _ R), (rep_len _ _ _ _ R), E.
    rewrite (proj2 (Z.leb_le _ _)) by lia. rewrite Nat2Z.id. f_equal. now apply firstn_exact.
  Qed.
  Lemma store_head0 : forall d xs c ys, rep d xs c -> head d = 0 -> length ys = length xs ->
    rep (mkDeque (ys ++ skipn (length ys) (buffer d)) (dlen d) (head d)) ys c.
  Proof.
    intros d xs c ys R H L. destruct (head0_buffer _ _ _ R H) as (rest & E). pose proof (rep_pos _ _ _ _ R) as P.
    rewrite E, L, skipn_app, Nat.sub_diag, skipn_all. cbn [app skipn]. rewrite H, (rep_len _ _ _ _ R), <- L.
    assert (C : (length xs + length rest = c)%nat).
    { pose proof (rep_cap _ _ _ _ R) as C. unfold Capacity in C. rewrite E, app_length in C. lia. }
    exists (ys ++ rest), 0%nat. split; [reflexivity|]. unfold repr. rewrite app_length. split; [|lia].
    split; [lia|]. split; [lia|]. intros i Hi. replace (ring (length ys + length rest) 0 i) with i by ring_cases.
    now rewrite nth_error_app1.
  Qed.
  Lemma Sort_head0 : forall cmp d xs c, rep d xs c -> head d = 0 -> total_preorder cmp ->
    exists d' ys, Sort (Some cmp) d = Ret d' /\ rep d' ys c /\ stably_sorted cmp xs ys /\ head d' = 0.
  Proof.
    intros cmp d xs c R H TP. unfold Sort. rewrite (AsSlice_head0 _ _ _ R H). cbn [bind sort_data].
    assert (S : stably_sorted cmp xs (stable_sort (fun a b => is_less (cmp a b)) xs)).
    { split; [apply sort_perm|]. split; [now apply sort_ascending | now apply sort_stable]. }
    eexists _, _. split; [reflexivity|]. split; [apply (store_head0 d xs); auto|]. 2:{ split; [exact S|exact H]. }
    destruct S as (S & _). symmetry. now apply Permutation_length.
  Qed.
  Lemma search_prefix : forall (f : T -> out ordering) (l rest : list T) fuel low high, 0 <= low -> high < Z.of_nat (length l) ->
    search_loop fuel f (l ++ rest) low high = search_loop fuel f l low high.
  Proof.
    intros f l rest. induction fuel as [|k IH]; intros low high H1 H2; cbn [search_loop]; [reflexivity|].
    destruct (Z.leb_spec low high); [|reflexivity].
    assert (M : low <= (low + high) / 2 <= high).
    { split; [apply Z.div_le_lower_bound | apply Z.div_le_upper_bound]; lia. }
    set (mid := (low + high) / 2) in *. clearbody mid.
    assert (I : idx (l ++ rest) (Z.to_nat mid) = idx l (Z.to_nat mid)).
    { unfold idx. rewrite nth_error_app1 by lia. reflexivity. }
    rewrite I. destruct (idx l (Z.to_nat mid)) as [x| |]; cbn [bind]; auto.
    destruct (f x) as [[]| |]; cbn [bind]; auto; apply IH; lia.
  Qed.
  Lemma search_head0 : forall (f : T -> out ordering) d xs c, rep d xs c -> head d = 0 ->
    search_loop (Z.to_nat (dlen d) + 1) f (buffer d) 0 (dlen d - 1) = search_data f xs.
  Proof.
    intros f d xs c R H. destruct (head0_buffer _ _ _ R H) as (rest & E). rewrite E, (rep_len _ _ _ _ R), Nat2Z.id.
    unfold search_data. apply search_prefix; lia.
  Qed.
End Run.
