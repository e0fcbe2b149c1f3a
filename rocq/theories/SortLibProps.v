(** SortLibProps.v -- property C117: the sorting methods with the library's own algorithms.
    [rnd] stands for the library's generator of positions and is any function. *)
From Coq Require Import Permutation Sorted.
From Verif Require Import Base BaseLemmas CmpSpec VecModel VecSpec VecProofs VecSortProofs VecProps StableSortModel StableSortProofs PdqSortModel PdqSortProofs SortLibModel.
From Verif Require DequeModel DequeHistory.

(** *** For every comparison function, also one that is no order: the four methods return, the
    vector has the same elements as before, and no other array has changed. *)
Theorem C117_any_comparison : forall T (cmp : T -> T -> ordering) rnd m v, valid m v ->
  exists m1 m2, Sort (Some cmp) m v = Ret m1 /\ SortBy cmp m v = Ret m1 /\
    SortUnstable rnd (Some cmp) m v = Ret m2 /\ SortUnstableBy rnd cmp m v = Ret m2 /\
    forall m', m' = m1 \/ m' = m2 ->
      Permutation (contents m v) (contents m' v) /\ valid m' v /\
      (forall a, a < length m -> a <> arr v -> nth a m' [] = nth a m []) /\ length m <= length m'.
Proof.
  intros T cmp rnd m v V. assert (CL := contents_length m v V).
  destruct (SliceStable_done cmp (contents m v)) as (d1 & E1 & P1 & _). destruct (Slice_spec cmp rnd (contents m v)) as (d2 & E2 & P2 & _).
  destruct (in_place_Ret m v (SliceStable (by_func cmp)) d1 V E1) as (m1 & F1 & L1 & C1); [rewrite <- (Permutation_length P1); exact CL|].
  destruct (in_place_Ret m v (Slice (by_func cmp) rnd) d2 V E2) as (m2 & F2 & L2 & C2); [rewrite <- (Permutation_length P2); exact CL|].
  exists m1, m2. split; [exact F1|]. split; [exact F1|]. split; [exact F2|]. split; [exact F2|].
  intros m' [-> | ->]; [rewrite C1; destruct L1 as (V1 & _ & G1 & O1)|rewrite C2; destruct L2 as (V1 & _ & G1 & O1)]; auto.
Qed.
Print Assumptions C117_any_comparison.

(** *** For a total preorder: the stable methods leave the one stably sorted arrangement, the
    unstable ones an ascending one. *)
Theorem C117_sorted : forall T (cmp : T -> T -> ordering) rnd m v, total_preorder cmp -> valid m v ->
  exists m1 m2, Sort (Some cmp) m v = Ret m1 /\ SortBy cmp m v = Ret m1 /\
    stably_sorted cmp (contents m v) (contents m1 v) /\
    SortUnstable rnd (Some cmp) m v = Ret m2 /\ SortUnstableBy rnd cmp m v = Ret m2 /\
    Permutation (contents m v) (contents m2 v) /\ ascending cmp (contents m2 v).
Proof.
  intros T cmp rnd m v tp V. assert (CL := contents_length m v V).
  destruct (SliceStable_done cmp (contents m v)) as (d1 & E1 & P1 & S1). destruct (Slice_spec cmp rnd (contents m v)) as (d2 & E2 & P2 & S2).
  destruct (in_place_Ret m v (SliceStable (by_func cmp)) d1 V E1) as (m1 & F1 & L1 & C1); [rewrite <- (Permutation_length P1); exact CL|].
  destruct (in_place_Ret m v (Slice (by_func cmp) rnd) d2 V E2) as (m2 & F2 & L2 & C2); [rewrite <- (Permutation_length P2); exact CL|].
  exists m1, m2. split; [exact F1|]. split; [exact F1|]. split; [rewrite C1; now apply S1|]. split; [exact F2|]. split; [exact F2|]. rewrite C2. auto.
Qed.
Print Assumptions C117_sorted.

(** *** The contracts under which the methods are modelled elsewhere (VecModel, C36) are met. *)
Theorem C117_contract : forall T (cmp : T -> T -> ordering) rnd, total_preorder cmp ->
  (forall m v, valid m v -> Sort (Some cmp) m v = VecModel.Sort (Some cmp) m v /\ SortBy cmp m v = VecModel.SortBy cmp m v) /\
  (forall d, exists d', Slice (by_func cmp) rnd d = Ret d' /\ VecModel.SortUnstableBy cmp d d').
Proof.
  intros T cmp rnd tp. split.
  - intros m v V.
    enough (E : SliceStable (by_func cmp) (contents m v) = sort_data (Some cmp) (contents m v)) by (unfold Sort, SortBy, VecModel.Sort, VecModel.SortBy, in_place; split; [change (by_cmp (Some cmp)) with (by_func cmp)|]; now rewrite E).
    destruct (SliceStable_done cmp (contents m v)) as (d1 & E1 & P1 & S1). transitivity (Ret d1); [exact E1|]. cbn [sort_data]. f_equal.
    apply (C36_stable_sort_unique _ cmp (contents m v)); [exact tp|now apply S1|]. split; [apply sort_perm|]. split; [now apply sort_ascending|now apply sort_stable].
  - intros d. destruct (Slice_spec cmp rnd d) as (d2 & E2 & P2 & S2). exists d2. split; [exact E2|]. split; [exact P2|].
    intros i j x y L X Y. apply (le_not_less cmp tp). specialize (S2 tp). apply nth_error_split in Y. destruct Y as (l1 & l2 & -> & Lj).
    apply (asc_app cmp) in S2. destruct S2 as (_ & _ & S2). apply S2; [|now left]. rewrite nth_error_app1 in X by lia. now apply nth_error_In in X.
Qed.
Print Assumptions C117_contract.

(** *** Elements without Cmp: nothing happens to a vector of at most one element, and Sort and
    SortUnstable panic on any other. *)
Lemma stable_none T (d : list T) : SliceStable (by_cmp None) d = if length d <=? 1 then Ret d else Panic.
Proof.
  assert (IP : forall e b, 2 <= b -> b <= length e -> insertionSort (by_cmp (T := T) None) e 0 b = Panic).
  { intros e b B L. unfold insertionSort. cbn [Nat.add]. replace (b - 1) with (S (b - 2)) by lia. cbn [seq oloop Nat.sub shift_left].
    destruct e as [|x [|y e]]; [cbn in L; lia|cbn in L; lia|]. reflexivity. }
  unfold SliceStable. cbv zeta. destruct (Nat.leb_spec (length d) 1) as [C|C].
  - destruct d as [|x [|y d]]; [reflexivity|reflexivity|cbn in C; lia].
  - rewrite Nat.add_1_r at 1. cbn [blocks]. destruct (Nat.leb_spec 20 (length d)) as [G|G].
    + rewrite IP by lia. reflexivity.
    + cbn [bind fst snd]. rewrite IP by lia. reflexivity.
Qed.
Lemma unstable_none T rnd (d : list T) : Slice (by_cmp None) rnd d = if length d <=? 1 then Ret d else Panic.
Proof.
  unfold Slice. cbv zeta. rewrite Nat.add_1_r at 1. cbn [pdqsort]. cbv zeta. rewrite Nat.sub_0_r.
  destruct (Nat.leb_spec (length d) 12) as [C|C].
  - unfold insertionSort. destruct (Nat.leb_spec (length d) 1) as [C1|C1].
    + destruct d as [|x [|y d]]; [reflexivity|reflexivity|cbn in C1; lia].
    + cbn [Nat.add]. replace (length d - 1) with (S (length d - 2)) by lia. cbn [seq oloop Nat.sub shift_left].
      destruct d as [|x [|y d]]; [cbn in C1; lia|cbn in C1; lia|]. reflexivity.
  - destruct (Nat.leb_spec (length d) 1) as [C1|C1]; [lia|]. destruct (Nat.eqb_spec (length d) 0) as [C0|C0]; [lia|].
    destruct (Nat.eqb_spec (Nat.log2 (length d) + 1) 0) as [C2|C2]; [lia|]. cbn [negb bind].
    unfold choosePivot. cbv zeta. rewrite Nat.sub_0_r. destruct (Nat.leb_spec 8 (length d)) as [C3|C3]; [|lia].
    assert (Q : 3 <= length d / 4) by (apply Nat.div_le_lower_bound; lia). assert (Q2 := Nat.mul_div_le (length d) 4 ltac:(lia)).
    set (q := length d / 4) in *. clearbody q.
    assert (M : forall a b c s, a < length d -> b < length d -> median (by_cmp None) d a b c s = Panic).
    { intros a b c s A B. unfold median, order2, less_at. destruct (idx_Ret d b B) as (x & -> & _). destruct (idx_Ret d a A) as (y & -> & _). reflexivity. }
    destruct (50 <=? length d); [unfold medianAdjacent; rewrite M by lia; reflexivity|]. cbn [bind]. rewrite M by lia. reflexivity.
Qed.
Theorem C117_missing_cmp : forall T rnd (m : mem T) v, valid m v ->
  (Len v <= 1 -> exists m', Sort None m v = Ret m' /\ SortUnstable rnd None m v = Ret m' /\ contents m' v = contents m v) /\
  (1 < Len v -> Sort None m v = Panic /\ SortUnstable rnd None m v = Panic).
Proof.
  intros T rnd m v V. assert (CL := contents_length m v V). unfold Len, Sort, SortUnstable, in_place. rewrite stable_none, unstable_none, CL. split; intros H.
  - destruct (Nat.leb_spec (slen v) 1); [|lia]. eexists. split; [reflexivity|]. split; [reflexivity|].
    destruct (store_spec m v (contents m v) V CL) as (_ & E). exact E.
  - destruct (Nat.leb_spec (slen v) 1); [lia|]. auto.
Qed.
Print Assumptions C117_missing_cmp.

(** *** Deques: the same about the first Len cells of the buffer; Len, head and the rest of the
    buffer stay. *)
Theorem C117_deque : forall T limit (cmp : T -> T -> ordering) rnd (d : DequeModel.VecDeque T), DequeHistory.layout limit d ->
  exists cells d1 d2 c1 c2, DequeModel.AsSlice d = Ret cells /\
    DSort (Some cmp) d = Ret d1 /\ DSortBy cmp d = Ret d1 /\ DSortUnstable rnd (Some cmp) d = Ret d2 /\ DSortUnstableBy rnd cmp d = Ret d2 /\
    DequeModel.AsSlice d1 = Ret c1 /\ DequeModel.AsSlice d2 = Ret c2 /\ Permutation cells c1 /\ Permutation cells c2 /\
    (total_preorder cmp -> stably_sorted cmp cells c1 /\ ascending cmp c2) /\
    forall d', d' = d1 \/ d' = d2 -> DequeHistory.layout limit d' /\ DequeModel.Len d' = DequeModel.Len d /\ DequeModel.head d' = DequeModel.head d /\
      skipn (length cells) (DequeModel.buffer d') = skipn (length cells) (DequeModel.buffer d).
Proof.
  intros T limit cmp rnd [b n h] (L1 & L2 & L3). unfold DequeModel.Len, DequeModel.Capacity in *. cbn [DequeModel.dlen DequeModel.buffer DequeModel.head] in *.
  assert (A : DequeModel.AsSlice (DequeModel.mkDeque b n h) = Ret (firstn (Z.to_nat n) b)).
  { unfold DequeModel.AsSlice, DequeModel.Capacity. cbn [DequeModel.dlen DequeModel.buffer]. now rewrite (proj2 (Z.leb_le _ _)) by lia. }
  set (cells := firstn (Z.to_nat n) b) in *. assert (Lc : length cells = Z.to_nat n) by (apply firstn_length_le; lia).
  destruct (SliceStable_done cmp cells) as (c1 & E1 & P1 & S1). destruct (Slice_spec cmp rnd cells) as (c2 & E2 & P2 & S2).
  assert (N : forall c, Permutation cells c -> let d' := DequeModel.mkDeque (c ++ skipn (length c) b) n h in
    DequeModel.AsSlice d' = Ret c /\ DequeHistory.layout limit d' /\ skipn (length cells) (DequeModel.buffer d') = skipn (length cells) b).
  { intros c P. assert (Ll := Permutation_length P). assert (LB : length (c ++ skipn (length c) b) = length b) by (rewrite app_length, skipn_length; lia).
    cbv zeta. unfold DequeModel.AsSlice, DequeHistory.layout, DequeModel.Len, DequeModel.Capacity. cbn [DequeModel.dlen DequeModel.buffer DequeModel.head].
    rewrite LB. rewrite (proj2 (Z.leb_le _ _)) by lia. split; [|split; [auto|]].
    - f_equal. rewrite <- Lc, Ll. now rewrite firstn_app, Nat.sub_diag, firstn_all, firstn_O, app_nil_r.
    - rewrite Ll, skipn_app, Nat.sub_diag. cbn [skipn]. rewrite skipn_all2 by lia. reflexivity. }
  assert (F1 : on_cells (SliceStable (by_func cmp)) (DequeModel.mkDeque b n h) = Ret (DequeModel.mkDeque (c1 ++ skipn (length c1) b) n h)).
  { unfold on_cells. rewrite A. cbn [bind]. change (by_func cmp) with (fun a b => Ret (is_less (cmp a b))). rewrite E1. reflexivity. }
  assert (F2 : on_cells (Slice (by_func cmp) rnd) (DequeModel.mkDeque b n h) = Ret (DequeModel.mkDeque (c2 ++ skipn (length c2) b) n h)).
  { unfold on_cells. rewrite A. cbn [bind]. change (by_func cmp) with (fun a b => Ret (is_less (cmp a b))). rewrite E2. reflexivity. }
  destruct (N c1 P1) as (A1 & Y1 & K1). destruct (N c2 P2) as (A2 & Y2 & K2).
  eexists cells, _, _, c1, c2. split; [exact A|]. split; [exact F1|]. split; [exact F1|]. split; [exact F2|]. split; [exact F2|].
  split; [exact A1|]. split; [exact A2|]. split; [exact P1|]. split; [exact P2|]. split; [intros tp; auto|].
  intros d' [-> | ->]; auto.
Qed.
Print Assumptions C117_deque.

(** *** Cases *)
(** Forty pairs by their first component, which repeats. *)
Definition pairs : list (Z * Z) := map (fun k => (Z.of_nat ((k * k + 3 * k) mod 7), Z.of_nat k)) (seq 0 40).
Definition vec40 : mem (Z * Z) := [pairs].
(** A comparison that always answers Less. *)
Definition always_less (a b : Z) : ordering := Less.
Example C117_nonvacuous :
  total_preorder by_first /\ valid vec40 (mkSlice 0 40) /\
  (exists m1, Sort (Some by_first) vec40 (mkSlice 0 40) = Ret m1 /\
     firstn 7 (contents m1 (mkSlice 0 40)) = [(0, 0); (0, 4); (0, 7); (0, 11); (0, 14); (0, 18); (0, 21)]%Z) /\
  (exists m2, SortUnstable (fun n i => n + i) (Some by_first) vec40 (mkSlice 0 40) = Ret m2 /\
     map fst (firstn 14 (contents m2 (mkSlice 0 40))) = [0; 0; 0; 0; 0; 0; 0; 0; 0; 0; 0; 0; 3; 3]%Z) /\
  ~ total_preorder always_less /\
  SortBy always_less [[1; 2; 3; 4; 5]%Z] (mkSlice 0 5) = Ret [[5; 4; 3; 2; 1]%Z].
Proof.
  split; [apply C36_nonvacuous|]. split; [split; vm_compute; lia|]. split; [eexists; split; vm_compute; reflexivity|].
  split; [eexists; split; vm_compute; reflexivity|]. split; [|reflexivity]. intros tp. assert (E := tp_refl _ tp 0%Z). discriminate.
Qed.
