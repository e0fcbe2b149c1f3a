(** HeapSystemProps.v -- properties C116 (programs over several heaps, capacities) and C42 (a
    heap appended to itself). *)
From Coq Require Import Permutation.
From Verif Require Import Base BaseLemmas CmpSpec VecModel VecSpec VecProofs VecProps HeapModel HeapSpec HeapProofs HeapSystemSpec HeapSystemModel HeapSystemProofs.

(** *** C116: every program over any number of heaps runs to its end, with the answers of the
    queues of the specification; afterwards each heap holds its queue's elements and has
    its capacity, which is never below its length. *)
Theorem C116_histories : forall T (zero : T) extra cmp (ops : list (sys_op T)), total_preorder cmp ->
  exists hs answers rooms, srun zero extra cmp [] ops = Ret (hs, answers) /\ sys_run zero cmp [] ops rooms answers /\
    Forall2 (fun h r => Permutation (HIntoVec h) (bag r) /\ HCapacity h = cap r /\ HLen h <= HCapacity h) hs rooms.
Proof.
  intros T zero extra cmp ops TP. destruct (srun_rep zero extra cmp TP ops [] []) as (hs & l & rs & E & S & F); [constructor|].
  exists hs, l, rs. split; [exact E|]. split; [exact S|]. clear E S.
  induction F as [|h r hs rs (P & C & L & _) F IH]; constructor; auto.
Qed.
Print Assumptions C116_histories.

(** What Reserve promises about the capacity holds, and it keeps the elements where they are,
    in front; Push and Clear likewise. *)
Theorem C116_reserve : forall T (zero : T) extra (h : BinaryHeap T) n,
  HLen h + n <= HCapacity (HReserve zero extra h n) /\
  (HLen h + n <= HCapacity h -> HReserve zero extra h n = h) /\
  (HCapacity h < HLen h + n -> HIntoVec (HReserve zero extra h n) = HIntoVec h ++ repeat zero n).
Proof.
  intros T zero extra h n. unfold HReserve, HCapacity, HIntoVec.
  destruct (Nat.ltb_spec (capacity h) (HLen h + n)) as [A|A].
  - split; [|split; [lia|reflexivity]]. unfold extend. cbn [capacity]. rewrite repeat_length. destruct (Nat.leb_spec (HLen h + n) (capacity h)); lia.
  - split; [exact A|]. split; [reflexivity|lia].
Qed.
Print Assumptions C116_reserve.

(** Three heaps: the second is made with enough room, is added to the first, which has
    not and so gets four zero values as well; then it is cleared. *)
Example C116_nonvacuous :
  srun 0%Z (fun _ n => n) cmpZ [] [New; WithCapacity 4; WithLen 2; Push 0 (-3); Push 0 (-1); Capacity 0; Push 1 5; Push 1 8; Capacity 1;
    Append 0 1; Len 0; Pop 0; Pop 0; Pop 0; Pop 0; Clear 1; Capacity 1; Reserve 1 2; Len 1; Capacity 1; Sorted 2; Capacity 2; IsEmpty 2; Pop 3]%Z
  = Ret ([mkHeap [0; 0; -1; -3] 12; mkHeap [0; 0] 4; mkHeap [] 2]%Z,
     [Nothing; Nothing; Nothing; Nothing; Nothing; Count 2; Nothing; Nothing; Count 4;
      Nothing; Count 8; Popped (Some 8); Popped (Some 5); Popped (Some 0); Popped (Some 0); Nothing; Count 0; Nothing; Count 2; Count 4;
      Listed [0; 0]; Count 2; Truth true; NoHeap]%Z)
  /\ total_preorder cmpZ.
Proof. split; [vm_compute; reflexivity|exact cmpZ_preorder]. Qed.

(** *** C42: heap.Append(&heap) *)

(** The heap gets as many more elements as it has once room is reserved, each equal to
    one of them. *)
Theorem C42_self_characterised : forall T (zero : T) extra cmp (h : BinaryHeap T), total_preorder cmp -> HLen h <= HCapacity h ->
  let base := HIntoVec (HReserve zero extra h (HLen h + HLen h)) in
  exists h' added, HAppendSelf zero extra cmp h = Ret h' /\
    Permutation (HIntoVec h') (base ++ added) /\ length added = length base /\ incl added base.
Proof.
  intros T zero extra cmp h TP L base. unfold HAppendSelf. cbv zeta. set (h1 := HReserve zero extra h (HLen h + HLen h)) in *.
  assert (R : rep cmp h1 (mkRoom (vec h1) (capacity h1) False)).
  { split; [reflexivity|]. split; [reflexivity|]. cbn [ordered]. split; [|tauto]. unfold h1, HReserve.
    destruct (capacity h <? HLen h + (HLen h + HLen h)); [|exact L]. unfold extend. cbn [vec capacity]. rewrite app_length, repeat_length. unfold HLen.
    destruct (Nat.leb_spec (length (vec h) + (length (vec h) + length (vec h))) (capacity h)); lia. }
  destruct (self_rep extra cmp TP (vec h1) (HLen h1) 0 None h1 _ R) as (h' & added & c & E & LA & I & _ & (P & _));
    [apply incl_refl|unfold HLen; lia|].
  exists h', added. split; [exact E|]. unfold HIntoVec in *. cbn [bag] in P. split; [rewrite P; apply Permutation_app_comm|]. split; [exact LA|exact I].
Qed.
Print Assumptions C42_self_characterised.
(** If it is then full, every element is there twice. *)
Theorem C42_self_full : forall T (zero : T) extra cmp (h : BinaryHeap T),
  let h1 := HReserve zero extra h (HLen h + HLen h) in HCapacity h1 = HLen h1 ->
  exists h', HAppendSelf zero extra cmp h = Ret h' /\ Permutation (HIntoVec h') (HIntoVec h1 ++ HIntoVec h1).
Proof.
  intros T zero extra cmp h h1 F. unfold HAppendSelf. fold h1. cbv zeta.
  assert (FR : forall n i a g, i + n = length a -> append_self_loop extra cmp n i (Some a) g = oloop (HPush extra cmp) (skipn i a) g).
  { induction n as [|n IH]; intros i a g L; cbn [append_self_loop].
    - rewrite skipn_all2 by lia. reflexivity.
    - destruct (nth_error_lt _ a i) as (x & Hx); [lia|]. rewrite (idx_nth_error _ _ _ Hx). cbn [bind]. cbv zeta.
      assert (SK : skipn i a = x :: skipn (S i) a).
      { destruct (nth_error_split _ _ Hx) as (p & q & -> & Lp). rewrite <- Lp. clear. induction p; cbn; auto. }
      rewrite SK. cbn [oloop]. destruct (HPush extra cmp g x); cbn [bind]; try reflexivity. replace (i + 1) with (S i) by lia. apply IH. lia. }
  destruct (push_all_perm extra cmp (vec h1) h1) as (h' & E & P). exists h'. split; [|unfold HIntoVec; now rewrite P].
  rewrite <- E. unfold HLen in *. destruct (vec h1) as [|x r] eqn:Ev; [reflexivity|].
  cbn [length append_self_loop oloop]. rewrite Ev. unfold idx. cbn [nth_error of_option bind]. cbv zeta. unfold HLen, HCapacity in *. rewrite Ev, F.
  destruct (Nat.ltb_spec (length (x :: r)) (length (x :: r) + 1)); [|lia]. destruct (HPush extra cmp h1 x); cbn [bind]; try reflexivity.
  rewrite FR by (cbn; lia). reflexivity.
Qed.
Print Assumptions C42_self_full.
(** With room to spare an element that a push has moved is read again: 9, 8, 7, 1 become
    9, 9, 9, 9, 8, 7, 7, 1. *)
Theorem C42_self_refuted : exists h h',
  srun 0%Z (fun _ _ => 0) cmpZ [] [WithCapacity 12; Push 0 9; Push 0 8; Push 0 1; Push 0 7]%Z = Ret ([h], [Nothing; Nothing; Nothing; Nothing; Nothing]) /\
  HAppendSelf 0%Z (fun _ _ => 0) cmpZ h = Ret h' /\
  Permutation (HIntoVec h) [9; 8; 7; 1]%Z /\ ~ Permutation (HIntoVec h') (HIntoVec h ++ HIntoVec h).
Proof.
  eexists _, _. split; [vm_compute; reflexivity|]. split; [vm_compute; reflexivity|]. unfold HIntoVec. cbn [vec]. split.
  - do 2 constructor. apply perm_swap.
  - intros P. apply (Permutation_count_occ Z.eq_dec) with (x := 9%Z) in P. vm_compute in P. discriminate.
Qed.
Print Assumptions C42_self_refuted.
