(** HeapProps.v -- properties C40 to C42 of BinaryHeap. *)
From Coq Require Import Permutation Sorted.
From Verif Require Import Base CmpSpec VecModel VecSpec VecProofs VecSortProofs VecProps HeapModel HeapSpec HeapProofs.

(** The operations of the specification, executed by the model. *)
Definition hexec {T} (extra : nat -> nat -> nat) (cmp : T -> T -> ordering) (h : BinaryHeap T) (o : hop) : out (BinaryHeap T * hanswer) :=
  match o with
  | HeapSpec.Push x => h' <- HPush extra cmp h x ;; Ret (h', Nothing)
  | HeapSpec.Pop => p <- HPop cmp h ;; Ret (fst p, Popped (snd p))
  | HeapSpec.Clear => Ret (HClear h, Nothing)
  | Length => Ret (h, Count (HLen h))
  end.
Fixpoint hrun {T} extra (cmp : T -> T -> ordering) (h : BinaryHeap T) (ops : list hop) : out (BinaryHeap T * list hanswer) :=
  match ops with
  | [] => Ret (h, [])
  | o :: r => p <- hexec extra cmp h o ;; q <- hrun extra cmp (fst p) r ;; Ret (fst q, snd p :: snd q)
  end.

Lemma hrun_queue : forall T extra (cmp : T -> T -> ordering), total_preorder cmp ->
  forall ops h bag, heap cmp (vec h) -> Permutation (vec h) bag -> exists h' l bag',
  hrun extra cmp h ops = Ret (h', l) /\ queue_run cmp bag ops bag' l /\ Permutation (vec h') bag' /\ heap cmp (vec h').
Proof.
  intros T extra cmp TP. induction ops as [|o ops IH]; intros h bag H P; cbn [hrun].
  - exists h, [], bag. split; [reflexivity|]. split; [constructor|]. auto.
  - assert (Q : exists h1 a bag1, hexec extra cmp h o = Ret (h1, a) /\ queue_step cmp bag o bag1 a /\
                  Permutation (vec h1) bag1 /\ heap cmp (vec h1)).
    { destruct o; cbn [hexec].
      - destruct (HPush_spec extra cmp TP h x H) as (h1 & E & P1 & H1 & _). rewrite E. cbn [bind].
        exists h1, Nothing, (x :: bag). split; [reflexivity|]. split; [constructor|]. split; [|exact H1].
        rewrite <- P1. now constructor.
      - pose proof (HPop_spec cmp TP h H) as S. destruct (vec h) as [|x0 r] eqn:Ev.
        + rewrite S. cbn [bind fst snd]. exists h, (Popped None), [].
          apply Permutation_nil in P. subst bag. split; [reflexivity|]. split; [constructor|]. rewrite Ev. auto.
        + destruct S as (h1 & x & E & P1 & [G1 G2] & H1 & _). rewrite E. cbn [bind fst snd].
          exists h1, (Popped (Some x)), (vec h1). split; [reflexivity|]. split; [|split; [reflexivity | exact H1]].
          constructor; [now rewrite <- P|]. split.
          * eapply Permutation_in; eauto.
          * intros y Hy. apply G2. eapply Permutation_in; [symmetry; exact P | exact Hy].
      - exists (HClear h), Nothing, []. split; [reflexivity|]. split; [constructor|]. split; [reflexivity|].
        intros i Hi a b Ha. destruct i; discriminate.
      - exists h, (Count (HLen h)), bag. split; [reflexivity|]. split; [|auto].
        unfold HLen. rewrite (Permutation_length P). constructor. }
    destruct Q as (h1 & a & bag1 & E & S & P1 & H1). rewrite E. cbn [bind fst snd].
    destruct (IH h1 bag1 H1 P1) as (h2 & l & bag2 & E2 & S2 & P2 & H2). rewrite E2. cbn [bind fst snd].
    exists h2, (a :: l), bag2. split; [reflexivity|]. split; [econstructor; eauto|]. auto.
Qed.

(** *** C40: after any history the answers are those of a priority queue and the
    heap holds exactly the queue's elements; nothing panics or loops.  WithLen(n)
    starts with n zero values, New and WithCapacity with none. *)
Theorem C40_priority_queue : forall (T : Type) (zero : T) extra cmp ops n, total_preorder cmp ->
  (forall h, h = BinaryHeapNew \/ h = BinaryHeapWithCapacity n ->
     exists h' l bag, hrun extra cmp h ops = Ret (h', l) /\ queue_run cmp [] ops bag l /\ Permutation (HIntoVec h') bag) /\
  (exists h' l bag, hrun extra cmp (BinaryHeapWithLen zero n) ops = Ret (h', l) /\
     queue_run cmp (repeat zero n) ops bag l /\ Permutation (HIntoVec h') bag).
Proof.
  intros T zero extra cmp ops n TP. split.
  - intros h Hh. destruct (hrun_queue T extra cmp TP ops h []) as (h' & l & bag & E & Q & P & _).
    + destruct Hh; subst; intros i Hi a b Ha; destruct i; discriminate.
    + destruct Hh; subst; reflexivity.
    + exists h', l, bag. auto.
  - destruct (hrun_queue T extra cmp TP ops (BinaryHeapWithLen zero n) (repeat zero n)) as (h' & l & bag & E & Q & P & _).
    + intros i Hi a b Ha Hb. cbn in Ha, Hb. apply nth_error_In, repeat_spec in Ha. apply nth_error_In, repeat_spec in Hb.
      subst. now apply le_refl.
    + reflexivity.
    + exists h', l, bag. auto.
Qed.
Print Assumptions C40_priority_queue.
Example C40_nonvacuous :
  hrun (fun _ _ => 0) cmpZ BinaryHeapNew [HeapSpec.Push 3; HeapSpec.Push 9; HeapSpec.Push 4; HeapSpec.Pop; Length; HeapSpec.Pop; HeapSpec.Pop; HeapSpec.Pop]%Z
  = Ret (mkHeap [] 3, [Nothing; Nothing; Nothing; Popped (Some 9%Z); Count 2; Popped (Some 4%Z); Popped (Some 3%Z); Popped None])
  /\ total_preorder cmpZ.
Proof. split; [reflexivity | exact cmpZ_preorder]. Qed.

(** *** C41: IntoSortedVec, on any heap reached by pushes and pops *)
Theorem C41_into_sorted_vec : forall (T : Type) (zero : T) extra cmp ops n h0 h l, total_preorder cmp ->
  h0 = BinaryHeapNew \/ h0 = BinaryHeapWithCapacity n \/ h0 = BinaryHeapWithLen zero n ->
  hrun extra cmp h0 ops = Ret (h, l) -> exists h' sorted,
  HIntoSortedVec zero cmp h = Ret (h', sorted) /\ HIsEmpty h' = true /\
  Permutation (HIntoVec h) sorted /\ ascending cmp sorted.
Proof.
  intros T zero extra cmp ops n h0 h l TP S E.
  assert (H0 : heap cmp (vec h0)).
  { intros i Hi a b Ha Hb. destruct S as [->|[->| ->]]; cbn in Ha, Hb; try (destruct i; discriminate).
    apply nth_error_In, repeat_spec in Ha. apply nth_error_In, repeat_spec in Hb. subst. now apply le_refl. }
  destruct (hrun_queue T extra cmp TP ops h0 (vec h0)) as (h1 & l1 & bag & E1 & _ & _ & H); [exact H0 | reflexivity |].
  rewrite E in E1. inversion E1; subst h1 l1.
  destruct (sorted_loop_spec cmp TP (HLen h + 1) h (repeat zero (HLen h)) []) as (h' & s & E2 & V & P & A).
  - exact H. - lia. - apply repeat_length. - constructor. - intros x y _ [].
  - rewrite !app_nil_r in *. exists h', s. split; [exact E2|]. unfold HIsEmpty, HLen. rewrite V.
    split; [reflexivity|]. split; [exact P | exact A].
Qed.
Print Assumptions C41_into_sorted_vec.
Example C41_nonvacuous : exists h l,
  hrun (fun _ _ => 0) cmpZ BinaryHeapNew [HeapSpec.Push 3; HeapSpec.Push 9; HeapSpec.Push 4]%Z = Ret (h, l) /\
  HIntoSortedVec 0%Z cmpZ h = Ret (mkHeap [] 3, [3; 4; 9]%Z).
Proof. eexists. eexists. split; reflexivity. Qed.

(** *** C42: Append *)

(** Exactly which elements end up where: the other heap keeps its elements, and
    self also gets zero values when its capacity is too small. *)
Theorem C42_append_characterised : forall (T : Type) (zero : T) extra cmp (h other : BinaryHeap T), exists h',
  HAppend zero extra cmp h other = Ret (h', other) /\
  Permutation (HIntoVec h ++ (if HCapacity h <? HLen h + (HLen h + HLen other) then repeat zero (HLen h + HLen other) else []) ++ HIntoVec other)
              (HIntoVec h').
Proof.
  intros T zero extra cmp h other. unfold HAppend, HReserve, HCapacity, HIntoVec.
  destruct (push_all_perm extra cmp (vec other) (if capacity h <? HLen h + (HLen h + HLen other) then extend extra h (repeat zero (HLen h + HLen other)) else h)) as (h' & E & P).
  rewrite E. cbn [bind]. exists h'. split; [reflexivity|]. rewrite <- P.
  destruct (capacity h <? HLen h + (HLen h + HLen other)); cbn [vec extend app]; [now rewrite app_assoc | reflexivity].
Qed.
Print Assumptions C42_append_characterised.
(** So other is never emptied. *)
Theorem C42_other_not_emptied_refuted : forall (T : Type) (zero : T) extra cmp (h other : BinaryHeap T) h' other',
  HAppend zero extra cmp h other = Ret (h', other') -> other' = other.
Proof.
  intros T zero extra cmp h other h' other' E.
  destruct (C42_append_characterised T zero extra cmp h other) as (h1 & E1 & _). congruence.
Qed.
Print Assumptions C42_other_not_emptied_refuted.
(** And on heaps built by pushes it can invent elements and lose the heap order: of
    {-5} and {-7} it makes four elements, and Pop answers -5 although 0 is there. *)
Theorem C42_append_refuted : exists h other h' h'',
  hrun (fun _ _ => 0) cmpZ BinaryHeapNew [HeapSpec.Push (-5)]%Z = Ret (h, [Nothing]) /\
  hrun (fun _ _ => 0) cmpZ BinaryHeapNew [HeapSpec.Push (-7)]%Z = Ret (other, [Nothing]) /\
  HAppend 0%Z (fun _ _ => 0) cmpZ h other = Ret (h', other) /\
  HLen h' = 4 /\ In 0%Z (HIntoVec h') /\ HPop cmpZ h' = Ret (h'', Some (-5)%Z).
Proof. do 4 eexists. repeat split; try reflexivity. cbn. auto. Qed.
Print Assumptions C42_append_refuted.
(** What holds: with capacity for twice its own length plus the other's, self becomes
    the union and stays a heap (later pops give it in descending order). *)
Theorem C42_append_partial : forall (T : Type) (zero : T) extra cmp ops1 ops2 n h l1 other l2, total_preorder cmp ->
  hrun extra cmp (BinaryHeapWithCapacity n) ops1 = Ret (h, l1) ->
  hrun extra cmp BinaryHeapNew ops2 = Ret (other, l2) ->
  HLen h + (HLen h + HLen other) <= HCapacity h -> exists h' sorted h'',
  HAppend zero extra cmp h other = Ret (h', other) /\
  Permutation (HIntoVec h ++ HIntoVec other) (HIntoVec h') /\
  HIntoSortedVec zero cmp h' = Ret (h'', sorted) /\ Permutation (HIntoVec h') sorted /\ ascending cmp sorted.
Proof.
  intros T zero extra cmp ops1 ops2 n h l1 other l2 TP E1 E2 C.
  destruct (hrun_queue T extra cmp TP ops1 (BinaryHeapWithCapacity n) []) as (h1 & l & bag & E & _ & _ & H); [intros i Hi a b Ha; destruct i; discriminate | reflexivity |].
  rewrite E1 in E. inversion E; subst h1 l.
  unfold HAppend, HReserve. destruct (Nat.ltb_spec (capacity h) (HLen h + (HLen h + HLen other))); [unfold HCapacity in C; lia|].
  destruct (push_all extra cmp TP (vec other) h H) as (h' & Ep & P & H'). rewrite Ep. cbn [bind].
  destruct (sorted_loop_spec cmp TP (HLen h' + 1) h' (repeat zero (HLen h')) []) as (h'' & s & E3 & V & P3 & A);
    [exact H' | lia | apply repeat_length | constructor | intros x y _ [] |].
  rewrite !app_nil_r in *. exists h', s, h''. split; [reflexivity|]. split; [exact P|]. split; [exact E3|]. auto.
Qed.
Print Assumptions C42_append_partial.
Example C42_nonvacuous : exists h other,
  hrun (fun _ _ => 0) cmpZ (BinaryHeapWithCapacity 5) [HeapSpec.Push 3; HeapSpec.Push 9]%Z = Ret (h, [Nothing; Nothing]) /\
  hrun (fun _ _ => 0) cmpZ BinaryHeapNew [HeapSpec.Push 7]%Z = Ret (other, [Nothing]) /\
  HLen h + (HLen h + HLen other) <= HCapacity h.
Proof. do 2 eexists. split; [reflexivity|]. split; [reflexivity|]. cbn. lia. Qed.
