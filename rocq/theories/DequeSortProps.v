(** DequeSortProps.v -- C127: VecDeque's sorts with a comparison of any kind. *)
From Coq Require Import Permutation.
From Verif Require Import Base CmpSpec VecModel VecSpec PanicSpec CostSpec DequeSpec DequeHistory
  SortProgSpec SortProgModel SortProgProps PdqProgSpec PdqProgModel PdqProgProps DequeSortModel DequeSortProofs.
From Verif Require DequeModel DequeProps.
Local Open Scope Z_scope.

(** A comparison of numbers that counts its calls. *)
Definition numerical : user nat (Z * Z) ordering :=
  fun p u => (S u, Some (if fst p <? snd p then Less else if fst p =? snd p then Equal else Greater)).
(** One that panics in its second call. *)
Definition second : user nat (Z * Z) ordering :=
  fun p u => (S u, if Nat.eqb u 1 then None else Some (if fst p <? snd p then Less else Greater)).

(** It is false that the deque keeps its elements, already when numbers are compared: after
    PopFront the element that was taken out is back, and another one is lost. *)
Theorem C127_refuted :
  exists d d' d'' n n', run 0 1000 Z.eqb (DequeModel.mkDeque (repeat 0 7) 0 0) [PushBack 30; PushBack 20; PushBack 10; PopFront]
      = Ret (d, [Done; Done; Done; Value (Some 30)]) /\
    map (DequeModel.Get d) [0; 1; 2] = [Ret (Some 20); Ret (Some 10); Ret None] /\
    d_stable_sort numerical d 0%nat = Ret ((d', n), Some tt) /\ d_unstable_sort (fun _ _ => 0%nat) numerical d 0%nat = Ret ((d'', n'), Some tt) /\
    map (DequeModel.Get d') [0; 1; 2] = [Ret (Some 30); Ret (Some 10); Ret None] /\
    map (DequeModel.Get d'') [0; 1; 2] = [Ret (Some 30); Ret (Some 10); Ret None].
Proof.
  eexists _, _, _, _, _. split; [vm_compute; reflexivity|]. split; [vm_compute; reflexivity|]. split; [vm_compute; reflexivity|].
  split; [vm_compute; reflexivity|]. split; [vm_compute; reflexivity|vm_compute; reflexivity].
Qed.
Print Assumptions C127_refuted.

(** Any comparison - with a state, contradicting itself, changing its mind or panicking - on
    any deque: the sort comes to an end with no index out of range, and stops early only if
    the comparison panicked.  It rearranges the first Len cells of the buffer; the length,
    the front's position and the other cells stay. *)
Definition rearranged {T} limit (d d' : DequeModel.VecDeque T) : Prop :=
  layout limit d' /\ DequeModel.Len d' = DequeModel.Len d /\ DequeModel.head d' = DequeModel.head d /\
  skipn (Z.to_nat (DequeModel.Len d)) (DequeModel.buffer d') = skipn (Z.to_nat (DequeModel.Len d)) (DequeModel.buffer d) /\
  exists s s', DequeModel.AsSlice d = Ret s /\ DequeModel.AsSlice d' = Ret s' /\ Permutation s s'.
Theorem C127_characterised : forall T U limit rnd (compare : user U (T * T) ordering) (d : DequeModel.VecDeque T) (u : U), layout limit d ->
  (exists d' p u' r, d_stable_sort (watched compare) d (false, u) = Ret ((d', (p, u')), r) /\ rearranged limit d d' /\ (r = None <-> p = true)) /\
  (exists d' p u' r, d_unstable_sort rnd (watched compare) d (false, u) = Ret ((d', (p, u')), r) /\ rearranged limit d d' /\ (r = None <-> p = true)).
Proof.
  intros T U limit rnd f d u L. destruct (cells_eq limit d L) as (A & La).
  assert (R : forall s', Permutation (firstn (Z.to_nat (DequeModel.Len d)) (DequeModel.buffer d)) s' -> rearranged limit d (put_cells d s')).
  { intros s' P. destruct (put_cells_facts limit d s' L) as (Q1 & Q2 & Q3 & Q4 & Q5); [rewrite <- (Permutation_length P); exact La|].
    repeat (split; [assumption|]). eexists _, s'. eauto. }
  split.
  - destruct (C124_any_comparison T U f (firstn (Z.to_nat (DequeModel.Len d)) (DequeModel.buffer d)) u) as (s' & p & u' & r & E & P & N).
    exists (put_cells d s'), p, u', r. split; [exact (on_buffer_eq limit _ d _ _ _ _ L E)|]. auto.
  - destruct (C125_any_comparison T U rnd f (firstn (Z.to_nat (DequeModel.Len d)) (DequeModel.buffer d)) u) as (s' & p & u' & r & E & P & N).
    exists (put_cells d s'), p, u', r. split; [exact (on_buffer_eq limit _ d _ _ _ _ L E)|]. auto.
Qed.
Print Assumptions C127_characterised.

(** The number of comparisons. *)
Theorem C127_comparisons : forall T U limit rnd (compare : user U (T * T) ordering) (d : DequeModel.VecDeque T) (u : U), layout limit d ->
  (exists d' n u' r, d_stable_sort (counted compare) d (0%nat, u) = Ret ((d', (n, u')), r) /\ (n <= stable_bound (Z.to_nat (DequeModel.Len d)))%nat) /\
  (exists d' n u' r, d_unstable_sort rnd (counted compare) d (0%nat, u) = Ret ((d', (n, u')), r) /\ (n <= unstable_bound (Z.to_nat (DequeModel.Len d)))%nat).
Proof.
  intros T U limit rnd f d u L. destruct (cells_eq limit d L) as (A & La). split.
  - destruct (C124_comparisons T U f (firstn (Z.to_nat (DequeModel.Len d)) (DequeModel.buffer d)) u) as (s' & n & u' & r & E & N).
    exists (put_cells d s'), n, u', r. rewrite La in N. split; [exact (on_buffer_eq limit _ d _ _ _ _ L E)|exact N].
  - destruct (C125_comparisons T U rnd f (firstn (Z.to_nat (DequeModel.Len d)) (DequeModel.buffer d)) u) as (s' & n & u' & r & E & N).
    exists (put_cells d s'), n, u', r. rewrite La in N. split; [exact (on_buffer_eq limit _ d _ _ _ _ L E)|exact N].
Qed.
Print Assumptions C127_comparisons.

(** The claim holds where the first Len cells are the deque's elements: the front is at
    cell 0 (elements have only been pushed and popped at the back), or the buffer is full. *)
Theorem C127_kept_partial : forall T U limit rnd (compare : user U (T * T) ordering) (d : DequeModel.VecDeque T) l (u : U), 7 <= limit < 2 ^ 63 ->
  layout limit d -> shows d l -> DequeModel.head d = 0 \/ DequeModel.Len d = DequeModel.Capacity d ->
  (exists d' u' r l', d_stable_sort compare d u = Ret ((d', u'), r) /\ shows d' l' /\ Permutation l l') /\
  (exists d' u' r l', d_unstable_sort rnd compare d u = Ret ((d', u'), r) /\ shows d' l' /\ Permutation l l').
Proof.
  intros T U limit rnd f d l u Hl L Sh C. split.
  - destruct (SortProgProofs.play_fine f _ _ (firstn (Z.to_nat (DequeModel.Len d)) (DequeModel.buffer d)) _ u
      (SortProgProofs.stable_costs (length (firstn (Z.to_nat (DequeModel.Len d)) (DequeModel.buffer d))) _ (Nat.le_refl _) 0%nat (fun _ _ => True) (fun _ _ _ _ => I)))
      as (s' & u' & r & E & P).
    destruct (put_cells_kept limit Hl d l s' L Sh C P) as (l' & Q1 & Q2 & _).
    exists (put_cells d s'), u', r, l'. split; [exact (on_buffer_eq limit (stable_sort f) d _ _ _ _ L E)|auto].
  - destruct (SortProgProofs.play_fine f _ _ (firstn (Z.to_nat (DequeModel.Len d)) (DequeModel.buffer d)) _ u
      (PdqProgProofs.unstable_costs rnd (length (firstn (Z.to_nat (DequeModel.Len d)) (DequeModel.buffer d))) 0%nat (fun _ _ => True) (fun _ _ _ _ => I)))
      as (s' & u' & r & E & P).
    destruct (put_cells_kept limit Hl d l s' L Sh C P) as (l' & Q1 & Q2 & _).
    exists (put_cells d s'), u', r, l'. split; [exact (on_buffer_eq limit (unstable_sort rnd f) d _ _ _ _ L E)|auto].
Qed.
Print Assumptions C127_kept_partial.
(** With the front at cell 0 and the answers of a total preorder it is sorted. *)
Theorem C127_sorted_partial : forall T U limit rnd (compare : user U (T * T) ordering) (cmp : T -> T -> ordering) (d : DequeModel.VecDeque T) l (u : U),
  7 <= limit < 2 ^ 63 -> layout limit d -> shows d l -> DequeModel.head d = 0 ->
  total_preorder cmp -> answers_like compare (fun p => cmp (fst p) (snd p)) ->
  (exists d' u' l', d_stable_sort compare d u = Ret ((d', u'), Some tt) /\ shows d' l' /\ stably_sorted cmp l l') /\
  (exists d' u' l', d_unstable_sort rnd compare d u = Ret ((d', u'), Some tt) /\ shows d' l' /\ Permutation l l' /\ ascending cmp l').
Proof.
  intros T U limit rnd f cmp d l u Hl L Sh H0 tp A. split.
  - destruct (C124_sorted T U f cmp (firstn (Z.to_nat (DequeModel.Len d)) (DequeModel.buffer d)) u tp A) as (s' & u' & E & S).
    destruct (put_cells_kept limit Hl d l s' L Sh (or_introl H0)) as (l' & Q1 & Q2 & Q3); [apply S|].
    destruct (Q3 H0) as (-> & ->). exists (put_cells d s'), u', s'. split; [exact (on_buffer_eq limit _ d _ _ _ _ L E)|auto].
  - destruct (C125_sorted T U rnd f cmp (firstn (Z.to_nat (DequeModel.Len d)) (DequeModel.buffer d)) u tp A) as (s' & u' & E & P & S).
    destruct (put_cells_kept limit Hl d l s' L Sh (or_introl H0) P) as (l' & Q1 & Q2 & Q3).
    destruct (Q3 H0) as (-> & ->). exists (put_cells d s'), u', s'. split; [exact (on_buffer_eq limit _ d _ _ _ _ L E)|auto].
Qed.
Print Assumptions C127_sorted_partial.

(** A deque with the front at cell 0; a full one with the front elsewhere; a comparison that
    panics. *)
Example C127_nonvacuous :
  (exists d d' n, run 0 1000 Z.eqb (DequeModel.mkDeque (repeat 0 7) 0 0) [PushBack 30; PushBack 20; PushBack 10] = Ret (d, [Done; Done; Done]) /\
    layout 1000 d /\ DequeModel.head d = 0 /\ d_stable_sort numerical d 0%nat = Ret ((d', n), Some tt) /\
    map (DequeModel.Get d') [0; 1; 2; 3] = [Ret (Some 10); Ret (Some 20); Ret (Some 30); Ret None]) /\
  (exists d d', run 0 1000 Z.eqb (DequeModel.mkDeque (repeat 0 3) 0 0) [PushFront 30; PushFront 10; PushFront 20; PopBack; PushFront 40] = Ret (d, [Done; Done; Done; Value (Some 30); Done]) /\
    layout 1000 d /\ DequeModel.head d = 2 /\ DequeModel.Len d = DequeModel.Capacity d /\
    map (DequeModel.Get d) [0; 1; 2] = [Ret (Some 40); Ret (Some 20); Ret (Some 10)] /\
    d_unstable_sort (fun _ _ => 0%nat) second d 0%nat = Ret ((d', 2%nat), None) /\
    map (DequeModel.Get d') [0; 1; 2] = [Ret (Some 40); Ret (Some 10); Ret (Some 20)]).
Proof.
  split.
  - eexists _, _, _. split; [vm_compute; reflexivity|]. split; [unfold layout; vm_compute; intuition discriminate|].
    split; [vm_compute; reflexivity|]. split; [vm_compute; reflexivity|vm_compute; reflexivity].
  - eexists _, _. split; [vm_compute; reflexivity|]. split; [unfold layout; vm_compute; intuition discriminate|].
    split; [vm_compute; reflexivity|]. split; [vm_compute; reflexivity|]. split; [vm_compute; reflexivity|]. split; [vm_compute; reflexivity|vm_compute; reflexivity].
Qed.
