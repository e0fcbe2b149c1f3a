(** CostProps.v -- property C120: how often comparisons are called. *)
From Coq Require Import Permutation.
From Verif Require Import Base VecModel PanicSpec PanicModel PanicProps CostSpec CostModel CostProofs.

(** *** C120: whatever Cmp or the function answers, and also if it panics on the way *)
(** Push: one call for each level of the heap. *)
Theorem C120_push : forall (T U : Type) (cmp : user U (T * T) ordering) x d,
  calls_at_most (Nat.log2 (length d + 1)) (fun f => H_Push f x) cmp d.
Proof.
  intros T U cmp x d u. assert (H := Push_cost cmp d x 0 u). destruct (H_Push (counted cmp) x (d, (0, u))) as [[d' [n u']] r]. apply H.
Qed.
Print Assumptions C120_push.
(** Pop: one call for each level on the way down, and one on the way up. *)
Theorem C120_pop : forall (T U : Type) (cmp : user U (T * T) ordering) d,
  calls_at_most (Nat.log2 (length d - 2) + Nat.log2 (length d - 1)) (fun f => H_Pop f) cmp d.
Proof.
  intros T U cmp d u. assert (H := Pop_cost cmp d 0 u). destruct (H_Pop (counted cmp) (d, (0, u))) as [[d' [n u']] r]. apply H.
Qed.
Print Assumptions C120_pop.
Theorem C120_into_sorted_vec : forall (T U : Type) (zero : T) (cmp : user U (T * T) ordering) d,
  calls_at_most (2 * length d * Nat.log2 (length d)) (fun f => H_IntoSortedVec zero f) cmp d.
Proof.
  intros T U zero cmp d u. unfold H_IntoSortedVec. unfold xbind, xget. cbn [fst].
  assert (H := sorted_cost cmp (length d + 1) d (repeat zero (length d)) (Z.of_nat (length d) - 1) 0 u).
  destruct (sorted_loop (counted cmp) (length d + 1) (repeat zero (length d)) (Z.of_nat (length d) - 1) (d, (0, u))) as [[d' [n u']] r]. apply H.
Qed.
Print Assumptions C120_into_sorted_vec.
(** BinarySearch and BinarySearchBy: the elements left are halved with each call. *)
Theorem C120_search : forall (T U : Type) (f : user U T ordering) d,
  calls_at_most (Nat.log2 (length d) + 1) (fun f => V_BinarySearchBy f) f d /\
  (d = [] -> calls_at_most 0 (fun f => V_BinarySearchBy f) f d) /\
  forall len, (0 <= len)%Z -> calls_at_most (Nat.log2 (Z.to_nat len) + 1) (fun f => D_BinarySearchBy len f) f d.
Proof.
  intros T U f d.
  assert (A : forall fuel len, (0 <= len)%Z -> forall u, let '((_, (n, _)), _) := search_loop fuel (counted f) 0 (len - 1) (d, (0, u)) in n <= search_bound len).
  { intros fuel len L u. destruct (search_cost f fuel 0 (len - 1) d 0 u) as [H _].
    destruct (search_loop fuel (counted f) 0 (len - 1) (d, (0, u))) as [[d' [n u']] r]. cbn [fst snd] in H. replace (len - 1 - 0 + 1)%Z with len in H by lia. lia. }
  assert (B : forall len, search_bound len <= Nat.log2 (Z.to_nat len) + 1) by (intros len; unfold search_bound; destruct (len <=? 0)%Z; lia).
  unfold calls_at_most. split; [|split].
  - intros u. unfold V_BinarySearchBy. unfold xbind, xget. cbn [fst]. specialize (A (length d + 1) (Z.of_nat (length d)) ltac:(lia) u).
    specialize (B (Z.of_nat (length d))). rewrite Nat2Z.id in B.
    destruct (search_loop (length d + 1) (counted f) 0 (Z.of_nat (length d) - 1) (d, (0, u))) as [[d' [n u']] r]. lia.
  - intros -> u. cbn. lia.
  - intros len L u. unfold D_BinarySearchBy. specialize (A (Z.to_nat len + 1) len L u). specialize (B len).
    destruct (search_loop (Z.to_nat len + 1) (counted f) 0 (len - 1) (d, (0, u))) as [[d' [n u']] r]. lia.
Qed.
Print Assumptions C120_search.

(** The count of calls changes nothing about what is computed (here for Push). *)
Example C120_nonvacuous :
  let c := fun (p : nat * nat) (u : unit) => (u, Some (if fst p <? snd p then Less else if fst p =? snd p then Equal else Greater)) in
  H_Push (counted c) 9 ([7; 6; 5; 4; 3; 2; 1], (0, tt)) = (([9; 7; 5; 6; 3; 2; 1; 4], (3, tt)), Some tt) /\ Nat.log2 (7 + 1) = 3 /\
  H_Pop (counted c) ([9; 8; 5; 7; 6; 2; 1; 4], (0, tt)) = (([8; 7; 5; 4; 6; 2; 1], (3, tt)), Some (Some 9)) /\ Nat.log2 (8 - 2) + Nat.log2 (8 - 1) = 4 /\
  V_BinarySearchBy (counted (fun x => c (x, 7))) ([1; 2; 3; 4; 5; 6; 7], (0, tt)) = (([1; 2; 3; 4; 5; 6; 7], (3, tt)), Some (Some 6)) /\ Nat.log2 7 + 1 = 3 /\
  snd (fst (H_IntoSortedVec 0 (counted c) ([9; 8; 5; 7; 6; 2; 1; 4], (0, tt)))) = (14, tt) /\ 2 * 8 * Nat.log2 8 = 48.
Proof. vm_compute. repeat split. Qed.

(** *** What the calls return, with functions that have a state and may panic *)
(** Searching changes nothing, returns unless the function panics, and answers as in C37 if the
    function's answers do not depend on its state. *)
Theorem C120_search_answers : forall (T U : Type) (f : user U T ordering) (g : T -> ordering) m v u,
  let '((d', _), r) := V_BinarySearchBy f (contents m v, u) in
  d' = contents m v /\ (safe f -> r <> None) /\
  ((forall x u o, snd (f x u) = Some o -> o = g x) -> forall a, r = Some a -> BinarySearchBy g m v = Ret a).
Proof.
  intros T U f g m v u. unfold V_BinarySearchBy, BinarySearchBy, search_data. unfold xbind, xget. cbn [fst]. set (d := contents m v).
  assert (H := search_ends f (length d + 1) 0 (Z.of_nat (length d) - 1) d u ltac:(lia) ltac:(lia) ltac:(lia)).
  destruct (search_loop (length d + 1) f 0 (Z.of_nat (length d) - 1) (d, u)) as [[d' u'] r]. destruct H as (H1 & H2 & H3).
  split; [exact H1|]. split; [intros Sf E; now apply H2|]. intros G a E. now apply (H3 g).
Qed.
Print Assumptions C120_search_answers.
(** IntoSortedVec returns all elements and leaves the heap empty; if Cmp panics, the elements that
    are not in the heap any more are lost, at least one. *)
Theorem C120_into_sorted_vec_answers : forall (T U : Type) (zero : T) (cmp : user U (T * T) ordering) d u,
  let '((d', _), r) := H_IntoSortedVec zero cmp (d, u) in
  match r with
  | Some sorted => d' = [] /\ Permutation d sorted
  | None => ~ safe cmp /\ exists lost, lost <> [] /\ Permutation d (lost ++ d')
  end.
Proof.
  intros T U zero cmp d u. unfold H_IntoSortedVec. unfold xbind, xget. cbn [fst].
  assert (H := sorted_ends cmp (length d + 1) d (repeat zero (length d)) [] u ltac:(lia) (repeat_length _ _)). rewrite app_nil_r in H.
  destruct (sorted_loop cmp (length d + 1) (repeat zero (length d)) (Z.of_nat (length d) - 1) (d, u)) as [[d' u'] [s|]]; [|exact H].
  rewrite app_nil_r in H. exact H.
Qed.
Print Assumptions C120_into_sorted_vec_answers.
Example C120_answers_nonvacuous :
  let c := fun p : nat * nat => if fst p <? snd p then Less else if fst p =? snd p then Equal else Greater in
  H_IntoSortedVec 0 (panics_at 2 c) ([9; 8; 5; 7], 0) = (([7; 5], 3), None) /\
  H_IntoSortedVec 0 (panics_at 30 c) ([9; 8; 5; 7], 0) = (([], 3), Some [5; 7; 8; 9]) /\
  V_BinarySearchBy (fun x => panics_at 1 c (x, 5)) ([1; 3; 5; 7], 0) = (([1; 3; 5; 7], 2), None).
Proof. vm_compute. repeat split. Qed.
