(** PanicProps.v -- C108: a user's function (predicate, key, generator, comparison) panics in
    the middle of a container's method, and the program recovers.

    Wanted: the container has not lost or doubled an element and can be used as before. *)
From Coq Require Import Permutation.
From Verif Require Import Base BaseLemmas CmpSpec VecSpec VecModel PanicSpec PanicModel PanicProofs PanicDequeProofs.
From Verif Require DequeModel DequeHistory DequeRunProofs HeapModel HeapProofs.

(** *** Vec *)

(** Retain: nothing has changed if the predicate panics; else the chosen elements are left.
    Either way the predicate was called on the elements in order, until it panicked. *)
Theorem C108_vec_retain_partial : forall (T U : Type) (f : user U T bool) l u,
  V_Retain f (l, u) = let '(bs, u', all) := calls f l u in
    if all then ((chosen l bs, u'), Some tt) else ((l, u'), None).
Proof. intros. apply V_Retain_spec. Qed.
Print Assumptions C108_vec_retain_partial.

(** DedupByKey: the same. *)
Theorem C108_vec_dedup_by_key_partial : forall (T U K : Type) (keq : K -> K -> bool) (key : user U T K) l u,
  V_DedupByKey keq key (l, u) = let '(ks, u', all) := calls key l u in
    if all then ((first_of_keys keq [] l ks, u'), Some tt) else ((l, u'), None).
Proof. intros. apply V_DedupByKey_spec. Qed.
Print Assumptions C108_vec_dedup_by_key_partial.

(** FillWith: the values generated before the panic are there, the others are as before. *)
Theorem C108_vec_fill_characterised : forall (T U : Type) (f : user U unit T) l u,
  V_FillWith f (l, u) = let '(xs, u', all) := calls f (repeat tt (length l)) u in
    ((over xs l, u'), if all then Some tt else None).
Proof. intros. apply V_FillWith_spec. Qed.
Print Assumptions C108_vec_fill_characterised.

(** Sorting, whatever the algorithm and the comparison: a rearrangement of the elements is
    left, whether the sort returns or panics. *)
Theorem C108_vec_sort_partial : forall (T U : Type) (s : sorter) (cmp : user U (T * T) ordering) l u,
  let '((l', _), _) := V_SortBy s cmp (l, u) in Permutation l l'.
Proof. intros. pose proof (V_SortBy_perm s cmp l u) as H. now destruct (V_SortBy s cmp (l, u)) as [[l' u'] o]. Qed.
Print Assumptions C108_vec_sort_partial.

(** A user's function that counts its calls and panics in call number n. *)
Definition panics_at {A B} (n : nat) (f : A -> B) : user nat A B := fun a u => (S u, if u =? n then None else Some (f a)).
(** ([two] is a program that compares, exchanges and compares again.) *)
Example C108_vec_nonvacuous :
  V_Retain (panics_at 2 Nat.even) ([1; 2; 3; 4], 0) = (([1; 2; 3; 4], 3), None) /\
  V_Retain (panics_at 9 Nat.even) ([1; 2; 3; 4], 0) = (([2; 4], 4), Some tt) /\
  V_DedupByKey Nat.eqb (panics_at 9 (fun x => x / 10)) ([11; 12; 21; 13], 0) = (([11; 21], 4), Some tt) /\
  V_FillWith (panics_at 2 (fun _ : unit => 7)) ([1; 2; 3; 4], 0) = (([7; 7; 3; 4], 3), None) /\
  let two := AskLess 1 0 (fun b => if b then DoSwap 0 1 (AskLess 2 1 (fun _ => Sorted)) else Sorted) in
  V_SortBy two (panics_at 1 (fun p => if fst p <? snd p then Less else Greater)) ([3; 2; 1], 0) = (([2; 3; 1], 2), None).
Proof. vm_compute. repeat split. Qed.

(** *** VecDeque *)

(** Retain: if the predicate panics, the elements chosen so far have been written over the
    first ones, and the length is the old one. *)
Theorem C108_deque_retain_characterised : forall (T U : Type) limit (f : user U T bool) d l u,
  (7 <= limit < 2 ^ 63)%Z -> DequeHistory.layout limit d -> DequeHistory.shows d l ->
  let '(bs, u', all) := calls f l u in
  exists d', D_Retain f (d, u) = ((d', u'), if all then Some tt else None) /\
    DequeHistory.layout limit d' /\ DequeModel.Capacity d' = DequeModel.Capacity d /\
    DequeHistory.shows d' (if all then chosen l bs else over (chosen l bs) l).
Proof.
  intros T U limit f d l u Ok L S. pose proof (DequeRunProofs.shows_rep limit Ok _ _ S L) as R.
  pose proof (D_Retain_spec limit Ok f d l _ u R) as H. destruct (calls f l u) as [[bs u'] all].
  destruct H as (d' & E & R'). exists d'. destruct (DequeRunProofs.rep_shows limit Ok _ _ _ R') as (S' & L' & C').
  split; [exact E|]. split; [exact L'|]. split; [|exact S']. rewrite C'. destruct L. lia.
Qed.
Print Assumptions C108_deque_retain_characterised.

(** So elements get lost and others are there twice. *)
Theorem C108_deque_retain_refuted : exists (d d' : DequeModel.VecDeque nat) f,
  DequeHistory.layout 100 d /\ DequeHistory.shows d [1; 2; 3] /\
  D_Retain f (d, 0) = ((d', 3), None) /\ DequeHistory.shows d' [2; 2; 3] /\ ~ Permutation [1; 2; 3] [2; 2; 3].
Proof.
  set (d := DequeModel.mkDeque [1; 2; 3; 0; 0; 0; 0] 3 0).
  assert (R : DequeProofs.rep 100 d [1; 2; 3] 7).
  { exists [1; 2; 3; 0; 0; 0; 0], 0. split; [reflexivity|]. split; [|split; [reflexivity|lia]].
    split; [cbn; lia|]. split; [cbn; lia|]. intros [|[|[|i]]] Hi; try reflexivity. cbn in Hi. lia. }
  destruct (DequeRunProofs.rep_shows 100 ltac:(lia) _ _ _ R) as (S & L & _).
  pose proof (C108_deque_retain_characterised nat nat 100 (panics_at 2 Nat.even) d [1; 2; 3] 0 ltac:(lia) L S) as H.
  change (calls (panics_at 2 Nat.even) [1; 2; 3] 0) with ([false; true], 3, false) in H.
  destruct H as (d' & E & _ & _ & S'). exists d, d', (panics_at 2 Nat.even). split; [exact L|]. split; [exact S|].
  split; [exact E|]. split; [exact S'|]. intros P.
  apply (Permutation_in 1) in P; [|now left]. cbn in P. destruct P as [P|[P|[P|[]]]]; discriminate.
Qed.
Print Assumptions C108_deque_retain_refuted.

(** Dedup: the same, with the elements kept so far. *)
Theorem C108_deque_dedup_characterised : forall (T U : Type) limit (e : user U (T * T) bool) d x l u,
  (7 <= limit < 2 ^ 63)%Z -> DequeHistory.layout limit d -> DequeHistory.shows d (x :: l) ->
  let '(ks, u', all) := deduped e x l u in
  exists d', D_Dedup e (d, u) = ((d', u'), if all then Some tt else None) /\
    DequeHistory.layout limit d' /\ DequeModel.Capacity d' = DequeModel.Capacity d /\
    DequeHistory.shows d' (if all then x :: ks else over (x :: ks) (x :: l)).
Proof.
  intros T U limit e d x l u Ok L S. pose proof (DequeRunProofs.shows_rep limit Ok _ _ S L) as R.
  pose proof (D_Dedup_spec limit Ok e d x l _ u R) as H. destruct (deduped e x l u) as [[bs u'] all].
  destruct H as (d' & E & R'). exists d'. destruct (DequeRunProofs.rep_shows limit Ok _ _ _ R') as (S' & L' & C').
  split; [exact E|]. split; [exact L'|]. split; [|exact S']. rewrite C'. destruct L. lia.
Qed.
Print Assumptions C108_deque_dedup_characterised.

(** FillWith: as for Vec. *)
Theorem C108_deque_fill_characterised : forall (T U : Type) limit (f : user U unit T) d l u,
  (7 <= limit < 2 ^ 63)%Z -> DequeHistory.layout limit d -> DequeHistory.shows d l ->
  let '(xs, u', all) := calls f (repeat tt (length l)) u in
  exists d', D_FillWith f (d, u) = ((d', u'), if all then Some tt else None) /\
    DequeHistory.layout limit d' /\ DequeModel.Capacity d' = DequeModel.Capacity d /\ DequeHistory.shows d' (over xs l).
Proof.
  intros T U limit f d l u Ok L S. pose proof (DequeRunProofs.shows_rep limit Ok _ _ S L) as R.
  pose proof (D_FillWith_spec limit Ok f d l _ u R) as H. destruct (calls f (repeat tt (length l)) u) as [[bs u'] all].
  destruct H as (d' & E & R'). exists d'. destruct (DequeRunProofs.rep_shows limit Ok _ _ _ R') as (S' & L' & C').
  split; [exact E|]. split; [exact L'|]. split; [|exact S']. rewrite C'. destruct L. lia.
Qed.
Print Assumptions C108_deque_fill_characterised.

(** The deques of the three theorems: contents around the end of the buffer. *)
Example C108_deque_nonvacuous :
  let d := DequeModel.mkDeque [3; 3; 9; 9; 9; 1; 2] 4 5 in
  (DequeHistory.layout 100 d /\ DequeHistory.shows d [1; 2; 3; 3]) /\
  deduped (panics_at 9 (fun p => fst p =? snd p)) 1 [2; 3; 3] 0 = ([2; 3], 3, true) /\
  snd (D_Dedup (panics_at 9 (fun p => fst p =? snd p)) (d, 0)) = Some tt /\
  calls (panics_at 1 (fun _ : unit => 8)) (repeat tt 4) 0 = ([8], 2, false) /\
  snd (D_FillWith (panics_at 1 (fun _ : unit => 8)) (d, 0)) = None.
Proof.
  set (d := DequeModel.mkDeque [3; 3; 9; 9; 9; 1; 2] 4 5). cbv zeta. split; [|vm_compute; auto].
  assert (R : DequeProofs.rep 100 d [1; 2; 3; 3] 7).
  { exists [3; 3; 9; 9; 9; 1; 2], 5. split; [reflexivity|]. split; [|split; [reflexivity|lia]].
    split; [cbn; lia|]. split; [cbn; lia|]. intros [|[|[|[|i]]]] Hi; try reflexivity. cbn in Hi. lia. }
  destruct (DequeRunProofs.rep_shows 100 ltac:(lia) _ _ _ R) as (S & L & _). split; assumption.
Qed.

(** *** BinaryHeap *)

(** Push: the new element and the old ones are there in any case, whatever Cmp does; and
    Push panics only if Cmp does. *)
Theorem C108_heap_push_partial : forall (T U : Type) (cmp : user U (T * T) ordering) x d u,
  let '((d', _), r) := H_Push cmp x (d, u) in Permutation (x :: d) d' /\ (safe cmp -> r = Some tt).
Proof.
  intros T U cmp x d u. pose proof (Push_leaves cmp None d u x I I) as H. unfold leaves in H.
  destruct (H_Push cmp x (d, u)) as [[d' u'] [[]|]]; destruct H as [P Q]; (split; [exact P|]); [reflexivity|].
  intros S. now destruct Q as [_ []].
Qed.
Print Assumptions C108_heap_push_partial.

(** If Cmp is a total order where it answers: the heap is in order if Push returned, and
    in order but for one element if it panicked. *)
Theorem C108_heap_push_order_characterised : forall (T U : Type) (cmp : user U (T * T) ordering) c x d u,
  total_preorder c -> answers_like cmp c -> ordered_but c 0 d ->
  match H_Push cmp x (d, u) with
  | ((d', _), Some _) => ordered_but c 0 d'
  | ((d', _), None) => exists p, ordered_but c p d'
  end.
Proof.
  intros T U cmp c x d u TP A O.
  assert (Hd : HeapProofs.heap c d) by (intros i Hi a b Ha Hb; eapply (O i); eauto; lia).
  pose proof (Push_leaves cmp (Some c) d u x (conj TP A) Hd) as H. unfold leaves in H.
  destruct (H_Push cmp x (d, u)) as [[d' u'] [[]|]]; destruct H as [P Q].
  - intros i a b Hi _ Ha Hb. eapply (Q i); eauto.
  - destruct Q as [(p & [Q1 _]) _]. exists p. intros i a b Hi Hn Ha Hb. eapply (Q1 i); eauto.
Qed.
Print Assumptions C108_heap_push_order_characterised.

(** Pop: the others are there in any case.  If it returns, it returns the first element; if
    Cmp panics, that element is lost. *)
Theorem C108_heap_pop_characterised : forall (T U : Type) (cmp : user U (T * T) ordering) top d u,
  let '((d', _), r) := H_Pop cmp (top :: d, u) in
  Permutation d d' /\ match r with Some a => a = Some top | None => ~ safe cmp end.
Proof.
  intros T U cmp top d u. pose proof (Pop_leaves cmp None top d u I I) as H.
  destruct (H_Pop cmp (top :: d, u)) as [[d' u'] [a|]]; destruct H as [P Q]; (split; [exact P|]); apply Q.
Qed.
Print Assumptions C108_heap_pop_characterised.

Theorem C108_heap_pop_order_characterised : forall (T U : Type) (cmp : user U (T * T) ordering) c top d u,
  total_preorder c -> answers_like cmp c -> ordered_but c 0 (top :: d) ->
  match H_Pop cmp (top :: d, u) with
  | ((d', _), Some _) => ordered_but c 0 d'
  | ((d', _), None) => exists p, ordered_around c p d'
  end.
Proof.
  intros T U cmp c top d u TP A O.
  assert (Hd : HeapProofs.heap c (top :: d)) by (intros i Hi a b Ha Hb; eapply (O i); eauto; lia).
  pose proof (Pop_leaves cmp (Some c) top d u (conj TP A) Hd) as H.
  destruct (H_Pop cmp (top :: d, u)) as [[d' u'] [a|]]; destruct H as [P Q].
  - destruct Q as [_ Q]. intros i x y Hi _ Hx Hy. eapply (Q i); eauto.
  - destruct Q as [(p & Q) _]. exists p. exact Q.
Qed.
Print Assumptions C108_heap_pop_order_characterised.

Definition nat_cmp (p : nat * nat) : ordering :=
  if fst p <? snd p then Less else if fst p =? snd p then Equal else Greater.
(** So after a Push whose comparison panicked, Pop need not return the greatest element; and
    a Pop that panicked has lost it. *)
Theorem C108_heap_refuted :
  H_Push (panics_at 0 nat_cmp) 9 ([5; 3], 0) = (([5; 3; 9], 1), None) /\
  H_Pop (panics_at 0 nat_cmp) ([5; 3; 9], 1) = (([9; 3], 2), Some (Some 5)) /\
  H_Pop (panics_at 0 nat_cmp) ([9; 5; 7; 3], 0) = (([3; 5; 7], 1), None).
Proof. vm_compute. repeat split. Qed.
Print Assumptions C108_heap_refuted.

Example C108_heap_nonvacuous :
  let c := fun a b => nat_cmp (a, b) in
  total_preorder c /\ answers_like (panics_at 1 nat_cmp) c /\ ordered_but c 0 [9; 5; 7; 3] /\
  H_Push (panics_at 1 nat_cmp) 8 ([9; 5; 7; 3], 0) = (([9; 8; 7; 3; 5], 2), None) /\
  H_Push (panics_at 1 nat_cmp) 4 ([9; 5; 7; 3], 0) = (([9; 5; 7; 3; 4], 1), Some tt) /\
  H_Pop (panics_at 2 nat_cmp) ([9; 5; 7; 3], 0) = (([7; 5; 3], 2), Some (Some 9)).
Proof.
  cbv zeta. split; [|split; [|split; [|vm_compute; auto]]].
  - unfold nat_cmp. cbn [fst snd]. split.
    + intros a. rewrite Nat.ltb_irrefl, Nat.eqb_refl. reflexivity.
    + intros a b. destruct (Nat.ltb_spec a b), (Nat.ltb_spec b a), (Nat.eqb_spec a b), (Nat.eqb_spec b a); try lia; reflexivity.
    + intros a b c. destruct (Nat.ltb_spec a b), (Nat.ltb_spec b c), (Nat.ltb_spec a c), (Nat.eqb_spec a b), (Nat.eqb_spec b c), (Nat.eqb_spec a c); try lia; congruence.
  - intros a b u o. unfold panics_at. destruct (u =? 1); cbn [snd]; congruence.
  - intros [|[|[|[|i]]]] x y Hi _; cbn; try lia; try (intros [= <-] [= <-]; discriminate).
    destruct i; discriminate.
Qed.

(** The heap of this file is the heap of HeapModel.v (C40) when Cmp does not panic. *)
Theorem C108_heap_agrees : forall (T : Type) extra (c : T -> T -> ordering) (h : HeapModel.BinaryHeap T) x (u : unit),
  let cmp := fun (p : T * T) u => (u, Some (c (fst p) (snd p))) in
  (forall h', HeapModel.HPush extra c h x = Ret h' -> H_Push cmp x (HeapModel.vec h, u) = ((HeapModel.vec h', u), Some tt)) /\
  (forall h' r, HeapModel.HPop c h = Ret (h', r) -> H_Pop cmp (HeapModel.vec h, u) = ((HeapModel.vec h', u), Some r)).
Proof.
  intros T extra c h x u cmp.
  assert (Up : forall fuel start elt pos d d' p, HeapModel.sift_up_loop c fuel d start elt pos = Ret (d', p) ->
    sift_up_loop cmp fuel start elt pos (d, u) = ((d', u), Some tt)).
  { induction fuel as [|k IH]; intros start elt pos d d' p; cbn [HeapModel.sift_up_loop sift_up_loop]; [discriminate|].
    destruct (start <? pos); [|intros [= <- <-]; reflexivity].
    unfold xbind at 1, xget at 1. cbn [fst]. unfold xbind at 1, xlift at 1. destruct (idx d ((pos - 1) / 2)); cbn [bind]; try discriminate.
    unfold xbind at 1, call at 1. unfold cmp at 1. cbn [fst snd]. destruct (c elt a); try (intros [= <- <-]; reflexivity).
    unfold xbind at 1, xlift at 1. destruct (swap_data d pos ((pos - 1) / 2)); cbn [bind]; try discriminate.
    unfold xbind at 1, xput at 1. cbn [snd]. apply IH. }
  assert (SUp : forall start pos d d' p, HeapModel.SiftUp c d start pos = Ret (d', p) -> H_SiftUp cmp start pos (d, u) = ((d', u), Some tt)).
  { intros start pos d d' p. unfold HeapModel.SiftUp, H_SiftUp. unfold xbind at 1, xget at 1. cbn [fst]. unfold xbind at 1, xlift at 1.
    destruct (idx d pos); cbn [bind]; try discriminate. apply Up. }
  assert (Dn : forall fuel end_ pos child d d' p ch, HeapModel.sift_down_loop c fuel d end_ pos child = Ret (d', p, ch) ->
    sift_down_loop cmp fuel end_ pos child (d, u) = ((d', u), Some (p, ch))).
  { induction fuel as [|k IH]; intros end_ pos child d d' p ch; cbn [HeapModel.sift_down_loop sift_down_loop]; [discriminate|].
    destruct (child <=? end_ - 2); [|intros [= <- <- <-]; reflexivity].
    unfold xbind at 1, xget at 1. cbn [fst]. unfold xbind at 1, xlift at 1. destruct (idx d child); cbn [bind]; try discriminate.
    unfold xbind at 1, xlift at 1. destruct (idx d (child + 1)); cbn [bind]; try discriminate.
    unfold xbind at 1, call at 1. unfold cmp at 1. cbn [fst snd]. cbv zeta.
    unfold xbind at 1, xlift at 1. match goal with |- context [swap_data d pos ?q] => set (cc := q) end.
    destruct (swap_data d pos cc); cbn [bind]; try discriminate.
    unfold xbind at 1, xput at 1. cbn [snd]. apply IH. }
  split.
  - intros h'. unfold HeapModel.HPush, H_Push, HeapModel.extend, HeapModel.HLen. cbv zeta. cbn [HeapModel.vec HeapModel.capacity].
    unfold xbind at 1, xget at 1. cbn [fst]. unfold xbind at 1, xput at 1. cbn [snd].
    destruct (HeapModel.SiftUp c (HeapModel.vec h ++ [x]) 0 (length (HeapModel.vec h))) as [[d' p]| |] eqn:E; cbn [bind]; try discriminate.
    intros [= <-]. cbn [HeapModel.vec fst]. eapply SUp; eauto.
  - intros h' r. unfold HeapModel.HPop, H_Pop, HeapModel.HLen. unfold xbind at 1, xget at 1. cbn [fst].
    destruct (HeapModel.vec h) as [|y d0] eqn:Eh; [intros [= <- <-]; now rewrite Eh|].
    unfold xbind at 1, xlift at 1. destruct (idx (y :: d0) (length (y :: d0) - 1)) as [item| |]; cbn [bind]; try discriminate.
    cbv zeta. unfold xbind at 1, xput at 1. cbn [snd]. set (rest := firstn (length (y :: d0) - 1) (y :: d0)).
    destruct (negb (length rest =? 0)); [|intros [= <- <-]; reflexivity].
    unfold xbind at 1, xlift at 1. destruct (idx rest 0) as [top| |]; cbn [bind]; try discriminate.
    unfold xbind at 1, xlift at 1. destruct (upd rest 0 item) as [d1| |]; cbn [bind]; try discriminate.
    unfold xbind at 1, xput at 1. cbn [snd]. unfold HeapModel.SiftDownToBottom, H_SiftDownToBottom. cbv zeta.
    unfold xbind at 1, xbind at 1, xget at 1. cbn [fst]. unfold xbind at 1, xlift at 1.
    destruct (idx d1 0); cbn [bind]; try discriminate.
    destruct (HeapModel.sift_down_loop c (length d1 + 1) d1 (length d1) 0 (2 * 0 + 1)) as [[[d2 p] ch]| |] eqn:E2; cbn [bind]; try discriminate.
    unfold xbind at 1. rewrite (Dn _ _ _ _ _ _ _ _ E2).
    destruct (ch =? length d1 - 1).
    + unfold xbind at 1, xbind at 1, xget at 1. cbn [fst]. unfold xbind at 1, xlift at 1.
      destruct (swap_data d2 p ch) as [d3| |]; cbn [bind]; try discriminate. unfold xbind at 1, xput at 1. cbn [snd]. unfold xret at 1.
      destruct (HeapModel.SiftUp c d3 0 ch) as [[d4 p4]| |] eqn:E4; cbn [bind]; try discriminate.
      rewrite (SUp _ _ _ _ _ E4). intros [= <- <-]. reflexivity.
    + cbn [bind]. unfold xbind at 1, xret at 1.
      destruct (HeapModel.SiftUp c d2 0 p) as [[d4 p4]| |] eqn:E4; cbn [bind]; try discriminate.
      rewrite (SUp _ _ _ _ _ E4). intros [= <- <-]. reflexivity.
Qed.
Print Assumptions C108_heap_agrees.

(** *** The leaf of a BTreeMap: Insert of a new key *)

(** The entries greater than the new key are moved up one by one.  If Cmp panics after some
    moves, the last one moved is there twice, and the number of entries is the old one. *)
Theorem C108_leaf_characterised : forall (K V U : Type) (cmp : user U (K * K) ordering) (l : list (K * V)) free key value u,
  let '(g, u', all) := greater_from_end cmp key (rev l) u in
  let lo := firstn (length l - g) l in let hi := skipn (length l - g) l in
  let cells slot := map Some lo ++ slot :: map Some hi ++ repeat None free in
  L_InsertNonFull cmp key value ((map Some l ++ repeat None (S free), length l), u) =
    if all then (((cells (Some (key, value)), length l + 1), u'), Some tt)
    else (((cells (hd_error hi), length l), u'), None).
Proof.
  intros. pose proof (Insert_spec cmp l free key value u) as H.
  destruct (greater_from_end cmp key (rev l) u) as [[g u'] all]. apply H.
Qed.
Print Assumptions C108_leaf_characterised.

(** So IntoIter shows an entry twice, and Keys does not show the last key. *)
Theorem C108_leaf_refuted : exists l',
  L_InsertNonFull (panics_at 1 nat_cmp) 15 true ((map Some [(10, false); (20, false)] ++ repeat None 3, 2), 0) = ((l', 2), None) /\
  L_ToVec l' = [(10, false); (20, false); (20, false)] /\ L_ToKeyVec l' = [10; 20] /\
  exists l'', L_InsertNonFull (panics_at 2 nat_cmp) 5 true ((map Some [(10, false); (20, false); (30, false)] ++ repeat None 3, 3), 0) = ((l'', 3), None) /\
  L_ToVec l'' = [(10, false); (20, false); (20, false); (30, false)] /\ L_ToKeyVec l'' = [10; 20; 20].
Proof.
  eexists. split; [vm_compute; reflexivity|]. split; [reflexivity|]. split; [reflexivity|].
  eexists. split; [vm_compute; reflexivity|]. split; reflexivity.
Qed.
Print Assumptions C108_leaf_refuted.

(** *** Option *)

(** GetOrInsertWith: None stays None if the function panics; Some does not call it. *)
Theorem C108_option_partial : forall (T U : Type) (f : user U unit T) o u,
  O_GetOrInsertWith f (o, u) =
    match o with
    | Some v => ((Some v, u), Some v)
    | None => let (u', r) := f tt u in ((r, u'), r)
    end.
Proof. intros T U f [v|] u; cbn; [reflexivity|]. unfold O_GetOrInsertWith, xbind, xget, call, xput, xret. cbn. now destruct (f tt u) as [u' [v|]]. Qed.
Print Assumptions C108_option_partial.
Example C108_option_nonvacuous :
  O_GetOrInsertWith (panics_at 0 (fun _ : unit => 7)) (None, 0) = ((None, 1), None) /\
  O_GetOrInsertWith (panics_at 1 (fun _ : unit => 7)) (None, 0) = ((Some 7, 1), Some 7).
Proof. vm_compute. auto. Qed.
