(** CodeProps.v -- property C119: comparisons that answer with a sign. *)
From Coq Require Import Permutation.
From Verif Require Import Base BaseLemmas Effect VecModel VecSpec VecProofs VecSortProofs VecProps HeapSpec HeapProps CodeSpec CodeProofs SortLibProps StableSortModel PdqSortModel.
From Verif Require AnyCmpProofs DequeModel DequeHistory HeapModel BTreeModel CmpModel SortLibModel CodeModel.

(** A vector of three and the map and the heap of some keys, put in one after the other. *)
Definition three : mem Z := [[10; 20; 30]%Z].
Definition three_v : slice := mkSlice 0 3.
Definition mixed : mem Z := [[30; 10; 20]%Z].
Definition put_all (cmp : Z -> Z -> Z) (l : list Z) : out (BTreeModel.BTreeMap * BTreeModel.heap Z Z) :=
  oloop (fun st k => p <- CodeModel.Insert cmp (fst st) k k (snd st) ;; Ret (fst (fst p), snd p)) l (BTreeModel.BTreeMapNew, []).
Definition push_all (cmp : Z -> Z -> Z) (l : list Z) : out (HeapModel.BinaryHeap Z) :=
  oloop (CodeModel.HPush (fun _ _ => 0) cmp) l HeapModel.BinaryHeapNew.

(** *** C119 is false: with a comparison by subtraction BinarySearch does not return, sorting
    leaves the elements as they were, Pop does not give the greatest element, and a BTreeMap
    takes the same key twice and then does not find it. *)
Theorem C119_refuted :
  let sign := via by_sign difference in
  (VecModel.BinarySearchBy (fun x => sign x 30%Z) three three_v = Ret (Some 2) /\
   forall fuel, CodeModel.BinarySearchBy fuel (fun x => difference x 30%Z) three three_v = Diverge) /\
  (SortLibModel.SortBy sign mixed three_v = Ret [[10; 20; 30]%Z] /\ CodeModel.SortBy difference mixed three_v = Ret mixed) /\
  (exists h h', push_all difference [10; 20; 30; 5]%Z = Ret h /\ CodeModel.HPop difference h = Ret (h', Some 5%Z)) /\
  (exists m h, put_all difference [10; 20; 30; 20]%Z = Ret (m, h) /\ BTreeModel.Keys_vec m h = Ret [10; 20; 30; 20]%Z /\
     CodeModel.Get difference m 20%Z h = Ret None /\
     exists h', CodeModel.Remove difference m 20%Z h = Ret ((m, None), h')).
Proof.
  cbv zeta. split; [|split; [|split]].
  - split; [vm_compute; reflexivity|]. intros fuel. apply (search_stuck (fun x => Ret (difference x 30%Z)) fuel [10; 20; 30]%Z 0 2 20%Z (-10)%Z); try reflexivity. lia.
  - split; vm_compute; reflexivity.
  - eexists. eexists. split; vm_compute; reflexivity.
  - eexists. eexists. split; [vm_compute; reflexivity|]. split; [vm_compute; reflexivity|]. split; [vm_compute; reflexivity|]. eexists. vm_compute. reflexivity.
Qed.
Print Assumptions C119_refuted.

(** *** Searching: the ordinary search, where an answer that is none of the three constants is
    an answer that never comes. *)
Theorem C119_search_characterised : forall T (f : T -> Z) (cmp : T -> T -> Z) x m v fuel, valid m v -> Len v < fuel ->
  CodeModel.BinarySearchBy fuel f m v = search_data (fun y => decode (f y)) (contents m v) /\
  CodeModel.BinarySearch fuel (Some cmp) m v x = search_data (fun y => decode (cmp y x)) (contents m v) /\
  (CodeModel.BinarySearchBy fuel f m v = Diverge -> forall k, CodeModel.BinarySearchBy k f m v = Diverge).
Proof.
  intros T f cmp x m v fuel V L. assert (CL := contents_length m v V). unfold Len in L.
  assert (A : forall g : T -> Z, CodeModel.search_loop fuel (fun y => Ret (g y)) (contents m v) 0 (Z.of_nat (length (contents m v)) - 1)
    = search_data (fun y => decode (g y)) (contents m v)).
  { intros g. rewrite (search_rounds (fun y => Ret (g y))) by lia. unfold search_data. apply vsearch_ext. reflexivity. }
  split; [exact (A f)|]. split; [exact (A (fun y => cmp y x))|].
  intros D k. unfold CodeModel.BinarySearchBy in *.
  assert (C : forall r : out (option nat), r <> Diverge \/ r = Diverge) by (intros [| |]; [left|left|right]; congruence).
  destruct (C (CodeModel.search_loop k (fun y => Ret (f y)) (contents m v) 0 (Z.of_nat (length (contents m v)) - 1))) as [E|E]; [|exact E].
  rewrite <- (search_more _ _ _ _ _ E (k + fuel)) by lia. rewrite (search_rounds (fun y => Ret (f y))) in D |- * by lia. exact D.
Qed.
Print Assumptions C119_search_characterised.
(** The same for deques, which search the first Len cells of their buffer. *)
Theorem C119_deque_search_characterised : forall T limit (f : T -> Z) (cmp : T -> T -> Z) x (d : DequeModel.VecDeque T) fuel,
  DequeHistory.layout limit d -> (DequeModel.Len d < Z.of_nat fuel)%Z ->
  let rounds g := VecModel.search_loop (Z.to_nat (DequeModel.dlen d) + 1) g (DequeModel.buffer d) 0 (DequeModel.dlen d - 1) in
  CodeModel.DBinarySearchBy fuel f d = rounds (fun y => decode (f y)) /\
  CodeModel.DBinarySearch fuel (Some cmp) d x = rounds (fun y => decode (cmp y x)).
Proof.
  intros T limit f cmp x d fuel (L1 & L2 & L3) L. unfold DequeModel.Len, DequeModel.Capacity in *. cbv zeta.
  assert (A : forall g : T -> Z, CodeModel.search_loop fuel (fun y => Ret (g y)) (DequeModel.buffer d) 0 (DequeModel.dlen d - 1)
    = VecModel.search_loop (Z.to_nat (DequeModel.dlen d) + 1) (fun y => decode (g y)) (DequeModel.buffer d) 0 (DequeModel.dlen d - 1)).
  { intros g. replace (DequeModel.dlen d) with (Z.of_nat (Z.to_nat (DequeModel.dlen d))) at 1 3 by lia.
    rewrite (search_rounds (fun y => Ret (g y))) by lia. apply vsearch_ext. reflexivity. }
  split; [exact (A f)|exact (A (fun y => cmp y x))].
Qed.
Print Assumptions C119_deque_search_characterised.
(** So it never returns when no element is told apart, and always does when the answers are proper. *)
Theorem C119_search_hangs : forall T (f : T -> Z) m v, valid m v -> 0 < Len v ->
  (forall y, In y (contents m v) -> ~ proper (f y)) -> forall fuel, CodeModel.BinarySearchBy fuel f m v = Diverge.
Proof.
  intros T f m v V L H fuel. assert (CL := contents_length m v V). unfold Len in L. unfold CodeModel.BinarySearchBy.
  set (d := contents m v) in *. set (mid := Z.to_nat ((0 + (Z.of_nat (length d) - 1)) / 2)).
  assert (Lm : mid < length d).
  { unfold mid. assert ((0 + (Z.of_nat (length d) - 1)) / 2 < Z.of_nat (length d))%Z by (apply Z.div_lt_upper_bound; lia). lia. }
  destruct (nth_error d mid) as [y|] eqn:Y; [|apply nth_error_None in Y; lia].
  apply (search_stuck (fun y => Ret (f y)) fuel d 0 (Z.of_nat (length d) - 1) y (f y)); [lia|now apply idx_nth_error|reflexivity|].
  specialize (H y (nth_error_In _ _ Y)). unfold decode.
  destruct (Z.eqb_spec (f y) (-1)) as [E|_]; [destruct H; now exists Less|]. destruct (Z.eqb_spec (f y) 0) as [E|_]; [destruct H; now exists Equal|].
  destruct (Z.eqb_spec (f y) 1) as [E|_]; [destruct H; now exists Greater|]. reflexivity.
Qed.
Print Assumptions C119_search_hangs.
Theorem C119_search_partial : forall T (f : T -> Z) m v fuel, valid m v -> Len v < fuel -> (forall y, proper (f y)) ->
  CodeModel.BinarySearchBy fuel f m v = VecModel.BinarySearchBy (fun y => by_sign (f y)) m v.
Proof.
  intros T f m v fuel V L H. assert (CL := contents_length m v V). unfold Len in L. unfold CodeModel.BinarySearchBy, VecModel.BinarySearchBy.
  rewrite (search_rounds (fun y => Ret (f y))) by lia. unfold search_data. apply vsearch_ext. intros y. cbn [bind].
  destruct (H y) as [[| |] E]; rewrite E; reflexivity.
Qed.
Print Assumptions C119_search_partial.
Example C119_search_nonvacuous :
  CodeModel.BinarySearchBy 5 (fun x => CodeSpec.difference x 20%Z) three three_v = Ret (Some 1) /\
  CodeModel.BinarySearchBy 5 (fun x => code_of (by_sign (CodeSpec.difference x 30%Z))) three three_v = Ret (Some 2) /\
  valid three three_v /\ (forall y, In y (contents three three_v) -> ~ proper (2 * y + 1)%Z).
Proof.
  split; [reflexivity|]. split; [reflexivity|]. split; [split; cbn; lia|].
  intros y [<-|[<-|[<-|[]]]] [[| |] E]; discriminate E.
Qed.

(** *** Sorting tells OrderingLess from everything else *)
Theorem C119_sort_characterised : forall T rnd (cmp : T -> T -> Z) m v (d : DequeModel.VecDeque T),
  let o := via less_or_not cmp in
  CodeModel.SortBy cmp m v = SortLibModel.SortBy o m v /\
  CodeModel.SortUnstableBy rnd cmp m v = SortLibModel.SortUnstableBy rnd o m v /\
  CodeModel.DSortBy cmp d = SortLibModel.DSortBy o d /\
  CodeModel.DSortUnstableBy rnd cmp d = SortLibModel.DSortUnstableBy rnd o d.
Proof.
  intros T rnd cmp m v d. cbv zeta. set (o := via less_or_not cmp).
  assert (A : forall l, SliceStable (CodeModel.by_code cmp) l = SliceStable (SortLibModel.by_func o) l) by (intros; apply SliceStable_ext; apply by_code_less).
  assert (B : forall l, Slice (CodeModel.by_code cmp) rnd l = Slice (SortLibModel.by_func o) rnd l) by (intros; apply Slice_ext; apply by_code_less).
  unfold CodeModel.SortBy, SortLibModel.SortBy, CodeModel.SortUnstableBy, SortLibModel.SortUnstableBy, CodeModel.DSortBy, SortLibModel.DSortBy,
    CodeModel.DSortUnstableBy, SortLibModel.DSortUnstableBy, in_place, SortLibModel.on_cells.
  rewrite A, B. split; [reflexivity|]. split; [reflexivity|]. split; apply bind_ext; intros s; [now rewrite A|now rewrite B].
Qed.
Print Assumptions C119_sort_characterised.
(** So a comparison that never says OrderingLess sorts nothing, *)
Theorem C119_never_less : forall T (cmp : T -> T -> Z) m v, valid m v -> (forall a b, cmp a b <> -1)%Z ->
  exists m', CodeModel.SortBy cmp m v = Ret m' /\ contents m' v = contents m v.
Proof.
  intros T cmp m v V H. assert (CL := contents_length m v V).
  assert (A : SliceStable (CodeModel.by_code cmp) (contents m v) = SliceStable (SortLibModel.by_func (fun _ _ : T => Equal)) (contents m v)).
  { apply SliceStable_ext. intros a b. unfold CodeModel.by_code, SortLibModel.by_func, CodeModel.eqc, CodeModel.OrderingLess.
    now rewrite (proj2 (Z.eqb_neq _ _) (H a b)). }
  assert (TP : total_preorder (fun _ _ : T => Equal)) by (split; [reflexivity|reflexivity|discriminate]).
  destruct (C117_sorted T (fun _ _ => Equal) (fun _ _ => 0) m v TP V) as (m1 & _ & _ & S1 & St & _).
  exists m1. split.
  - unfold CodeModel.SortBy, in_place. unfold SortLibModel.SortBy, in_place in S1. now rewrite A.
  - apply (C36_stable_sort_unique T (fun _ _ => Equal) (contents m v)); [exact TP|exact St|]. split; [reflexivity|]. split; [|intros x; reflexivity].
    unfold ascending. clear. induction (contents m v) as [|a l IH]; constructor; [exact IH|]. apply Forall_forall. intros y _. discriminate.
Qed.
Print Assumptions C119_never_less.
(** and one whose negative answers are all OrderingLess sorts by sign, however big the positive ones are. *)
Theorem C119_sort_partial : forall T rnd (cmp : T -> T -> Z) m v, valid m v -> (forall a b, cmp a b < 0 -> cmp a b = -1)%Z ->
  total_preorder (via by_sign cmp) ->
  exists m1 m2, CodeModel.SortBy cmp m v = Ret m1 /\ stably_sorted (via by_sign cmp) (contents m v) (contents m1 v) /\
    CodeModel.SortUnstableBy rnd cmp m v = Ret m2 /\ Permutation (contents m v) (contents m2 v) /\ ascending (via by_sign cmp) (contents m2 v).
Proof.
  intros T rnd cmp m v V H TP. destruct (C117_sorted T (via by_sign cmp) rnd m v TP V) as (m1 & m2 & _ & S1 & St & _ & S2 & P2 & A2).
  assert (E : forall a b, CodeModel.by_code cmp a b = SortLibModel.by_func (via by_sign cmp) a b).
  { intros a b. specialize (H a b). unfold CodeModel.by_code, SortLibModel.by_func, via, by_sign, CodeModel.eqc, CodeModel.OrderingLess.
    destruct (Z.ltb_spec (cmp a b) 0), (Z.eqb_spec (cmp a b) (-1)); try lia; [reflexivity|]. destruct (cmp a b =? 0)%Z; reflexivity. }
  exists m1, m2. split; [|split; [exact St|split; [|auto]]].
  - unfold CodeModel.SortBy, in_place. unfold SortLibModel.SortBy, in_place in S1. now rewrite (SliceStable_ext _ _ E).
  - unfold CodeModel.SortUnstableBy, in_place. unfold SortLibModel.SortUnstableBy, in_place in S2. now rewrite (Slice_ext _ _ E).
Qed.
Print Assumptions C119_sort_partial.
(** Such a comparison: the difference, but at least -1. *)
Definition capped (a b : Z) : Z := Z.max (-1) (a - b).
Lemma capped_sign a b : by_sign (capped a b) = by_sign (a - b).
Proof. unfold capped, by_sign. destruct (Z.ltb_spec (Z.max (-1) (a - b)) 0), (Z.ltb_spec (a - b) 0), (Z.eqb_spec (Z.max (-1) (a - b)) 0), (Z.eqb_spec (a - b) 0); try lia; reflexivity. Qed.
Lemma sign_preorder : total_preorder (via by_sign difference).
Proof.
  unfold via, difference, by_sign. split.
  - intros a. now rewrite Z.sub_diag.
  - intros a b. destruct (Z.ltb_spec (b - a) 0), (Z.ltb_spec (a - b) 0), (Z.eqb_spec (b - a) 0), (Z.eqb_spec (a - b) 0); try lia; reflexivity.
  - intros a b c. destruct (Z.ltb_spec (a - b) 0), (Z.ltb_spec (b - c) 0), (Z.ltb_spec (a - c) 0), (Z.eqb_spec (a - b) 0), (Z.eqb_spec (b - c) 0), (Z.eqb_spec (a - c) 0); try lia; congruence.
Qed.
Lemma capped_preorder : total_preorder (via by_sign capped).
Proof.
  destruct sign_preorder as [R F Tr]. unfold via, difference in *.
  split; intros *; rewrite ?capped_sign; [apply R|apply F|apply Tr].
Qed.
Example C119_sort_nonvacuous :
  CodeModel.SortBy capped mixed three_v = Ret three /\ capped 30 10 = 20%Z /\ total_preorder (via by_sign capped) /\ (forall a b, capped a b < 0 -> capped a b = -1)%Z.
Proof. split; [reflexivity|]. split; [reflexivity|]. split; [exact capped_preorder|]. unfold capped. lia. Qed.

(** *** BinaryHeap takes everything but OrderingLess and OrderingEqual for Greater *)
Theorem C119_heap_characterised : forall T extra (cmp : T -> T -> Z) h x,
  CodeModel.HPush extra cmp h x = HeapModel.HPush extra (via (or_else Greater) cmp) h x /\
  CodeModel.HPop cmp h = HeapModel.HPop (via (or_else Greater) cmp) h.
Proof. intros. split; [apply HPush_ext|apply HPop_ext]; apply test_or_else. Qed.
Print Assumptions C119_heap_characterised.
(** So the element that was pushed last is popped first, if Cmp answers neither, *)
Theorem C119_last_in : forall T extra (cmp : T -> T -> Z) h x,
  (forall y, In y (HeapModel.vec h) -> cmp x y <> -1 /\ cmp x y <> 0)%Z ->
  exists h1 h2, CodeModel.HPush extra cmp h x = Ret h1 /\ CodeModel.HPop cmp h1 = Ret (h2, Some x) /\ Permutation (HeapModel.vec h) (HeapModel.vec h2).
Proof.
  intros T extra cmp h x H. destruct (push_front extra cmp h x H) as (h1 & E1 & N & P).
  assert (Q := AnyCmpProofs.HPop_any (via (or_else Greater) cmp) h1). destruct (HeapModel.vec h1) as [|y r]; [discriminate|]. injection N as ->.
  destruct Q as (h2 & E2 & P2). exists h1, h2. split; [exact E1|]. split; [|apply (Permutation_cons_inv (a := x)); now transitivity (x :: r)].
  rewrite (HPop_ext cmp (via (or_else Greater) cmp) (test_or_else cmp)). exact E2.
Qed.
Print Assumptions C119_last_in.
(** and the queue is a priority queue by sign if the negative answers are all OrderingLess. *)
Theorem C119_heap_partial : forall T extra (cmp : T -> T -> Z) h x, (forall a b, cmp a b < 0 -> cmp a b = -1)%Z ->
  CodeModel.HPush extra cmp h x = HeapModel.HPush extra (via by_sign cmp) h x /\
  CodeModel.HPop cmp h = HeapModel.HPop (via by_sign cmp) h.
Proof. intros T extra cmp h x H. split; [apply HPush_ext|apply HPop_ext]; intros a b; apply test_sign, H. Qed.
Print Assumptions C119_heap_partial.
Example C119_heap_nonvacuous :
  bind (push_all capped [10; 20; 30; 5]%Z) (fun h => omap snd (CodeModel.HPop capped h)) = Ret (Some 30%Z) /\
  omap HeapModel.vec (push_all difference [10; 20; 30]%Z) = Ret [30; 10; 20]%Z /\
  (forall y, In y [30; 10; 20]%Z -> (difference 5 y <> -1)%Z /\ (difference 5 y <> 0)%Z).
Proof. split; [reflexivity|]. split; [reflexivity|]. intros y [<-|[<-|[<-|[]]]]; split; discriminate. Qed.

(** *** BTreeMap: what is neither Greater nor Equal ends the walk along the keys of a node *)
Theorem C119_lookup_characterised : forall K V (cmp : K -> K -> Z) m key (h : BTreeModel.heap K V),
  CodeModel.Get cmp m key h = BTreeModel.Get (via (or_else Less) cmp) m key h /\
  CodeModel.ContainsKey cmp m key h = BTreeModel.ContainsKey (via (or_else Less) cmp) m key h.
Proof. intros. split; [apply Get_look|apply ContainsKey_look]. Qed.
Print Assumptions C119_lookup_characterised.
(** So a map of one node that is asked for a key whose comparison with the first key is neither
    does not look any further, *)
Theorem C119_first_key : forall K V (cmp : K -> K -> Z) m key (h : BTreeModel.heap K V) r nd k rest,
  BTreeModel.root m = Some r -> nth_error h r = Some nd -> BTreeModel.leaf nd = true -> BTreeModel.keys nd = Some k :: rest ->
  (cmp key k <> 0 /\ cmp key k <> 1)%Z -> CodeModel.Get cmp m key h = Ret None /\ CodeModel.ContainsKey cmp m key h = Ret false.
Proof.
  intros K V cmp m key h r nd k rest R N L E [H0 H1]. unfold CodeModel.Get, CodeModel.ContainsKey, BTreeModel.fuel. rewrite R. cbn [CodeModel.search].
  rewrite (idx_nth_error _ _ _ N). cbn [bind]. rewrite E. cbv zeta. cbn [CodeModel.scan].
  unfold CodeModel.eqc, CodeModel.OrderingGreater, CodeModel.OrderingEqual. rewrite (proj2 (Z.eqb_neq _ _) H1). cbn [nth_error].
  rewrite (proj2 (Z.eqb_neq _ _) H0), L. cbn [bind]. auto.
Qed.
Print Assumptions C119_first_key.
(** and with answers that are the three constants every method is the one of the other theorems. *)
Theorem C119_btree_partial : forall K V (cmp : K -> K -> ordering) m key (v : V) (h : BTreeModel.heap K V),
  let c := fun a b => code_of (cmp a b) in
  CodeModel.Insert c m key v h = BTreeModel.Insert cmp m key v h /\
  CodeModel.Remove c m key h = BTreeModel.Remove cmp m key h /\
  CodeModel.Get c m key h = BTreeModel.Get cmp m key h /\
  CodeModel.ContainsKey c m key h = BTreeModel.ContainsKey cmp m key h.
Proof.
  intros K V cmp m key v h. cbv zeta. split; [now apply Insert_proper|]. split; [now apply Remove_proper|].
  unfold CodeModel.Get, BTreeModel.Get, CodeModel.ContainsKey, BTreeModel.ContainsKey.
  destruct (BTreeModel.root m); [|auto]. now rewrite (search_proper _ cmp).
Qed.
Print Assumptions C119_btree_partial.
Example C119_btree_nonvacuous :
  let c := fun a b : Z => code_of (by_sign (a - b)) in
  (st <- put_all c [10; 20; 30; 20]%Z ;; ks <- BTreeModel.Keys_vec (fst st) (snd st) ;; g <- CodeModel.Get c (fst st) 20%Z (snd st) ;; Ret (ks, g))
    = Ret ([10; 20; 30]%Z, Some 20%Z) /\
  (st <- put_all difference [10; 20; 30]%Z ;; CodeModel.Get difference (fst st) 30%Z (snd st)) = Ret None.
Proof. split; vm_compute; reflexivity. Qed.

(** *** Pairs hand on the answers of their parts, so by sign they compare as their parts do *)
Theorem C119_pair : forall K V (ck : K -> K -> Z) (cv : V -> V -> Z) p q,
  exists c, CodeModel.Pair_Cmp (Some ck) (Some cv) p q = Ret c /\
    by_sign c = match by_sign (ck (CmpModel.Key p) (CmpModel.Key q)) with
                | Equal => by_sign (cv (CmpModel.Value p) (CmpModel.Value q))
                | o => o
                end.
Proof.
  intros K V ck cv p q. unfold CodeModel.Pair_Cmp, CodeModel.eqc, CodeModel.OrderingEqual. cbn [of_option bind].
  destruct (Z.eqb_spec (ck (CmpModel.Key p) (CmpModel.Key q)) 0) as [E|E]; eexists; (split; [reflexivity|]).
  - now rewrite E.
  - unfold by_sign at 1 2. rewrite (proj2 (Z.eqb_neq _ _) E). destruct (_ <? 0)%Z; reflexivity.
Qed.
Print Assumptions C119_pair.
