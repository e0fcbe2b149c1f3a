(** CodeProofs.v -- comparison results as integers (C119). *)
From Coq Require Import Permutation.
From Verif Require Import Base BaseLemmas Effect VecModel VecProofs HeapProofs StableSortModel PdqSortModel CodeSpec CodeModel.
From Verif Require DequeModel HeapModel BTreeModel SortLibModel.
Local Open Scope nat_scope.

Lemma bind_ext {A B} (m : out A) (f g : A -> out B) : (forall a, f a = g a) -> bind m f = bind m g.
Proof. intros E. destruct m; cbn [bind]; auto. Qed.
Lemma bind_ext2 {A B} (m m' : out A) (f g : A -> out B) : m = m' -> (forall a, f a = g a) -> bind m f = bind m' g.
Proof. intros ->. apply bind_ext. Qed.
Lemma mbind_ext {S A B} (m m' : M S A) (f g : A -> M S B) s : m s = m' s -> (forall a s, f a s = g a s) -> mbind m f s = mbind m' g s.
Proof. intros E F. unfold mbind. rewrite E. destruct (m' s) as [[a s']| |]; auto. Qed.
Lemma oloop_ext {S A} (f g : S -> A -> out S) l : (forall s x, f s x = g s x) -> forall s, oloop f l s = oloop g l s.
Proof. intros E. induction l as [|x l IH]; intros s; cbn [oloop]; [reflexivity|]. apply bind_ext2; auto. Qed.

(** The two sides differ in a function that is called, at places where lemmas in [code] apply. *)
Create HintDb code.
Ltac split_ext :=
  cbv zeta beta; intros;
  lazymatch goal with
  | |- ?a = ?a => reflexivity
  | |- bind _ _ = bind _ _ => apply bind_ext2; [|intros]; split_ext
  | |- oloop _ _ _ = oloop _ _ _ => apply oloop_ext; intros; split_ext
  | |- match ?x with _ => _ end = match ?y with _ => _ end => tryif constr_eq x y then (destruct x; split_ext) else auto with code
  | _ => auto with code
  end.

(** *** The library's sorting functions look at the answers of less only *)
Section Less.
  Context {T : Type}.
  Variables l1 l2 : T -> T -> out bool.
  Hypothesis E : forall a b, l1 a b = l2 a b.

  Lemma less_at_ext d i j : less_at l1 d i j = less_at l2 d i j.
  Proof. unfold less_at. split_ext. Qed.
  Hint Resolve less_at_ext : code.
  Lemma shift_left_ext n : forall d j, shift_left l1 n d j = shift_left l2 n d j.
  Proof. induction n; cbn [shift_left]; split_ext. Qed.
  Hint Resolve shift_left_ext : code.
  Lemma insertionSort_ext d a b : insertionSort l1 d a b = insertionSort l2 d a b.
  Proof. unfold insertionSort. split_ext. Qed.
  Hint Resolve insertionSort_ext : code.
  Lemma search_ext fuel (f g : nat -> out bool) : (forall h, f h = g h) -> forall i j, StableSortModel.search fuel f i j = StableSortModel.search fuel g i j.
  Proof. intros F. induction fuel; cbn [StableSortModel.search]; split_ext. Qed.
  Lemma symMerge_ext fuel : forall d a m b, symMerge l1 fuel d a m b = symMerge l2 fuel d a m b.
  Proof.
    induction fuel; intros; cbn [symMerge]; [reflexivity|].
    destruct (m - a =? 1); [apply bind_ext2; [apply search_ext; split_ext|reflexivity]|].
    destruct (b - m =? 1); [apply bind_ext2; [apply search_ext; split_ext|reflexivity]|]. cbv zeta.
    destruct (if (a + b) / 2 <? m then _ else _) as [start r].
    apply bind_ext2; [apply search_ext; split_ext|split_ext].
  Qed.
  Hint Resolve symMerge_ext : code.
  Lemma blocks_ext fuel : forall d a b n, blocks l1 fuel d a b n = blocks l2 fuel d a b n.
  Proof. induction fuel; cbn [blocks]; split_ext. Qed.
  Hint Resolve blocks_ext : code.
  Lemma merge_pass_ext fuel : forall d s a b n, merge_pass l1 fuel d s a b n = merge_pass l2 fuel d s a b n.
  Proof. induction fuel; cbn [merge_pass]; split_ext. Qed.
  Hint Resolve merge_pass_ext : code.
  Lemma passes_ext fuel : forall d s n, passes l1 fuel d s n = passes l2 fuel d s n.
  Proof. induction fuel; cbn [passes]; split_ext. Qed.
  Hint Resolve passes_ext : code.
  Lemma SliceStable_ext d : SliceStable l1 d = SliceStable l2 d.
  Proof. unfold SliceStable. split_ext. Qed.

  Variable rnd : nat -> nat -> nat.
  Lemma siftDown_ext fuel : forall d root hi first, siftDown l1 fuel d root hi first = siftDown l2 fuel d root hi first.
  Proof. induction fuel; cbn [siftDown]; split_ext. Qed.
  Hint Resolve siftDown_ext : code.
  Lemma heapSort_ext d a b : heapSort l1 d a b = heapSort l2 d a b.
  Proof. unfold heapSort. split_ext. Qed.
  Hint Resolve heapSort_ext : code.
  Lemma scan_up_ext fuel (f g : nat -> out bool) : (forall h, f h = g h) -> forall i j, scan_up fuel f i j = scan_up fuel g i j.
  Proof. intros F. induction fuel; cbn [scan_up]; split_ext. Qed.
  Lemma scan_down_ext fuel (f g : nat -> out bool) : (forall h, f h = g h) -> forall i j, scan_down fuel f i j = scan_down fuel g i j.
  Proof. intros F. induction fuel; cbn [scan_down]; split_ext. Qed.
  Lemma partition_ext d a b p : partition l1 d a b p = partition l2 d a b p.
  Proof.
    unfold partition. apply bind_ext. intros d'. generalize (b - a + 1) as fuel, false as moved, (a + 1) as i, (b - 1) as j. intros fuel. revert d'.
    induction fuel; intros; cbn [partition_loop]; [reflexivity|].
    apply bind_ext2; [apply scan_up_ext; split_ext|intros]. apply bind_ext2; [apply scan_down_ext; split_ext|split_ext].
  Qed.
  Hint Resolve partition_ext : code.
  Lemma partitionEqual_ext d a b p : partitionEqual l1 d a b p = partitionEqual l2 d a b p.
  Proof.
    unfold partitionEqual. apply bind_ext. intros d'. generalize (b - a + 1) as fuel, (a + 1) as i, (b - 1) as j. intros fuel. revert d'.
    induction fuel; intros; cbn [partitionEqual_loop]; [reflexivity|].
    apply bind_ext2; [apply scan_up_ext; split_ext|intros]. apply bind_ext2; [apply scan_down_ext; split_ext|split_ext].
  Qed.
  Hint Resolve partitionEqual_ext : code.
  Lemma shift_right_ext n : forall d j, shift_right l1 n d j = shift_right l2 n d j.
  Proof. induction n; cbn [shift_right]; split_ext. Qed.
  Hint Resolve shift_right_ext : code.
  Lemma partialInsertionSort_ext d a b : partialInsertionSort l1 d a b = partialInsertionSort l2 d a b.
  Proof.
    unfold partialInsertionSort. generalize 5 as n, (a + 1) as i. intros n. revert d. induction n; intros; cbn [partial_steps]; [reflexivity|].
    apply bind_ext2; [apply scan_up_ext; split_ext|split_ext].
  Qed.
  Hint Resolve partialInsertionSort_ext : code.
  Lemma order2_ext d a b s : order2 l1 d a b s = order2 l2 d a b s.
  Proof. unfold order2. split_ext. Qed.
  Hint Resolve order2_ext : code.
  Lemma median_ext d a b c s : median l1 d a b c s = median l2 d a b c s.
  Proof. unfold median. split_ext. Qed.
  Hint Resolve median_ext : code.
  Lemma medianAdjacent_ext d a s : medianAdjacent l1 d a s = medianAdjacent l2 d a s.
  Proof. unfold medianAdjacent. split_ext. Qed.
  Hint Resolve medianAdjacent_ext : code.
  Lemma choosePivot_ext d a b : choosePivot l1 d a b = choosePivot l2 d a b.
  Proof. unfold choosePivot. split_ext. Qed.
  Hint Resolve choosePivot_ext : code.
  Lemma pdqsort_ext fuel : forall d a b limit p q, pdqsort l1 rnd fuel d a b limit p q = pdqsort l2 rnd fuel d a b limit p q.
  Proof.
    induction fuel; intros; cbn [pdqsort]; [reflexivity|]. cbv zeta.
    destruct (b - a <=? 12); [auto with code|]. destruct (limit =? 0); [auto with code|].
    apply bind_ext. intros [d1 lim]. apply bind_ext2; [auto with code|]. intros [pivot hint]. apply bind_ext. intros [[d2 pv] h2].
    apply bind_ext2; [destruct (p && q && _); [apply partialInsertionSort_ext|reflexivity]|]. intros [d3 sorted]. destruct sorted; [reflexivity|].
    apply bind_ext2; [split_ext|]. intros [|].
    - apply bind_ext2; [auto with code|]. intros [d4 mid]. apply IHfuel.
    - apply bind_ext2; [auto with code|]. intros [[d4 mid] al]. destruct (mid - a <? b - mid); (apply bind_ext2; [apply IHfuel|]; intros; apply IHfuel).
  Qed.
  Lemma Slice_ext d : Slice l1 rnd d = Slice l2 rnd d.
  Proof. apply pdqsort_ext. Qed.
End Less.

(** *** Tests of codes *)
Lemma eqc_code o p : eqc (code_of o) (code_of p) = BTreeModel.is o p.
Proof. destruct o, p; reflexivity. Qed.

Lemma by_code_less {T} (cmp : T -> T -> Z) a b : by_code cmp a b = SortLibModel.by_func (via less_or_not cmp) a b.
Proof. unfold by_code, SortLibModel.by_func, via, less_or_not, eqc, OrderingLess. destruct (cmp a b =? -1)%Z; reflexivity. Qed.

(** *** Searching *)
Section Search.
  Context {T : Type}.
  Variable f : T -> out Z.
  Let g (x : T) : out ordering := c <- f x ;; decode c.

  Lemma search_more k : forall d low high, search_loop k f d low high <> Diverge -> forall k', k <= k' -> search_loop k' f d low high = search_loop k f d low high.
  Proof.
    induction k as [|k IH]; intros d low high H k' L; [now destruct H|]. destruct k' as [|k']; [lia|].
    assert (L' : k <= k') by lia. cbn [search_loop] in *. destruct (low <=? high)%Z; [|reflexivity].
    destruct (idx d (Z.to_nat ((low + high) / 2))) as [x| |]; cbn [bind] in *; try reflexivity.
    destruct (f x) as [o| |]; cbn [bind] in *; try reflexivity.
    destruct (eqc o OrderingLess); [auto|]. destruct (eqc o OrderingGreater); [auto|]. destruct (eqc o OrderingEqual); auto.
  Qed.
  Lemma search_stuck k : forall d low high x c, (low <= high)%Z -> idx d (Z.to_nat ((low + high) / 2)) = Ret x -> f x = Ret c -> decode c = Diverge ->
    search_loop k f d low high = Diverge.
  Proof.
    induction k as [|k IH]; intros d low high x c L X F D; [reflexivity|]. cbn [search_loop].
    rewrite (proj2 (Z.leb_le _ _)) by exact L. rewrite X. cbn [bind]. rewrite F. cbn [bind].
    replace (search_loop k f d low high) with (@Diverge (option nat)) by (symmetry; eapply IH; eauto).
    unfold decode in D. unfold eqc, OrderingLess, OrderingGreater, OrderingEqual.
    destruct (c =? -1)%Z; [discriminate|]. destruct (c =? 0)%Z; [discriminate|]. destruct (c =? 1)%Z; [discriminate|]. reflexivity.
  Qed.
  (** The interval of the search shrinks in every round, so its length is fuel enough. *)
  Lemma search_decoded k : forall d low high k', (low <= high + 1)%Z -> (high - low + 1 < Z.of_nat k)%Z -> k <= k' ->
    search_loop k' f d low high = VecModel.search_loop k g d low high.
  Proof.
    induction k as [|k IH]; intros d low high k' I Lk L; [lia|]. destruct k' as [|k']; [lia|].
    assert (STUCK := search_stuck (S k') d low high). cbn [search_loop] in STUCK |- *. cbn [VecModel.search_loop]. cbv zeta in *.
    destruct (Z.leb_spec low high) as [L1|L1]; [|reflexivity].
    assert (M : (low <= (low + high) / 2 <= high)%Z) by (split; [apply Z.div_le_lower_bound|apply Z.div_le_upper_bound]; lia).
    set (mid := ((low + high) / 2)%Z) in *.
    destruct (idx d (Z.to_nat mid)) as [x| |]; cbn [bind] in *; try reflexivity. unfold g. specialize (STUCK x).
    destruct (f x) as [c| |]; cbn [bind] in *; try reflexivity. specialize (STUCK c L1 eq_refl eq_refl).
    destruct (decode c) as [o| |] eqn:D; cbn [bind].
    - clear STUCK. unfold decode in D. unfold eqc, OrderingLess, OrderingGreater, OrderingEqual.
      destruct (Z.eqb_spec c (-1)) as [->|]; [injection D as <-; apply IH; lia|].
      destruct (Z.eqb_spec c 0) as [->|]; [injection D as <-; reflexivity|].
      destruct (Z.eqb_spec c 1) as [->|]; [injection D as <-; apply IH; lia|discriminate].
    - unfold decode in D. destruct (c =? -1)%Z, (c =? 0)%Z, (c =? 1)%Z; discriminate.
    - now apply STUCK.
  Qed.
  Lemma search_rounds d n k : n <= length d -> n + 1 <= k ->
    search_loop k f d 0 (Z.of_nat n - 1) = VecModel.search_loop (n + 1) g d 0 (Z.of_nat n - 1).
  Proof. intros L1 L2. apply search_decoded; lia. Qed.
End Search.
Lemma vsearch_ext {T} (f g : T -> out ordering) d k : (forall x, f x = g x) -> forall low high, VecModel.search_loop k f d low high = VecModel.search_loop k g d low high.
Proof. intros E. induction k; intros; cbn [VecModel.search_loop]; split_ext. Qed.

(** *** The heap takes what is neither Less nor Equal for Greater *)
Section Heap.
  Context {T : Type}.
  Variable extra : nat -> nat -> nat.
  Variable cmp : T -> T -> Z.
  Variable o : T -> T -> ordering.
  Hypothesis heap_test : forall a b, (eqc (cmp a b) OrderingLess || eqc (cmp a b) OrderingEqual)%bool = match o a b with Greater => false | _ => true end.
  Lemma sift_up_ext k : forall d start elt pos, sift_up_loop cmp k d start elt pos = HeapModel.sift_up_loop o k d start elt pos.
  Proof.
    induction k; intros; cbn [sift_up_loop HeapModel.sift_up_loop]; [reflexivity|]. cbv zeta. destruct (start <? pos); [|reflexivity].
    apply bind_ext. intros x. rewrite heap_test. destruct (o elt x); try reflexivity. apply bind_ext. auto.
  Qed.
  Lemma HPush_ext h x : HPush extra cmp h x = HeapModel.HPush extra o h x.
  Proof. unfold HPush, HeapModel.HPush, SiftUp, HeapModel.SiftUp. cbv zeta. f_equal. apply bind_ext. intros. apply sift_up_ext. Qed.
  Lemma sift_down_ext k : forall d end_ pos child, sift_down_loop cmp k d end_ pos child = HeapModel.sift_down_loop o k d end_ pos child.
  Proof.
    induction k; intros; cbn [sift_down_loop HeapModel.sift_down_loop]; [reflexivity|]. cbv zeta. destruct (child <=? end_ - 2); [|reflexivity].
    apply bind_ext. intros a. apply bind_ext. intros b. rewrite heap_test. destruct (o a b); apply bind_ext; auto.
  Qed.
  Lemma HPop_ext h : HPop cmp h = HeapModel.HPop o h.
  Proof.
    unfold HPop, HeapModel.HPop. destruct (HeapModel.vec h) eqn:E; [reflexivity|]. rewrite <- E. apply bind_ext. intros item. cbv zeta.
    destruct (negb _); [|reflexivity]. apply bind_ext. intros top. apply bind_ext. intros d. f_equal.
    unfold SiftDownToBottom, HeapModel.SiftDownToBottom. cbv zeta. apply bind_ext. intros _. apply bind_ext2; [apply sift_down_ext|]. intros [[d1 p] c].
    apply bind_ext. intros [d2 p2]. f_equal. unfold SiftUp, HeapModel.SiftUp. apply bind_ext. intros. apply sift_up_ext.
  Qed.
End Heap.
Lemma test_or_else {T} (cmp : T -> T -> Z) a b :
  (eqc (cmp a b) OrderingLess || eqc (cmp a b) OrderingEqual)%bool = match via (or_else Greater) cmp a b with Greater => false | _ => true end.
Proof.
  unfold via, or_else, decode, eqc, OrderingLess, OrderingEqual. destruct (cmp a b =? -1)%Z; [reflexivity|]. destruct (cmp a b =? 0)%Z; [reflexivity|].
  destruct (cmp a b =? 1)%Z; reflexivity.
Qed.
Lemma test_sign {T} (cmp : T -> T -> Z) a b : (cmp a b < 0 -> cmp a b = -1)%Z ->
  (eqc (cmp a b) OrderingLess || eqc (cmp a b) OrderingEqual)%bool = match via by_sign cmp a b with Greater => false | _ => true end.
Proof.
  intros N. unfold via, by_sign, eqc, OrderingLess, OrderingEqual. destruct (Z.ltb_spec (cmp a b) 0); destruct (Z.eqb_spec (cmp a b) (-1)); destruct (Z.eqb_spec (cmp a b) 0); try reflexivity; lia.
Qed.
Section Front.
  Context {T : Type}.
  Variable extra : nat -> nat -> nat.
  Variable cmp : T -> T -> Z.
  (** A new element that is never Less nor Equal ends up in front. *)
  Lemma climbs k : forall d elt pos, nth_error d pos = Some elt -> pos < k ->
    (forall i y, i <> pos -> nth_error d i = Some y -> cmp elt y <> OrderingLess /\ cmp elt y <> OrderingEqual) ->
    exists d', sift_up_loop cmp k d 0 elt pos = Ret (d', 0) /\ nth_error d' 0 = Some elt /\ Permutation d d'.
  Proof.
    induction k as [|k IH]; intros d elt pos N L G; [lia|]. cbn [sift_up_loop]. destruct (Nat.ltb_spec 0 pos) as [L1|L1].
    - cbv zeta. set (p := (pos - 1) / 2). assert (Lp : p < pos) by (apply Nat.div_lt_upper_bound; lia).
      assert (Ld : pos < length d) by (apply nth_error_Some; congruence).
      destruct (nth_error d p) as [y|] eqn:Y; [|apply nth_error_None in Y; lia].
      rewrite (idx_nth_error _ _ _ Y). cbn [bind]. destruct (G p y ltac:(lia) Y) as [G1 G2]. unfold eqc.
      rewrite (proj2 (Z.eqb_neq _ _) G1), (proj2 (Z.eqb_neq _ _) G2). cbn [orb].
      destruct (swap_data_exchanged T d pos p Ld ltac:(lia)) as (d1 & E & (X0 & X1 & X2 & X3) & P). rewrite E. cbn [bind].
      destruct (IH d1 elt p) as (d2 & E2 & N2 & P2); [congruence|lia| |].
      + intros i z Hi Z. destruct (Nat.eq_dec i pos) as [->|Hp]; [apply (G p); [lia|congruence]|]. rewrite (X3 i) in Z by lia. now apply (G i).
      + exists d2. split; [exact E2|]. split; [exact N2|]. now transitivity d1.
    - assert (pos = 0) by lia. subst pos. exists d. auto.
  Qed.
  Lemma push_front h x : (forall y, In y (HeapModel.vec h) -> cmp x y <> OrderingLess /\ cmp x y <> OrderingEqual) ->
    exists h', HPush extra cmp h x = Ret h' /\ nth_error (HeapModel.vec h') 0 = Some x /\ Permutation (x :: HeapModel.vec h) (HeapModel.vec h').
  Proof.
    intros G. unfold HPush, SiftUp, HeapModel.extend, HeapModel.HLen. cbv zeta. cbn [HeapModel.vec HeapModel.capacity].
    set (d := HeapModel.vec h) in *. assert (N : nth_error (d ++ [x]) (length d) = Some x) by (rewrite nth_error_app2, Nat.sub_diag; auto).
    rewrite (idx_nth_error _ _ _ N). cbn [bind].
    destruct (climbs (length d + 1) (d ++ [x]) x (length d) N ltac:(lia)) as (d' & E & N' & P).
    - intros i y Hi Y. apply G. rewrite nth_error_app1 in Y; [now apply nth_error_In in Y|].
      assert (i < length (d ++ [x])) by (apply nth_error_Some; congruence). rewrite app_length in H. cbn [length] in H. lia.
    - rewrite E. cbn [bind fst]. eexists. split; [reflexivity|]. split; [exact N'|]. cbn [HeapModel.vec]. rewrite <- P. apply Permutation_cons_append.
  Qed.
End Front.

(** *** BTreeMap *)
Section BTree.
  Context {K V : Type}.
  Variable cmp : K -> K -> Z.
  Notation look := (via (or_else Less) cmp).
  Notation heap := (BTreeModel.heap K V).

  (** Looking up: what is neither Greater nor Equal ends the walk along a node like Less. *)
  Lemma look_greater a b : eqc (cmp a b) OrderingGreater = BTreeModel.is (look a b) Greater.
  Proof.
    unfold via, or_else, decode, eqc, OrderingGreater. destruct (Z.eqb_spec (cmp a b) (-1)) as [->|]; [reflexivity|]. destruct (Z.eqb_spec (cmp a b) 0) as [->|]; [reflexivity|].
    destruct (Z.eqb_spec (cmp a b) 1) as [E|]; reflexivity.
  Qed.
  Lemma look_equal a b : eqc (cmp a b) OrderingEqual = BTreeModel.is (look a b) Equal.
  Proof.
    unfold via, or_else, decode, eqc, OrderingEqual. destruct (Z.eqb_spec (cmp a b) (-1)) as [->|]; [reflexivity|]. destruct (cmp a b =? 0)%Z; [reflexivity|].
    destruct (cmp a b =? 1)%Z; reflexivity.
  Qed.
  Lemma scan_ext key ks : forall i, scan cmp key ks i = BTreeModel.scan look key ks i.
  Proof. induction ks as [|[k|] ks IH]; intros i; cbn [scan BTreeModel.scan]; auto. rewrite look_greater. destruct (BTreeModel.is (look key k) Greater); auto. Qed.
  Lemma search_look fuel : forall (h : heap) a key, search cmp fuel h a key = BTreeModel.search look fuel h a key.
  Proof.
    induction fuel; intros; cbn [search BTreeModel.search]; [reflexivity|]. apply bind_ext. intros nd. cbv zeta. rewrite scan_ext.
    destruct (nth_error _ _) as [[k|]|]; rewrite ?look_equal; split_ext.
  Qed.
  Lemma Get_look (h : heap) m key : Get cmp m key h = BTreeModel.Get look m key h.
  Proof. unfold Get, BTreeModel.Get. destruct (BTreeModel.root m); [|reflexivity]. now rewrite search_look. Qed.
  Lemma ContainsKey_look (h : heap) m key : ContainsKey cmp m key h = BTreeModel.ContainsKey look m key h.
  Proof. unfold ContainsKey, BTreeModel.ContainsKey. destruct (BTreeModel.root m); [|reflexivity]. now rewrite search_look. Qed.

  (** Writing, where all results are proper. *)
  Variable o : K -> K -> ordering.
  Hypothesis E : forall a b, cmp a b = code_of (o a b).
  Lemma test a b : eqc (cmp a b) OrderingLess = BTreeModel.is (o a b) Less /\ eqc (cmp a b) OrderingEqual = BTreeModel.is (o a b) Equal /\
    eqc (cmp a b) OrderingGreater = BTreeModel.is (o a b) Greater.
  Proof. rewrite E. destruct (o a b); repeat split; reflexivity. Qed.
  Let tl a b := proj1 (test a b).
  Let te a b := proj1 (proj2 (test a b)).
  Let tg a b := proj2 (proj2 (test a b)).
  Lemma scan_proper key ks : forall i, scan cmp key ks i = BTreeModel.scan o key ks i.
  Proof. induction ks as [|[k|] ks IH]; intros i; cbn [scan BTreeModel.scan]; auto. rewrite tg. destruct (BTreeModel.is (o key k) Greater); auto. Qed.
  Lemma search_proper fuel : forall (h : heap) a key, search cmp fuel h a key = BTreeModel.search o fuel h a key.
  Proof.
    induction fuel; intros; cbn [search BTreeModel.search]; [reflexivity|]. apply bind_ext. intros nd. cbv zeta. rewrite scan_proper.
    destruct (nth_error _ _) as [[k|]|]; rewrite ?te; split_ext.
  Qed.
  Lemma shift_greater_proper key j : forall (nd : BTreeModel.node K V), shift_greater cmp key j nd = BTreeModel.shift_greater o key j nd.
  Proof.
    induction j; intros; cbn [shift_greater BTreeModel.shift_greater]; [reflexivity|]. apply bind_ext. intros [k|]; [|reflexivity]. rewrite tg. split_ext.
  Qed.
  Lemma find_child_proper key j : forall (nd : BTreeModel.node K V), find_child cmp key j nd = BTreeModel.find_child o key j nd.
  Proof.
    induction j; intros; cbn [find_child BTreeModel.find_child]; [reflexivity|]. apply bind_ext. intros [k|]; [|reflexivity]. rewrite tg. split_ext.
  Qed.
  Lemma find_key_proper key m : forall i (nd : BTreeModel.node K V), find_key cmp key m i nd = BTreeModel.find_key o key m i nd.
  Proof.
    induction m; intros; cbn [find_key BTreeModel.find_key]; [reflexivity|]. apply bind_ext. intros [k|]; [|reflexivity]. rewrite tl. split_ext.
  Qed.
  Ltac mstep := apply mbind_ext; [|intros ? ?].
  Lemma insert_non_full_proper f : forall a key v (h : heap), insert_non_full cmp f a key v h = BTreeModel.insert_non_full o f a key v h.
  Proof.
    induction f; intros; cbn [insert_non_full BTreeModel.insert_non_full]; [reflexivity|]. mstep; [reflexivity|].
    match goal with |- context [BTreeModel.leaf ?a] => destruct (BTreeModel.leaf a) end.
    - mstep; [unfold BTreeModel.lift; now rewrite shift_greater_proper|reflexivity].
    - mstep; [unfold BTreeModel.lift; now rewrite find_child_proper|]. mstep; [reflexivity|]. mstep; [reflexivity|]. mstep.
      + destruct (_ =? _); [|reflexivity]. mstep; [reflexivity|]. mstep; [reflexivity|]. mstep; [reflexivity|].
        match goal with |- context [match ?k with Some _ => _ | None => _ end] => destruct k end; [rewrite tl|]; reflexivity.
      + mstep; [reflexivity|]. mstep; [reflexivity|]. apply IHf.
  Qed.
  Lemma Insert_proper m key v (h : heap) : Insert cmp m key v h = BTreeModel.Insert o m key v h.
  Proof.
    unfold Insert, BTreeModel.Insert. destruct (BTreeModel.root m) as [r|]; [|reflexivity]. mstep; [now rewrite search_proper|].
    match goal with |- context [match ?k with Some _ => _ | None => _ end] => destruct k as [[a i]|] end; [reflexivity|].
    mstep; [reflexivity|]. destruct (_ =? _).
    - cbv zeta. do 5 (mstep; [reflexivity|]). mstep; [reflexivity|]. mstep; [rewrite tl; reflexivity|]. mstep; [apply insert_non_full_proper|reflexivity].
    - mstep; [apply insert_non_full_proper|reflexivity].
  Qed.
  Lemma remove_proper f : forall a key (h : heap), remove_ cmp f a key h = BTreeModel.remove_ o f a key h.
  Proof.
    induction f; intros; cbn [remove_ BTreeModel.remove_]; [reflexivity|]. mstep; [reflexivity|].
    mstep; [unfold BTreeModel.lift; now rewrite find_key_proper|]. mstep; [reflexivity|].
    match goal with |- (if match ?k with Some _ => _ | None => _ end then _ else _) _ = _ => replace (match k with Some k' => eqc (cmp k' key) OrderingEqual | None => false end)
      with (match k with Some k' => BTreeModel.is (o k' key) Equal | None => false end) by (destruct k; [symmetry; apply te|reflexivity]) end.
    destruct (match _ with Some _ => _ | None => _ end).
    - destruct (BTreeModel.leaf _); [reflexivity|]. mstep; [reflexivity|].
      match goal with |- (if ?b then _ else _) _ = _ => destruct b end.
      + repeat (mstep; [reflexivity|]). apply IHf.
      + mstep; [reflexivity|]. match goal with |- (if ?b then _ else _) _ = _ => destruct b end; repeat (mstep; [reflexivity|]); apply IHf.
    - destruct (BTreeModel.leaf _); [reflexivity|]. cbv zeta. repeat (mstep; [reflexivity|]). apply IHf.
  Qed.
  Lemma Remove_proper m key (h : heap) : Remove cmp m key h = BTreeModel.Remove o m key h.
  Proof.
    unfold Remove, BTreeModel.Remove. destruct (BTreeModel.root m) as [r|]; [|reflexivity]. mstep; [now rewrite search_proper|].
    mstep; [apply remove_proper|reflexivity].
  Qed.
End BTree.
