(** CodeModel.v -- the methods that look at an Ordering, with Ordering the integer type it is
    (cmp.go:5-10): a user's Cmp or comparison function may return any integer, and the code
    tells the three constants apart with [==] or a switch without default.  The other models
    have functions that return one of the three. *)
From Verif Require Import Base Effect VecModel StableSortModel PdqSortModel.
From Verif Require DequeModel HeapModel BTreeModel CmpModel SortLibModel.

(** cmp.go:8-10. *)
Definition OrderingLess : Z := (-1)%Z.
Definition OrderingEqual : Z := 0%Z.
Definition OrderingGreater : Z := 1%Z.
Definition eqc (a b : Z) : bool := (a =? b)%Z.

(** pair.go:64-73: the keys' result is handed on as it is. *)
Definition Pair_Cmp {K V} (cmpK : option (K -> K -> Z)) (cmpV : option (V -> V -> Z)) (p q : CmpModel.Pair K V) : out Z :=
  ck <- of_option cmpK ;;
  let keyOrd := ck (CmpModel.Key p) (CmpModel.Key q) in
  if eqc keyOrd OrderingEqual then cv <- of_option cmpV ;; Ret (cv (CmpModel.Value p) (CmpModel.Value q)) else Ret keyOrd.

(** *** Searching *)
Section Search.
  Context {T : Type}.
  (** vec.go:381-406 and 336-363, vec_deque.go:454-479 and 409-436: in a round whose result is none
      of the three, neither low nor high changes.  Running out of fuel is [Diverge]. *)
  Fixpoint search_loop (fuel : nat) (f : T -> out Z) (d : list T) (low high : Z) : out (option nat) :=
    match fuel with
    | O => Diverge
    | S k =>
      if (low <=? high)%Z then
        let mid := ((low + high) / 2)%Z in
        x <- idx d (Z.to_nat mid) ;;
        o <- f x ;;
        if eqc o OrderingLess then search_loop k f d (mid + 1) high
        else if eqc o OrderingGreater then search_loop k f d low (mid - 1)
        else if eqc o OrderingEqual then Ret (Some (Z.to_nat mid))
        else search_loop k f d low high
      else Ret None
    end.
  (** vec.go:381-383, 336-338: run for [fuel] rounds. *)
  Definition BinarySearchBy (fuel : nat) (f : T -> Z) (m : mem T) (v : slice) : out (option nat) :=
    search_loop fuel (fun x => Ret (f x)) (contents m v) 0 (Z.of_nat (length (contents m v)) - 1).
  Definition BinarySearch (fuel : nat) (cmp : option (T -> T -> Z)) (m : mem T) (v : slice) (value : T) : out (option nat) :=
    search_loop fuel (fun x => c <- of_option cmp ;; Ret (c x value)) (contents m v) 0 (Z.of_nat (length (contents m v)) - 1).
  (** vec_deque.go:454-456, 409-411. *)
  Definition DBinarySearchBy (fuel : nat) (f : T -> Z) (d : DequeModel.VecDeque T) : out (option nat) :=
    search_loop fuel (fun x => Ret (f x)) (DequeModel.buffer d) 0 (DequeModel.dlen d - 1).
  Definition DBinarySearch (fuel : nat) (cmp : option (T -> T -> Z)) (d : DequeModel.VecDeque T) (value : T) : out (option nat) :=
    search_loop fuel (fun x => c <- of_option cmp ;; Ret (c x value)) (DequeModel.buffer d) 0 (DequeModel.dlen d - 1).
End Search.

(** *** Sorting *)
Section Sort.
  Context {T : Type}.
  Variable rnd : nat -> nat -> nat.
  (** vec.go:447, 476, 494, 523; vec_deque.go:503, 529, 552, 578. *)
  Definition by_code (compare : T -> T -> Z) (a b : T) : out bool := Ret (eqc (compare a b) OrderingLess).
  (** vec.go:442-449, 471-478 and 489-496, 518-525, for elements that have Cmp. *)
  Definition SortBy (compare : T -> T -> Z) (m : mem T) (v : slice) : out (mem T) := in_place m v (SliceStable (by_code compare)).
  Definition SortUnstableBy (compare : T -> T -> Z) (m : mem T) (v : slice) : out (mem T) := in_place m v (Slice (by_code compare) rnd).
  (** vec_deque.go:493-505, 527-531 and 542-554, 576-580, the same. *)
  Definition DSortBy (f : T -> T -> Z) := SortLibModel.on_cells (SliceStable (by_code f)).
  Definition DSortUnstableBy (f : T -> T -> Z) := SortLibModel.on_cells (Slice (by_code f) rnd).
End Sort.

(** *** BinaryHeap *)
Section Heap.
  Context {T : Type}.
  Variable extra : nat -> nat -> nat.
  Variable cmp : T -> T -> Z.
  Notation BinaryHeap := (HeapModel.BinaryHeap T).
  (** binary_heap.go:90-112. *)
  Fixpoint sift_up_loop (fuel : nat) (d : list T) (start : nat) (elt : T) (pos : nat) : out (list T * nat) :=
    match fuel with
    | O => Diverge
    | S k =>
      if start <? pos then
        let parent := (pos - 1) / 2 in
        x <- idx d parent ;;
        let order := cmp elt x in
        if eqc order OrderingLess || eqc order OrderingEqual then Ret (d, pos)
        else d' <- swap_data d pos parent ;; sift_up_loop k d' start elt parent
      else Ret (d, pos)
    end.
  Definition SiftUp (d : list T) (start pos : nat) : out (list T * nat) :=
    elt <- idx d pos ;; sift_up_loop (pos + 1) d start elt pos.
  (** binary_heap.go:81-88. *)
  Definition HPush (h : BinaryHeap) (item : T) : out BinaryHeap :=
    let oldLen := HeapModel.HLen h in
    let h' := HeapModel.extend extra h [item] in
    p <- SiftUp (HeapModel.vec h') 0 oldLen ;; Ret (HeapModel.mkHeap (fst p) (HeapModel.capacity h')).
  (** binary_heap.go:135-171. *)
  Fixpoint sift_down_loop (fuel : nat) (d : list T) (end_ : nat) (pos child : nat) : out (list T * nat * nat) :=
    match fuel with
    | O => Diverge
    | S k =>
      if child <=? end_ - 2 then
        a <- idx d child ;; b <- idx d (child + 1) ;;
        let ordering := cmp a b in
        let child := if eqc ordering OrderingLess || eqc ordering OrderingEqual then child + 1 else child in
        d' <- swap_data d pos child ;;
        sift_down_loop k d' end_ child (2 * child + 1)
      else Ret (d, pos, child)
    end.
  Definition SiftDownToBottom (d : list T) (pos : nat) : out (list T) :=
    let end_ := length d in
    let start := pos in
    _ <- idx d pos ;;
    r <- sift_down_loop (end_ + 1) d end_ pos (2 * pos + 1) ;;
    let '(d, pos, child) := r in
    r <- (if child =? end_ - 1 then d' <- swap_data d pos child ;; Ret (d', child) else Ret (d, pos)) ;;
    let '(d, pos) := r in
    p <- SiftUp d start pos ;; Ret (fst p).
  (** binary_heap.go:123-133. *)
  Definition HPop (h : BinaryHeap) : out (BinaryHeap * option T) :=
    match HeapModel.vec h with
    | [] => Ret (h, None)
    | _ =>
      item <- idx (HeapModel.vec h) (HeapModel.HLen h - 1) ;;
      let rest := firstn (HeapModel.HLen h - 1) (HeapModel.vec h) in
      if negb (length rest =? 0) then
        top <- idx rest 0 ;;
        d <- upd rest 0 item ;;
        d' <- SiftDownToBottom d 0 ;;
        Ret (HeapModel.mkHeap d' (HeapModel.capacity h), Some top)
      else Ret (HeapModel.mkHeap rest (HeapModel.capacity h), Some item)
    end.
End Heap.

(** *** BTreeMap: the functions of BTreeModel that call Cmp *)
Section BTree.
  Import BTreeModel.
  Context {K V : Type}.
  Variable cmp : K -> K -> Z.
  Notation node := (@node K V).
  Notation heap := (@heap K V).

  (** btree_map.go:317-320: past the keys smaller than key, up to a nil. *)
  Fixpoint scan (key : K) (ks : list (option K)) (i : nat) : nat :=
    match ks with
    | Some k :: r => if eqc (cmp key k) OrderingGreater then scan key r (S i) else i
    | _ => i
    end.
  (** btree_map.go:315-340.  The node found is returned by pointer to a copy that
      shares the slices, through which it is read and written: its address here. *)
  Fixpoint search (fuel : nat) (h : heap) (a : nat) (key : K) : out (option (nat * nat)) :=
    match fuel with
    | O => Diverge
    | S f =>
        nd <- idx h a ;;
        let i := scan key (keys nd) 0 in
        match nth_error (keys nd) i with
        | Some (Some k) => if eqc (cmp key k) OrderingEqual then Ret (Some (a, i)) else
                           if leaf nd then Ret None else
                           c <- idx (childs nd) i ;; match c with Some c' => search f h c' key | None => Ret None end
        | _ => if leaf nd then Ret None else
               c <- idx (childs nd) i ;; match c with Some c' => search f h c' key | None => Ret None end
        end
    end.
  (** btree_map.go:399-403: j is i+1; gives the j where the new key belongs. *)
  Fixpoint shift_greater (key : K) (j : nat) (nd : node) : out (node * nat) :=
    match j with
    | O => Ret (nd, O)
    | S i => k <- idx (keys nd) i ;;
             match k with
             | Some k' => if eqc (cmp k' key) OrderingGreater then nd' <- copy_kv nd i nd j ;; shift_greater key i nd' else Ret (nd, j)
             | None => Ret (nd, j)
             end
    end.
  (** btree_map.go:412-414. *)
  Fixpoint find_child (key : K) (j : nat) (nd : node) : out nat :=
    match j with
    | O => Ret O
    | S i => k <- idx (keys nd) i ;;
             match k with
             | Some k' => if eqc (cmp k' key) OrderingGreater then find_child key i nd else Ret j
             | None => Ret j
             end
    end.
  (** btree_map.go:390-430. *)
  Fixpoint insert_non_full (f : nat) (a : nat) (key : K) (value : V) : M heap unit :=
    match f with
    | O => fun _ => Diverge
    | S f' =>
        self <~ rd a ;;
        if leaf self then
          r <~ lift (shift_greater key (n self) self) ;;
          nd <~ lift (set_kv (fst r) (snd r) (Some key) (Some value)) ;;
          wr a (set_n nd (n nd + 1))
        else
          j <~ lift (find_child key (n self) self) ;;
          c <~ lift (child self j) ;;
          cn <~ rd c ;;
          j <~ (if length (keys cn) =? cap then
                  _ <~ splitChild a j c ;;
                  self <~ rd a ;;
                  k <~ lift (idx (keys self) j) ;;
                  mret (match k with Some k' => if eqc (cmp k' key) OrderingLess then S j else j | None => j end)
                else mret j) ;;
          self <~ rd a ;;
          c <~ lift (child self j) ;;
          insert_non_full f' c key value
    end.
  (** btree_map.go:48-112. *)
  Definition Insert (m : BTreeMap) (key : K) (value : V) : M heap (BTreeMap * option V) :=
    match root m with
    | None =>
        let nd := set_n (new_node true 0) 1 in
        nd <~ lift (set_kv nd 0 (Some key) (Some value)) ;;
        r <~ alloc nd ;;
        mret (mkMap (Some r) 1, None)
    | Some r =>
        res <~ (fun h => x <- search (fuel h) h r key ;; Ret (x, h)) ;;
        match res with
        | Some (a, i) =>
            nd <~ rd a ;;
            old <~ lift (idx (values nd) i) ;;
            vs <~ lift (upd (values nd) i (Some value)) ;;
            _ <~ wr a (mkNode (leaf nd) (deg nd) (keys nd) vs (n nd) (childs nd)) ;;
            old' <~ lift (of_option old) ;;
            mret (m, Some old')
        | None =>
            rn <~ rd r ;;
            if n rn =? cap then
              let nr := new_node false cap in
              cs <~ lift (upd (childs nr) 0 (Some r)) ;;
              nr_ <~ alloc (set_childs nr cs) ;;
              _ <~ splitChild nr_ 0 r ;;
              nr <~ rd nr_ ;;
              k <~ lift (idx (keys nr) 0) ;;
              k' <~ lift (of_option k) ;;
              c <~ lift (child nr (if eqc (cmp k' key) OrderingLess then 1 else 0)) ;;
              _ <~ (fun h => insert_non_full (fuel h) c key value h) ;;
              mret (mkMap (Some nr_) (u64 (len m + 1)), None)
            else
              _ <~ (fun h => insert_non_full (fuel h) r key value h) ;;
              mret (mkMap (Some r) (u64 (len m + 1)), None)
        end
    end.
  (** btree_map.go:120-127. *)
  Definition ContainsKey (m : BTreeMap) (key : K) (h : heap) : out bool :=
    match root m with
    | None => Ret false
    | Some r => x <- search (fuel h) h r key ;; Ret (match x with Some _ => true | None => false end)
    end.
  (** btree_map.go:163-174. *)
  Definition Get (m : BTreeMap) (key : K) (h : heap) : out (option V) :=
    match root m with
    | None => Ret None
    | Some r => x <- search (fuel h) h r key ;;
                match x with
                | None => Ret None
                | Some (a, i) => v <- value_at h a i ;; Ret (Some v)
                end
    end.
  (** btree_map.go:487-493: m rounds at most. *)
  Fixpoint find_key (key : K) (m i : nat) (nd : node) : out nat :=
    match m with
    | O => Ret i
    | S m' => k <- idx (keys nd) i ;;
              match k with
              | Some k' => if eqc (cmp k' key) OrderingLess then find_key key m' (S i) nd else Ret i
              | None => Ret i
              end
    end.
  (** btree_map.go:496-537 and, for a key found in an inner node, 554-585. *)
  Fixpoint remove_ (f : nat) (a : nat) (key : K) : M heap unit :=
    match f with
    | O => fun _ => Diverge
    | S f' =>
        self <~ rd a ;;
        i <~ lift (find_key key (n self) 0 self) ;;
        k <~ lift (if i <? n self then idx (keys self) i else Ret None) ;;
        if match k with Some k' => eqc (cmp k' key) OrderingEqual | None => false end then
          if leaf self then remove_from_leaf a i
          else
            p <~ rich self i ;;
            if (p : bool) then
              c_ <~ lift (child self i) ;;
              pr_ <~ (fun h => x <- rightmost (fuel h) h c_ ;; Ret (x, h)) ;;
              pr <~ rd pr_ ;;
              j <~ lift (less_one (n pr)) ;;
              self <~ lift (copy_kv pr j self i) ;;
              _ <~ wr a self ;;
              pk <~ lift (idx (keys pr) j) ;;
              pk' <~ lift (of_option pk) ;;
              remove_ f' c_ pk'
            else
              q <~ rich self (i + 1) ;;
              if (q : bool) then
                c_ <~ lift (child self (i + 1)) ;;
                su_ <~ (fun h => x <- leftmost (fuel h) h c_ ;; Ret (x, h)) ;;
                su <~ rd su_ ;;
                self <~ lift (copy_kv su 0 self i) ;;
                _ <~ wr a self ;;
                sk <~ lift (idx (keys su) 0) ;;
                sk' <~ lift (of_option sk) ;;
                remove_ f' c_ sk'
              else
                _ <~ merge a i ;;
                self' <~ rd a ;;
                c_ <~ lift (child self' i) ;;
                key' <~ lift (of_option k) ;;
                remove_ f' c_ key'
        else if leaf self then mret tt
        else
          let flag := i =? n self in
          p <~ rich self i ;;
          _ <~ (if (p : bool) then mret tt else fill a i) ;;
          self <~ rd a ;;
          j <~ lift (if flag && (n self <? i) then less_one i else Ret i) ;;
          c_ <~ lift (child self j) ;;
          remove_ f' c_ key
    end.
  (** btree_map.go:182-208. *)
  Definition Remove (m : BTreeMap) (key : K) : M heap (BTreeMap * option V) :=
    match root m with
    | None => mret (m, None)
    | Some r =>
        res <~ (fun h => x <- search (fuel h) h r key ;; Ret (x, h)) ;;
        _ <~ (fun h => remove_ (fuel h) r key h) ;;
        rn <~ rd r ;;
        r' <~ lift (match n rn with
                    | O => if leaf rn then Ret None else idx (childs rn) 0
                    | _ => Ret (Some r)
                    end) ;;
        match res with
        | None => mret (mkMap r' (len m), None)
        | Some (a, i) => v <~ (fun h => x <- value_at h a i ;; Ret (x, h)) ;; mret (mkMap r' (u64 (len m - 1)), Some v)
        end
    end.
End BTree.
