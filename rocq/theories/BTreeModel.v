(** BTreeModel.v -- BTreeMap and BTreeSet (btree_map.go, btree_set.go).

    Nodes live in a heap: a list of nodes, a pointer being an index ([None] is nil).
    Allocation appends.  The pointers to keys and values held in a node point at
    cells that are never written again, so they are represented by what they point at.
    The field n, the minimum degree and the loop counters are never negative and are
    natural numbers; an index computed as x - 1 panics here when x is 0, as the
    conversion USize(-1) makes the access panic.  Statements that treat keys[i] and
    then values[i] in the same way are put together in [set_kv] and [copy_kv].
    Recursion takes fuel; running out of it is [Diverge].
    Cmp, Eq, Clone and Display of keys and values are functions without effect. *)
From Verif Require Import Base Effect StringModel HashModel.
Local Open Scope nat_scope.

Section BTree.
  Context {K V : Type}.
  Variable cmp : K -> K -> ordering.      (* Ord[K].Cmp *)

  (** btree_map.go:7-13. *)
  Definition B : nat := 6.
  Definition cap : nat := B * 2 - 1.
  (** btree_map.go:21-31. *)
  Record node := mkNode {
    leaf : bool; deg : nat; keys : list (option K); values : list (option V); n : nat; childs : list (option nat) }.
  Definition heap := list node.
  (** btree_map.go:16-19. *)
  Record BTreeMap := mkMap { root : option nat; len : Z }.

  Definition is (o p : ordering) : bool :=
    match o, p with Less, Less | Equal, Equal | Greater, Greater => true | _, _ => false end.

  (** p.field, *p = ..., &node{...} *)
  Definition rd (a : nat) : M heap node := fun h => nd <- idx h a ;; Ret (nd, h).
  Definition wr (a : nat) (nd : node) : M heap unit := fun h => h' <- upd h a nd ;; Ret (tt, h').
  Definition alloc (nd : node) : M heap nat := fun h => Ret (length h, h ++ [nd]).
  Definition lift {A} (m : out A) : M heap A := fun h => a <- m ;; Ret (a, h).
  (** The child at i, which must not be nil. *)
  Definition child (nd : node) (i : nat) : out nat := c <- idx (childs nd) i ;; of_option c.
  Definition less_one (x : nat) : out nat := match x with O => Panic | S y => Ret y end.

  Definition set_n (nd : node) (m : nat) : node := mkNode (leaf nd) (deg nd) (keys nd) (values nd) m (childs nd).
  Definition set_childs (nd : node) (cs : list (option nat)) : node := mkNode (leaf nd) (deg nd) (keys nd) (values nd) (n nd) cs.
  (** nd.keys[i] = k; nd.values[i] = v. *)
  Definition set_kv (nd : node) (i : nat) (k : option K) (v : option V) : out node :=
    ks <- upd (keys nd) i k ;; vs <- upd (values nd) i v ;; Ret (mkNode (leaf nd) (deg nd) ks vs (n nd) (childs nd)).
  (** dst.keys[j] = src.keys[i]; dst.values[j] = src.values[i]. *)
  Definition copy_kv (src : node) (i : nat) (dst : node) (j : nat) : out node :=
    k <- idx (keys src) i ;; v <- idx (values src) i ;; set_kv dst j k v.
  Definition new_node (lf : bool) (d : nat) : node :=
    mkNode lf d (repeat None cap) (repeat None cap) 0 (repeat None (cap + 1)).

  (** *** Reading *)
  (** btree_map.go:317-320: past the keys smaller than key, up to a nil. *)
  Fixpoint scan (key : K) (ks : list (option K)) (i : nat) : nat :=
    match ks with
    | Some k :: r => if is (cmp key k) Greater then scan key r (S i) else i
    | _ => i
    end.
  (** btree_map.go:315-340.  The node found is returned by pointer to a copy that
      shares the slices, through which it is read and written: its address here. *)
  Fixpoint search (fuel : nat) (h : heap) (a : nat) (key : K) : out (option (nat * nat)) :=
    match fuel with
    | O => Diverge
    | S f =>
        nd <- idx h a ;;
        let i := scan key (keys nd) 0 in
        match nth_error (keys nd) i with
        | Some (Some k) => if is (cmp key k) Equal then Ret (Some (a, i)) else
                           if leaf nd then Ret None else
                           c <- idx (childs nd) i ;; match c with Some c' => search f h c' key | None => Ret None end
        | _ => if leaf nd then Ret None else
               c <- idx (childs nd) i ;; match c with Some c' => search f h c' key | None => Ret None end
        end
    end.
  Definition fuel (h : heap) : nat := S (length h).

  (** btree_map.go:231-255. *)
  Fixpoint to_vec (f : nat) (h : heap) (a : nat) : out (list (K * V)) :=
    match f with
    | O => Diverge
    | S f' =>
        nd <- idx h a ;;
        (fix go (m i : nat) : out (list (K * V)) :=
           match m with
           | O => Ret []
           | S m' =>
               cs <- (if leaf nd then Ret [] else
                      c <- idx (childs nd) i ;; match c with Some c' => to_vec f' h c' | None => Ret [] end) ;;
               k <- idx (keys nd) i ;;
               e <- match k with
                    | Some k' => v <- idx (values nd) i ;; v' <- of_option v ;; Ret [(k', v')]
                    | None => Ret []
                    end ;;
               r <- go m' (S i) ;; Ret (cs ++ e ++ r)
           end) (length (keys nd)) 0
    end.
  (** btree_map.go:258-284: only up to n. *)
  Fixpoint to_key_vec (f : nat) (h : heap) (a : nat) : out (list K) :=
    match f with
    | O => Diverge
    | S f' =>
        nd <- idx h a ;;
        (fix go (m i : nat) : out (list K) :=
           match m with
           | O => Ret []
           | S m' =>
               cs <- (if leaf nd then Ret [] else
                      c <- idx (childs nd) i ;; match c with Some c' => to_key_vec f' h c' | None => Ret [] end) ;;
               k <- idx (keys nd) i ;;
               r <- go m' (S i) ;; Ret (cs ++ match k with Some k' => [k'] | None => [] end ++ r)
           end) (Nat.min (length (keys nd)) (n nd)) 0
    end.
  (** btree_map.go:287-312. *)
  Fixpoint to_value_vec (f : nat) (h : heap) (a : nat) : out (list V) :=
    match f with
    | O => Diverge
    | S f' =>
        nd <- idx h a ;;
        (fix go (m i : nat) : out (list V) :=
           match m with
           | O => Ret []
           | S m' =>
               cs <- (if leaf nd then Ret [] else
                      c <- idx (childs nd) i ;; match c with Some c' => to_value_vec f' h c' | None => Ret [] end) ;;
               v <- idx (values nd) i ;;
               r <- go m' (S i) ;; Ret (cs ++ match v with Some v' => [v'] | None => [] end ++ r)
           end) (length (keys nd)) 0
    end.

  (** *** Inserting *)
  (** btree_map.go:463-465: j := from; cnt rounds of childs[j+1] = childs[j]; j--. *)
  Fixpoint shift_childs (cnt j : nat) (cs : list (option nat)) : out (list (option nat)) :=
    match cnt with
    | O => Ret cs
    | S c => x <- idx cs j ;; cs' <- upd cs (S j) x ;; shift_childs c (j - 1) cs'
    end.
  (** btree_map.go:472-475, the same for keys and values. *)
  Fixpoint shift_kv (cnt j : nat) (nd : node) : out node :=
    match cnt with
    | O => Ret nd
    | S c => nd' <- copy_kv nd j nd (S j) ;; shift_kv c (j - 1) nd'
    end.
  (** for j := lo; cnt rounds; j++ { dst.keys[j + doff] = src.keys[j + soff]; ... } *)
  Fixpoint copy_range (cnt j : nat) (src : node) (soff : nat) (dst : node) (doff : nat) : out node :=
    match cnt with
    | O => Ret dst
    | S c => dst' <- copy_kv src (j + soff) dst (j + doff) ;; copy_range c (S j) src soff dst' doff
    end.
  Fixpoint copy_childs (cnt j : nat) (src : list (option nat)) (soff : nat) (dst : list (option nat)) (doff : nat) : out (list (option nat)) :=
    match cnt with
    | O => Ret dst
    | S c => x <- idx src (j + soff) ;; dst' <- upd dst (j + doff) x ;; copy_childs c (S j) src soff dst' doff
    end.
  (** btree_map.go:434-483; self is a, y is y_. *)
  Definition splitChild (a i y_ : nat) : M heap unit :=
    self <~ rd a ;;
    y <~ rd y_ ;;
    d1 <~ lift (less_one (deg self)) ;;
    let z := set_n (new_node (leaf y) (deg y)) d1 in
    z <~ lift (copy_range (deg z) 0 y (deg self) z 0) ;;
    zc <~ lift (if leaf y then Ret (childs z) else copy_childs (deg self) 0 (childs y) (deg self) (childs z) 0) ;;
    let z := set_childs z zc in
    let y := set_n y d1 in
    _ <~ wr y_ y ;;
    z_ <~ alloc z ;;
    cs <~ lift (shift_childs (n self - i) (n self) (childs self)) ;;
    cs <~ lift (upd cs (i + 1) (Some z_)) ;;
    let self := set_childs self cs in
    self <~ lift (shift_kv (n self + 1 - i) (n self) self) ;;
    self <~ lift (copy_kv y d1 self i) ;;
    wr a (set_n self (n self + 1)).

  (** btree_map.go:399-403: j is i+1; gives the j where the new key belongs. *)
  Fixpoint shift_greater (key : K) (j : nat) (nd : node) : out (node * nat) :=
    match j with
    | O => Ret (nd, O)
    | S i => k <- idx (keys nd) i ;;
             match k with
             | Some k' => if is (cmp k' key) Greater then nd' <- copy_kv nd i nd j ;; shift_greater key i nd' else Ret (nd, j)
             | None => Ret (nd, j)
             end
    end.
  (** btree_map.go:412-414. *)
  Fixpoint find_child (key : K) (j : nat) (nd : node) : out nat :=
    match j with
    | O => Ret O
    | S i => k <- idx (keys nd) i ;;
             match k with
             | Some k' => if is (cmp k' key) Greater then find_child key i nd else Ret j
             | None => Ret j
             end
    end.
  (** btree_map.go:390-430. *)
  Fixpoint insert_non_full (f : nat) (a : nat) (key : K) (value : V) : M heap unit :=
    match f with
    | O => fun _ => Diverge
    | S f' =>
        self <~ rd a ;;
        if leaf self then
          r <~ lift (shift_greater key (n self) self) ;;
          nd <~ lift (set_kv (fst r) (snd r) (Some key) (Some value)) ;;
          wr a (set_n nd (n nd + 1))
        else
          j <~ lift (find_child key (n self) self) ;;
          c <~ lift (child self j) ;;
          cn <~ rd c ;;
          j <~ (if length (keys cn) =? cap then
                  _ <~ splitChild a j c ;;
                  self <~ rd a ;;
                  k <~ lift (idx (keys self) j) ;;
                  mret (match k with Some k' => if is (cmp k' key) Less then S j else j | None => j end)
                else mret j) ;;
          self <~ rd a ;;
          c <~ lift (child self j) ;;
          insert_non_full f' c key value
    end.

  Definition u64 (z : Z) : Z := (z mod 2 ^ 64)%Z.
  (** btree_map.go:34-36. *)
  Definition BTreeMapNew : BTreeMap := mkMap None 0.
  (** btree_map.go:48-112. *)
  Definition Insert (m : BTreeMap) (key : K) (value : V) : M heap (BTreeMap * option V) :=
    match root m with
    | None =>
        let nd := set_n (new_node true 0) 1 in
        nd <~ lift (set_kv nd 0 (Some key) (Some value)) ;;
        r <~ alloc nd ;;
        mret (mkMap (Some r) 1, None)
    | Some r =>
        res <~ (fun h => x <- search (fuel h) h r key ;; Ret (x, h)) ;;
        match res with
        | Some (a, i) =>
            nd <~ rd a ;;
            old <~ lift (idx (values nd) i) ;;
            vs <~ lift (upd (values nd) i (Some value)) ;;
            _ <~ wr a (mkNode (leaf nd) (deg nd) (keys nd) vs (n nd) (childs nd)) ;;
            old' <~ lift (of_option old) ;;
            mret (m, Some old')
        | None =>
            rn <~ rd r ;;
            if n rn =? cap then
              let nr := new_node false cap in
              cs <~ lift (upd (childs nr) 0 (Some r)) ;;
              nr_ <~ alloc (set_childs nr cs) ;;
              _ <~ splitChild nr_ 0 r ;;
              nr <~ rd nr_ ;;
              k <~ lift (idx (keys nr) 0) ;;
              k' <~ lift (of_option k) ;;
              c <~ lift (child nr (if is (cmp k' key) Less then 1 else 0)) ;;
              _ <~ (fun h => insert_non_full (fuel h) c key value h) ;;
              mret (mkMap (Some nr_) (u64 (len m + 1)), None)
            else
              _ <~ (fun h => insert_non_full (fuel h) r key value h) ;;
              mret (mkMap (Some r) (u64 (len m + 1)), None)
        end
    end.

  (** btree_map.go:120-127. *)
  Definition ContainsKey (m : BTreeMap) (key : K) (h : heap) : out bool :=
    match root m with
    | None => Ret false
    | Some r => x <- search (fuel h) h r key ;; Ret (match x with Some _ => true | None => false end)
    end.
  (** btree_map.go:134-136, 143-145, 153-156. *)
  Definition Len (m : BTreeMap) : Z := len m.
  Definition IsEmpty (m : BTreeMap) : bool := (len m =? 0)%Z.
  Definition Clear (m : BTreeMap) : BTreeMap := mkMap None 0.
  (** node.values.data[i], dereferenced. *)
  Definition value_at (h : heap) (a i : nat) : out V :=
    nd <- idx h a ;; v <- idx (values nd) i ;; of_option v.
  (** btree_map.go:163-174. *)
  Definition Get (m : BTreeMap) (key : K) (h : heap) : out (option V) :=
    match root m with
    | None => Ret None
    | Some r => x <- search (fuel h) h r key ;;
                match x with
                | None => Ret None
                | Some (a, i) => v <- value_at h a i ;; Ret (Some v)
                end
    end.

  (** *** Removing *)
  (** btree_map.go:487-493: m rounds at most. *)
  Fixpoint find_key (key : K) (m i : nat) (nd : node) : out nat :=
    match m with
    | O => Ret i
    | S m' => k <- idx (keys nd) i ;;
              match k with
              | Some k' => if is (cmp k' key) Less then find_key key m' (S i) nd else Ret i
              | None => Ret i
              end
    end.
  (** btree_map.go:540-551: m rounds from i. *)
  Fixpoint close_gap (m i : nat) (nd : node) : out node :=
    match m with
    | O => Ret nd
    | S m' => j <- less_one i ;;
              nd' <- copy_kv nd i nd j ;;
              nd'' <- set_kv nd' i None None ;;
              close_gap m' (S i) nd''
    end.
  Definition remove_from_leaf (a idx_ : nat) : M heap unit :=
    self <~ rd a ;;
    nd <~ lift (close_gap (n self - (idx_ + 1)) (idx_ + 1) self) ;;
    n' <~ lift (less_one (n nd)) ;;
    wr a (set_n nd n').
  (** btree_map.go:588-597, 600-609. *)
  Fixpoint rightmost (f : nat) (h : heap) (a : nat) : out nat :=
    match f with
    | O => Diverge
    | S f' => nd <- idx h a ;; if leaf nd then Ret a else c <- child nd (n nd) ;; rightmost f' h c
    end.
  Fixpoint leftmost (f : nat) (h : heap) (a : nat) : out nat :=
    match f with
    | O => Diverge
    | S f' => nd <- idx h a ;; if leaf nd then Ret a else c <- child nd 0 ;; leftmost f' h c
    end.
  (** for i := i; cnt rounds; i++ { keys[i-1] = keys[i]; values[i-1] = values[i] } *)
  Fixpoint move_down (cnt i : nat) (nd : node) : out node :=
    match cnt with
    | O => Ret nd
    | S c => j <- less_one i ;; nd' <- copy_kv nd i nd j ;; move_down c (S i) nd'
    end.
  Fixpoint move_childs_down (cnt i : nat) (cs : list (option nat)) : out (list (option nat)) :=
    match cnt with
    | O => Ret cs
    | S c => j <- less_one i ;; x <- idx cs i ;; cs' <- upd cs j x ;; move_childs_down c (S i) cs'
    end.
  (** btree_map.go:634-671.  Here and in the next two functions the node, its child and
      the child's sibling are three nodes, so the order in which they are written back
      does not matter. *)
  Definition borrow_from_prev (a i : nat) : M heap unit :=
    self <~ rd a ;;
    i1 <~ lift (less_one i) ;;
    c_ <~ lift (child self i) ;;
    s_ <~ lift (child self i1) ;;
    c <~ rd c_ ;;
    s <~ rd s_ ;;
    c <~ lift (shift_kv (n c) (n c - 1) c) ;;
    cs <~ lift (if leaf c then Ret (childs c) else shift_childs (n c + 1) (n c) (childs c)) ;;
    let c := set_childs c cs in
    c <~ lift (copy_kv self i1 c 0) ;;
    cs <~ lift (if leaf c then Ret (childs c) else x <- idx (childs s) (n s) ;; upd (childs c) 0 x) ;;
    let c := set_childs c cs in
    s1 <~ lift (less_one (n s)) ;;
    self <~ lift (copy_kv s s1 self i1) ;;
    _ <~ wr a self ;;
    _ <~ wr c_ (set_n c (n c + 1)) ;;
    wr s_ (set_n s s1).
  (** btree_map.go:675-710. *)
  Definition borrow_from_next (a i : nat) : M heap unit :=
    self <~ rd a ;;
    c_ <~ lift (child self i) ;;
    s_ <~ lift (child self (i + 1)) ;;
    c <~ rd c_ ;;
    s <~ rd s_ ;;
    c <~ lift (copy_kv self i c (n c)) ;;
    cs <~ lift (if leaf c then Ret (childs c) else x <- idx (childs s) 0 ;; upd (childs c) (n c + 1) x) ;;
    let c := set_childs c cs in
    self <~ lift (copy_kv s 0 self i) ;;
    s <~ lift (move_down (n s - 1) 1 s) ;;
    sc <~ lift (if leaf s then Ret (childs s) else move_childs_down (n s) 1 (childs s)) ;;
    let s := set_childs s sc in
    s1 <~ lift (less_one (n s)) ;;
    _ <~ wr a self ;;
    _ <~ wr c_ (set_n c (n c + 1)) ;;
    wr s_ (set_n s s1).
  (** btree_map.go:714-755. *)
  Definition merge (a i : nat) : M heap unit :=
    self <~ rd a ;;
    c_ <~ lift (child self i) ;;
    s_ <~ lift (child self (i + 1)) ;;
    c <~ rd c_ ;;
    s <~ rd s_ ;;
    d1 <~ lift (less_one (deg self)) ;;
    c <~ lift (copy_kv self i c d1) ;;
    c <~ lift (copy_range (n s) 0 s 0 c (deg self)) ;;
    cs <~ lift (if leaf c then Ret (childs c) else copy_childs (n s + 1) 0 (childs s) 0 (childs c) (deg self)) ;;
    let c := set_childs c cs in
    self <~ lift (move_down (n self - (i + 1)) (i + 1) self) ;;
    sc <~ lift (move_childs_down (n self + 1 - (i + 2)) (i + 2) (childs self)) ;;
    n' <~ lift (less_one (n self)) ;;
    _ <~ wr c_ (set_n c (n c + (n s + 1))) ;;
    wr a (set_n (set_childs self sc) n').
  (** self.childs[i].n >= self._MinimumDegree *)
  Definition rich (self : node) (i : nat) : M heap bool :=
    c <~ lift (child self i) ;; cn <~ rd c ;; mret (deg self <=? n cn).
  (** btree_map.go:612-630. *)
  Definition fill (a i : nat) : M heap unit :=
    self <~ rd a ;;
    p <~ (match i with O => mret false | S j => rich self j end) ;;
    if (p : bool) then borrow_from_prev a i
    else
      q <~ (if i =? n self then mret false else rich self (i + 1)) ;;
      if (q : bool) then borrow_from_next a i
      else if i =? n self then j <~ lift (less_one i) ;; merge a j else merge a i.
  (** btree_map.go:496-537 and, for a key found in an inner node, 554-585. *)
  Fixpoint remove_ (f : nat) (a : nat) (key : K) : M heap unit :=
    match f with
    | O => fun _ => Diverge
    | S f' =>
        self <~ rd a ;;
        i <~ lift (find_key key (n self) 0 self) ;;
        k <~ lift (if i <? n self then idx (keys self) i else Ret None) ;;
        if match k with Some k' => is (cmp k' key) Equal | None => false end then
          if leaf self then remove_from_leaf a i
          else
            p <~ rich self i ;;
            if (p : bool) then
              c_ <~ lift (child self i) ;;
              pr_ <~ (fun h => x <- rightmost (fuel h) h c_ ;; Ret (x, h)) ;;
              pr <~ rd pr_ ;;
              j <~ lift (less_one (n pr)) ;;
              self <~ lift (copy_kv pr j self i) ;;
              _ <~ wr a self ;;
              pk <~ lift (idx (keys pr) j) ;;
              pk' <~ lift (of_option pk) ;;
              remove_ f' c_ pk'
            else
              q <~ rich self (i + 1) ;;
              if (q : bool) then
                c_ <~ lift (child self (i + 1)) ;;
                su_ <~ (fun h => x <- leftmost (fuel h) h c_ ;; Ret (x, h)) ;;
                su <~ rd su_ ;;
                self <~ lift (copy_kv su 0 self i) ;;
                _ <~ wr a self ;;
                sk <~ lift (idx (keys su) 0) ;;
                sk' <~ lift (of_option sk) ;;
                remove_ f' c_ sk'
              else
                _ <~ merge a i ;;
                self' <~ rd a ;;
                c_ <~ lift (child self' i) ;;
                key' <~ lift (of_option k) ;;
                remove_ f' c_ key'
        else if leaf self then mret tt
        else
          let flag := i =? n self in
          p <~ rich self i ;;
          _ <~ (if (p : bool) then mret tt else fill a i) ;;
          self <~ rd a ;;
          j <~ lift (if flag && (n self <? i) then less_one i else Ret i) ;;
          c_ <~ lift (child self j) ;;
          remove_ f' c_ key
    end.
  (** btree_map.go:182-208. *)
  Definition Remove (m : BTreeMap) (key : K) : M heap (BTreeMap * option V) :=
    match root m with
    | None => mret (m, None)
    | Some r =>
        res <~ (fun h => x <- search (fuel h) h r key ;; Ret (x, h)) ;;
        _ <~ (fun h => remove_ (fuel h) r key h) ;;
        rn <~ rd r ;;
        r' <~ lift (match n rn with
                    | O => if leaf rn then Ret None else idx (childs rn) 0
                    | _ => Ret (Some r)
                    end) ;;
        match res with
        | None => mret (mkMap r' (len m), None)
        | Some (a, i) => v <~ (fun h => x <- value_at h a i ;; Ret (x, h)) ;; mret (mkMap r' (u64 (len m - 1)), Some v)
        end
    end.

  (** *** Iteration: the buffers of the iterators (btree_map.go:763-771, 877-885, 991-999) *)
  Definition IntoIter_vec (m : BTreeMap) (h : heap) : out (list (K * V)) :=
    match root m with None => Ret [] | Some r => to_vec (fuel h) h r end.
  Definition Keys_vec (m : BTreeMap) (h : heap) : out (list K) :=
    match root m with None => Ret [] | Some r => to_key_vec (fuel h) h r end.
  Definition Values_vec (m : BTreeMap) (h : heap) : out (list V) :=
    match root m with None => Ret [] | Some r => to_value_vec (fuel h) h r end.

  (** btree_map.go:1092-1117: a key Keys gives but Get does not is left out. *)
  Fixpoint display_loop (dK : K -> option (list Z)) (dV : V -> option (list Z)) (m : BTreeMap) (h : heap) (ks : list K) (fields : list (list Z)) : out (list (list Z)) :=
    match ks with
    | [] => Ret fields
    | k :: r =>
        v <- Get m k h ;;
        match v with
        | None => display_loop dK dV m h r fields
        | Some v' => f <- Format [123; 125; 58; 32; 123; 125]%Z [dK k; dV v'] ;; display_loop dK dV m h r (fields ++ [f])
        end
    end.
  Definition Display (dK : K -> option (list Z)) (dV : V -> option (list Z)) (m : BTreeMap) (h : heap) : out (list Z) :=
    ks <- Keys_vec m h ;; fields <- display_loop dK dV m h ks [] ;;
    Ret ([66; 84; 114; 101; 101; 77; 97; 112; 123]%Z ++ join fields ++ [125]%Z).
  (** btree_map.go:1130-1154. *)
  Fixpoint eq_loop (eq : option (V -> V -> bool)) (es : list (K * V)) (other : BTreeMap) (h : heap) : out bool :=
    match es with
    | [] => Ret true
    | (k, v) :: r =>
        c <- ContainsKey other k h ;;
        if negb c then Ret false
        else
          g <- Get other k h ;; w <- of_option g ;; f <- of_option eq ;;
          if negb (f w v) then Ret false else eq_loop eq r other h
    end.
  Definition Eq (eq : option (V -> V -> bool)) (m other : BTreeMap) (h : heap) : out bool :=
    if negb (len m =? len other)%Z then Ret false
    else es <- IntoIter_vec m h ;; eq_loop eq es other h.
End BTree.
Arguments node K V : clear implicits.
Arguments heap K V : clear implicits.

(** *** BTreeSet *)
Section BTreeSet.
  Context {K : Type}.
  Variable cmp : K -> K -> ordering.
  Notation heap := (heap K unit).
  (** btree_set.go:9-11: a BTreeMap with empty values. *)
  Definition BTreeSet := BTreeMap.
  (** btree_set.go:14-16, 25-27, 84-86, 95-97. *)
  Definition BTreeSetNew : BTreeSet := BTreeMapNew.
  Definition sClear (s : BTreeSet) : BTreeSet := Clear s.
  Definition sIsEmpty (s : BTreeSet) : bool := IsEmpty s.
  Definition sLen (s : BTreeSet) : Z := Len s.
  (** btree_set.go:37-39. *)
  Definition Contains (s : BTreeSet) (key : K) (h : heap) : out bool := ContainsKey cmp s key h.
  (** btree_set.go:49-57, 67-75. *)
  Definition sInsert (s : BTreeSet) (key : K) : M heap (BTreeSet * bool) :=
    r <~ Insert cmp s key tt ;; mret (fst r, match snd r with Some _ => false | None => true end).
  Definition sRemove (s : BTreeSet) (key : K) : M heap (BTreeSet * bool) :=
    r <~ Remove cmp s key ;; mret (fst r, match snd r with Some _ => true | None => false end).
  (** btree_set.go:307-311: without a test for the empty set, whose root is nil. *)
  Definition sIntoIter_vec (s : BTreeSet) (h : heap) : out (list K) :=
    match root s with None => Panic | Some r => to_key_vec (fuel h) h r end.

  (** A loop over iter.Next(): the iterator delivers the buffer in order (C52). *)
  Fixpoint forall_loop (want : bool) (other : BTreeSet) (h : heap) (l : list K) : out bool :=
    match l with
    | [] => Ret true
    | x :: r => c <- Contains other x h ;; if Bool.eqb c want then forall_loop want other h r else Ret false
    end.
  (** btree_set.go:112-129, 144-146. *)
  Definition IsSubset (s other : BTreeSet) (h : heap) : out bool :=
    if (sLen other <? sLen s)%Z then Ret false else l <- sIntoIter_vec s h ;; forall_loop true other h l.
  Definition IsSuperset (s other : BTreeSet) (h : heap) : out bool := IsSubset other s h.
  (** btree_set.go:192-205. *)
  Definition IsDisjoint (s other : BTreeSet) (h : heap) : out bool :=
    l <- sIntoIter_vec s h ;; forall_loop false other h l.
  Definition reading {A} (f : heap -> out A) : M heap A := fun h => a <- f h ;; Ret (a, h).
  Fixpoint insert_loop (p : K -> heap -> out bool) (l : list K) (s : BTreeSet) : M heap BTreeSet :=
    match l with
    | [] => mret s
    | x :: r => b <~ reading (p x) ;;
                s' <~ (if (b : bool) then y <~ sInsert s x ;; mret (fst y) else mret s) ;;
                insert_loop p r s'
    end.
  (** btree_set.go:164-179. *)
  Definition Intersection (s other : BTreeSet) : M heap BTreeSet :=
    l <~ reading (sIntoIter_vec s) ;; insert_loop (fun x h => Contains other x h) l BTreeSetNew.
  (** btree_set.go:224-250. *)
  Definition Union (s other : BTreeSet) : M heap BTreeSet :=
    l <~ reading (sIntoIter_vec s) ;; u <~ insert_loop (fun _ _ => Ret true) l BTreeSetNew ;;
    l' <~ reading (sIntoIter_vec other) ;; insert_loop (fun _ _ => Ret true) l' u.
  (** btree_set.go:268-298. *)
  Definition SymmetricDifference (s other : BTreeSet) : M heap BTreeSet :=
    l <~ reading (sIntoIter_vec s) ;; u <~ insert_loop (fun x h => c <- Contains other x h ;; Ret (negb c)) l BTreeSetNew ;;
    l' <~ reading (sIntoIter_vec other) ;; insert_loop (fun x h => c <- Contains s x h ;; Ret (negb c)) l' u.
  (** btree_set.go:405-424. *)
  Definition sDisplay (dK : K -> option (list Z)) (s : BTreeSet) (h : heap) : out (list Z) :=
    ks <- sIntoIter_vec s h ;; fields <- display_fields [123; 125]%Z (fun k => [dK k]) ks [] ;;
    Ret ([66; 84; 114; 101; 101; 83; 101; 116; 123]%Z ++ join fields ++ [125]%Z).
  (** btree_set.go:437-458: each round makes a new iterator and takes its first
      element.  [rounds] bounds the rounds. *)
  Fixpoint clone_rounds (rounds : nat) (clone : option (K -> K)) (s newSet : BTreeSet) : M heap BTreeSet :=
    match rounds with
    | O => fun _ => Diverge
    | S r =>
        l <~ reading (sIntoIter_vec s) ;;
        match l with
        | [] => mret newSet
        | e :: _ => c <~ lift (of_option clone) ;; x <~ sInsert newSet (c e) ;; clone_rounds r clone s (fst x)
        end
    end.
  (** btree_set.go:461-478. *)
  Definition sEq (s other : BTreeSet) (h : heap) : out bool :=
    if negb (sLen s =? sLen other)%Z then Ret false else l <- sIntoIter_vec s h ;; forall_loop true other h l.
End BTreeSet.
