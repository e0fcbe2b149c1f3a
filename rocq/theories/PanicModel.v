(** PanicModel.v -- the methods that call user's functions, with the state that a panic of
    such a function leaves behind: vec.go, vec_deque.go, binary_heap.go, btree_map.go,
    option.go.  A user's function may do what it wants with its own state, but it does not
    use the container it is called from. *)
From Verif Require Import Base Effect VecModel PanicSpec.
From Verif Require DequeModel.

(** A computation on the state C that returns ([Some]) or panics ([None]); the state is the
    one at that moment either way.  Models no gost function. *)
Definition X (C A : Type) : Type := C -> C * option A.
Definition xret {C A} (a : A) : X C A := fun c => (c, Some a).
Definition xbind {C A B} (m : X C A) (k : A -> X C B) : X C B :=
  fun c => match m c with
           | (c', Some a) => k a c'
           | (c', None) => (c', None)
           end.
Notation "x <! m ;; k" := (xbind m (fun x => k)) (at level 61, m at next level, right associativity).
Definition xlift {C A} (m : out A) : X C A := fun c => (c, match m with Ret a => Some a | _ => None end).
Fixpoint xloop {C A B} (f : A -> B -> X C A) (l : list B) (a : A) : X C A :=
  match l with
  | [] => xret a
  | b :: r => a' <! f a b ;; xloop f r a'
  end.
(** The container D, next to the user's state. *)
Section State.
  Context {D U : Type}.
  Definition xget : X (D * U) D := fun c => (c, Some (fst c)).
  Definition xput (d : D) : X (D * U) unit := fun c => ((d, snd c), Some tt).
  Definition call {A B} (f : user U A B) (a : A) : X (D * U) B :=
    fun c => let (u', r) := f a (snd c) in ((fst c, u'), r).
End State.

(** *** Vec: the elements of the slice *)
Section Vec.
  Context {T U : Type}.
  (** vec.go:160-168. *)
  Definition V_Retain (predicate : user U T bool) : X (list T * U) unit :=
    data <! xget ;;
    newData <! xloop (fun newData value => keep <! call predicate value ;;
                        xret (if (keep : bool) then newData ++ [value] else newData)) data [] ;;
    xput newData.
  (** vec.go:182-193; a key that cannot be hashed makes seen[k] panic, which the user's
      function [key] has to do here. *)
  Definition V_DedupByKey {K} (keq : K -> K -> bool) (key : user U T K) : X (list T * U) unit :=
    data <! xget ;;
    p <! xloop (fun st value => k <! call key value ;;
                  xret (let '(seen, newData) := st in
                        if existsb (keq k) seen then (seen, newData) else (k :: seen, newData ++ [value]))) data ([], []) ;;
    xput (snd p).
  (** vec.go:426-430. *)
  Definition V_FillWith (f : user U unit T) : X (list T * U) unit :=
    data <! xget ;;
    xloop (fun _ i => x <! call f tt ;; d <! xget ;; d' <! xlift (upd d i x) ;; xput d') (seq 0 (length data)) tt.
  (** vec.go:442-525: sort.SliceStable and sort.Slice touch the slice through less and
      swap only.  Which calls they make is left open: any program of such calls. *)
  Inductive sorter := Sorted | AskLess (i j : nat) (k : bool -> sorter) | DoSwap (i j : nat) (k : sorter).
  Fixpoint V_SortBy (s : sorter) (compare : user U (T * T) ordering) : X (list T * U) unit :=
    match s with
    | Sorted => xret tt
    | AskLess i j k => d <! xget ;; a <! xlift (idx d i) ;; b <! xlift (idx d j) ;;
                       o <! call compare (a, b) ;; V_SortBy (k (is_less o)) compare
    | DoSwap i j k => d <! xget ;; d' <! xlift (swap_data d i j) ;; _ <! xput d' ;; V_SortBy k compare
    end.
End Vec.

(** *** VecDeque *)
Section Deque.
  Context {T U : Type}.
  Notation VecDeque := (DequeModel.VecDeque T).
  Local Open Scope Z_scope.
  (** vec_deque.go:196-208. *)
  Definition D_Retain (f : user U T bool) : X (VecDeque * U) unit :=
    d0 <! xget ;;
    newLen <! xloop (fun newLen i =>
        d <! xget ;; value <! xlift (DequeModel.GetUnchecked d i) ;;
        keep <! call f value ;;
        if (keep : bool) then d' <! xlift (DequeModel.SetUnchecked d newLen value) ;; _ <! xput d' ;; xret (DequeModel.u64 (newLen + 1))
        else xret newLen)
      (DequeModel.indices 0 (DequeModel.Len d0)) 0 ;;
    d <! xget ;; xput (DequeModel.mkDeque (DequeModel.buffer d) newLen (DequeModel.head d)).
  (** vec_deque.go:220-235. *)
  Definition D_Dedup (eq : user U (T * T) bool) : X (VecDeque * U) unit :=
    d0 <! xget ;;
    if DequeModel.IsEmpty d0 then xret tt
    else
      newLen <! xloop (fun newLen i =>
          d <! xget ;; x <! xlift (DequeModel.GetUnchecked d i) ;; y <! xlift (DequeModel.GetUnchecked d (DequeModel.u64 (newLen - 1))) ;;
          same <! call eq (x, y) ;;
          if negb same then d' <! xlift (DequeModel.SetUnchecked d newLen x) ;; _ <! xput d' ;; xret (DequeModel.u64 (newLen + 1))
          else xret newLen)
        (DequeModel.indices 1 (DequeModel.Len d0)) 1 ;;
      d <! xget ;; xput (DequeModel.mkDeque (DequeModel.buffer d) newLen (DequeModel.head d)).
  (** vec_deque.go:395-399. *)
  Definition D_FillWith (f : user U unit T) : X (VecDeque * U) unit :=
    d0 <! xget ;;
    xloop (fun _ i => x <! call f tt ;; d <! xget ;; d' <! xlift (DequeModel.SetUnchecked d i x) ;; xput d')
      (DequeModel.indices 0 (DequeModel.Len d0)) tt.
End Deque.

(** *** BinaryHeap: the elements of its vector *)
Section Heap.
  Context {T U : Type}.
  Variable cmp : user U (T * T) ordering.
  (** binary_heap.go:90-112; out of fuel is a panic, which is shown not to happen. *)
  Fixpoint sift_up_loop (fuel : nat) (start : nat) (elt : T) (pos : nat) : X (list T * U) unit :=
    match fuel with
    | O => xlift Diverge
    | S k =>
      if start <? pos then
        let parent := (pos - 1) / 2 in
        d <! xget ;; x <! xlift (idx d parent) ;;
        o <! call cmp (elt, x) ;;
        match o with
        | Less | Equal => xret tt
        | Greater => d' <! xlift (swap_data d pos parent) ;; _ <! xput d' ;; sift_up_loop k start elt parent
        end
      else xret tt
    end.
  Definition H_SiftUp (start pos : nat) : X (list T * U) unit :=
    d <! xget ;; elt <! xlift (idx d pos) ;; sift_up_loop (pos + 1) start elt pos.
  (** binary_heap.go:81-88. *)
  Definition H_Push (item : T) : X (list T * U) unit :=
    d <! xget ;; _ <! xput (d ++ [item]) ;; H_SiftUp 0 (length d).
  (** binary_heap.go:135-171. *)
  Fixpoint sift_down_loop (fuel : nat) (end_ : nat) (pos child : nat) : X (list T * U) (nat * nat) :=
    match fuel with
    | O => xlift Diverge
    | S k =>
      if child <=? end_ - 2 then
        d <! xget ;; a <! xlift (idx d child) ;; b <! xlift (idx d (child + 1)) ;;
        o <! call cmp (a, b) ;;
        let child := match o with Less | Equal => child + 1 | Greater => child end in
        d' <! xlift (swap_data d pos child) ;; _ <! xput d' ;;
        sift_down_loop k end_ child (2 * child + 1)
      else xret (pos, child)
    end.
  Definition H_SiftDownToBottom (pos : nat) : X (list T * U) unit :=
    d <! xget ;;
    let end_ := length d in
    _ <! xlift (idx d pos) ;;
    r <! sift_down_loop (end_ + 1) end_ pos (2 * pos + 1) ;;
    let '(p, child) := r in
    p' <! (if child =? end_ - 1 then d <! xget ;; d' <! xlift (swap_data d p child) ;; _ <! xput d' ;; xret child else xret p) ;;
    H_SiftUp pos p'.
  (** binary_heap.go:123-133: the last element has left the vector before Map's function
      runs; the greatest is in the local variable item from then on. *)
  Definition H_Pop : X (list T * U) (option T) :=
    d <! xget ;;
    match d with
    | [] => xret None
    | _ =>
      item <! xlift (idx d (length d - 1)) ;;
      let rest := firstn (length d - 1) d in
      _ <! xput rest ;;
      if negb (length rest =? 0) then
        top <! xlift (idx rest 0) ;; d' <! xlift (upd rest 0 item) ;; _ <! xput d' ;;
        _ <! H_SiftDownToBottom 0 ;; xret (Some top)
      else xret (Some item)
    end.
End Heap.

(** *** BTreeMap: the end of Insert, in a leaf that has room.  The leaf is its array of
    entries (keys and values are moved together) and n, the number of them.  (The calls of
    Cmp on the way down to the leaf change nothing but when a node is split.) *)
Section BTree.
  Context {K V U : Type}.
  Variable cmp : user U (K * K) ordering.
  Notation leaf := (list (option (K * V)) * nat)%type.
  (** btree_map.go:390-411, for a leaf: greater entries are moved one place up while looking for the
      place of the new one. *)
  Fixpoint shift_loop (fuel : nat) (i : Z) (key : K) : X (leaf * U) Z :=
    match fuel with
    | O => xlift Diverge
    | S k =>
      if (0 <=? i)%Z then
        l <! xget ;; e <! xlift (idx (fst l) (Z.to_nat i)) ;;
        match e with
        | None => xret i
        | Some (x, _) =>
          o <! call cmp (x, key) ;;
          match o with
          | Greater => c <! xlift (upd (fst l) (Z.to_nat (i + 1)) e) ;; _ <! xput (c, snd l) ;; shift_loop k (i - 1) key
          | _ => xret i
          end
        end
      else xret i
    end.
  Definition L_InsertNonFull (key : K) (value : V) : X (leaf * U) unit :=
    l <! xget ;;
    i <! shift_loop (snd l + 1) (Z.of_nat (snd l) - 1) key ;;
    l <! xget ;; c <! xlift (upd (fst l) (Z.to_nat (i + 1)) (Some (key, value))) ;;
    xput (c, snd l + 1).
  (** btree_map.go:231-256, 258-285, for a leaf: the pairs, and the keys (of the first n). *)
  Definition somes {A} (l : list (option A)) : list A := flat_map (fun o => match o with Some a => [a] | None => [] end) l.
  Definition L_ToVec (l : leaf) : list (K * V) := somes (fst l).
  Definition L_ToKeyVec (l : leaf) : list K := map fst (somes (firstn (snd l) (fst l))).
End BTree.

(** *** Option *)
Section Option.
  Context {T U : Type}.
  (** option.go:302-308: the pointer to the value is represented by the value. *)
  Definition O_GetOrInsertWith (f : user U unit T) : X (option T * U) T :=
    o <! xget ;;
    match o with
    | None => v <! call f tt ;; _ <! xput (Some v) ;; xret v
    | Some v => xret v
    end.
End Option.
