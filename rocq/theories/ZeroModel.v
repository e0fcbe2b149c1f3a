(** ZeroModel.v -- variables of gost's struct types that were declared and not made by a
    constructor: hash_map.go, hash_set.go, vec_deque.go, sync.go and the constructors of the
    other containers.  A call that panics is taken to be recovered: the variable is then
    what the panic left. *)
From Verif Require Import Base Effect VecModel PanicModel.
From Verif Require HashModel HashSpec HashHistory DequeModel DequeSpec DequeHistory ZeroSpec ListModel BTreeModel HeapModel OptionModel.
Local Open Scope Z_scope.

(** *** HashMap (hash_map.go:9-11): [None] is the nil map.  Reading, ranging over, taking
    the length of and deleting from a nil map do what they do for an empty one; storing
    into it panics (the language's rules). *)
Section Map.
  Context {K V : Type}.
  Variable keqb : K -> K -> bool.
  Definition gomap := option (HashModel.HashMap K V).
  Definition entries (m : gomap) : HashModel.HashMap K V := match m with None => [] | Some l => l end.
  (** var m HashMap[K, V]. *)
  Definition zero_map : gomap := None.
  (** hash_map.go:56-64: the panic comes from the second line; nothing is changed. *)
  Definition z_Insert (m : gomap) (key : K) (value : V) : gomap * option (option V) :=
    match m with
    | None => (None, None)
    | Some l => let r := HashModel.Insert keqb l key value in (Some (fst r), Some (snd r))
    end.
  (** hash_map.go:71-79: delete on a nil map does nothing. *)
  Definition z_Remove (m : gomap) (key : K) : gomap * option V :=
    (match m with None => None | Some l => Some (fst (HashModel.Remove keqb l key)) end, snd (HashModel.Remove keqb (entries m) key)).
  (** hash_map.go:87-89. *)
  Definition z_Clear (m : gomap) : gomap := Some (HashModel.Clear (entries m)).
  (** The methods that only read (hash_map.go:35-37, 46-48, 96-103, 111-114, 123-130,
      238-245, 346-353) see the entries. *)
  Definition z_exec (ord : HashModel.order K V) (m : gomap) (o : @HashSpec.mop K V) : gomap * option (@HashSpec.manswer K V) :=
    match o with
    | HashSpec.MInsert k v => let r := z_Insert m k v in (fst r, option_map HashSpec.Value (snd r))
    | HashSpec.MRemove k => let r := z_Remove m k in (fst r, Some (HashSpec.Value (snd r)))
    | HashSpec.MClear => (z_Clear m, Some HashSpec.Done)
    | o => (m, Some (snd (HashHistory.exec keqb ord (entries m) o)))
    end.
  (** A history of calls, each panic recovered ([None]).  Models no gost function. *)
  Fixpoint z_run (ords : nat -> HashModel.order K V) (n : nat) (m : gomap) (ops : list (@HashSpec.mop K V)) :
    gomap * list (option (@HashSpec.manswer K V)) :=
    match ops with
    | [] => (m, [])
    | o :: r => let '(m', a) := z_exec (ords n) m o in
                let '(m'', rs) := z_run ords (S n) m' r in (m'', a :: rs)
    end.
End Map.
Arguments gomap K V : clear implicits.

(** *** HashSet (hash_set.go:9-11), any number of variables. *)
Section Sets.
  Context {K : Type}.
  Variable keqb : K -> K -> bool.
  Variable clone : K -> K.
  Definition goset := gomap K unit.
  (** hash_set.go:72-75. *)
  Definition z_sInsert (s : goset) (value : K) : goset * option bool :=
    let r := z_Insert keqb s value tt in
    (fst r, option_map (fun o => match o with None => true | Some _ => false end) (snd r)).
  (** hash_set.go:85-88. *)
  Definition z_sRemove (s : goset) (value : K) : goset * bool :=
    let r := z_Remove keqb s value in (fst r, match snd r with Some _ => true | None => false end).
  (** hash_set.go:97-99. *)
  Definition z_sClear (s : goset) : goset := z_Clear s.
  (** The other methods read their arguments (hash_set.go:24-62, 109-496); those that
      answer a set build it in one made by HashSetNew. *)
  Definition z_sexec (ord : nat -> HashModel.sorder K) (hs : list goset) (o : @ZeroSpec.vop K) : list goset * option (@HashSpec.sanswer K) :=
    let at_ i := nth i hs (Some HashModel.HashSetNew) in
    match o with
    | ZeroSpec.Declare => (hs ++ [zero_map], Some HashSpec.SDone)
    | ZeroSpec.Do (HashSpec.SInsert i x) => let r := z_sInsert (at_ i) x in (list_set hs i (fst r), option_map HashSpec.STruth (snd r))
    | ZeroSpec.Do (HashSpec.SRemove i x) => let r := z_sRemove (at_ i) x in (list_set hs i (fst r), Some (HashSpec.STruth (snd r)))
    | ZeroSpec.Do (HashSpec.SClear i) => (list_set hs i (z_sClear (at_ i)), Some HashSpec.SDone)
    | ZeroSpec.Do o =>
        match HashHistory.sexec keqb clone ord (map entries hs) o with
        | Ret (hs', a) => (hs ++ map Some (skipn (length hs) hs'), Some a)
        | _ => (hs, None)
        end
    end.
  Fixpoint z_srun (ords : nat -> nat -> HashModel.sorder K) (n : nat) (hs : list goset) (ops : list (@ZeroSpec.vop K)) :
    list goset * list (option (@HashSpec.sanswer K)) :=
    match ops with
    | [] => (hs, [])
    | o :: r => let '(hs', a) := z_sexec (ords n) hs o in
                let '(hs'', rs) := z_srun ords (S n) hs' r in (hs'', a :: rs)
    end.
End Sets.

(** *** VecDeque (vec_deque.go:14-18): a nil buffer has no cells.  [None]: the call panicked. *)
Section Deque.
  Context {T : Type}.
  Variable zero : T.
  Variable limit : Z.
  Variable eqb : T -> T -> bool.
  Notation VecDeque := (DequeModel.VecDeque T).
  (** var d VecDeque[T]. *)
  Definition zero_deque : VecDeque := DequeModel.mkDeque [] 0 0.

  (** The two calls that can panic half-way keep what they have stored.
      vec_deque.go:590-608: the new buffer is in place before the last test. *)
  Definition z_Grow : X (VecDeque * unit) unit :=
    d <! xget ;;
    if negb (DequeModel.IsFull d) then xlift Panic
    else
      let oldCapacity := DequeModel.Capacity d in
      b <! xlift (DequeModel.make zero limit (DequeModel.u64 (oldCapacity * 2))) ;;
      let d1 := DequeModel.mkDeque (DequeModel.copy_into b (DequeModel.buffer d)) (DequeModel.dlen d) (DequeModel.head d) in
      _ <! xput d1 ;;
      d2 <! xlift (DequeModel.HandleCapacityIncrease d1 oldCapacity) ;;
      _ <! xput d2 ;;
      if DequeModel.IsFull d2 then xlift Panic else xret tt.
  (** vec_deque.go:102-110: head is stored before the element. *)
  Definition z_PushFront (value : T) : X (VecDeque * unit) unit :=
    d0 <! xget ;;
    _ <! (if DequeModel.IsFull d0 then z_Grow else xret tt) ;;
    d <! xget ;;
    let h := DequeModel.WrapSub d (DequeModel.head d) 1 in
    _ <! xput (DequeModel.mkDeque (DequeModel.buffer d) (DequeModel.dlen d) h) ;;
    b <! xlift (DequeModel.bupd (DequeModel.buffer d) h value) ;;
    xput (DequeModel.mkDeque b (DequeModel.u64 (DequeModel.dlen d + 1)) h).
  (** vec_deque.go:118-125. *)
  Definition z_PushBack (value : T) : X (VecDeque * unit) unit :=
    d0 <! xget ;;
    _ <! (if DequeModel.IsFull d0 then z_Grow else xret tt) ;;
    d <! xget ;;
    b <! xlift (DequeModel.bupd (DequeModel.buffer d) (DequeModel.ToPhysicalIndex d (DequeModel.dlen d)) value) ;;
    xput (DequeModel.mkDeque b (DequeModel.u64 (DequeModel.dlen d + 1)) (DequeModel.head d)).
  (** The other calls panic before they store anything: Clear and Reserve in make
      (vec_deque.go:82-94, 336-340), Swap at its first index (247-256). *)
  Definition z_dexec (d : VecDeque) (o : @DequeSpec.dop T) : VecDeque * option (@DequeSpec.danswer T) :=
    match o with
    | DequeSpec.PushFront x => let r := z_PushFront x (d, tt) in (fst (fst r), option_map (fun _ => DequeSpec.Done) (snd r))
    | DequeSpec.PushBack x => let r := z_PushBack x (d, tt) in (fst (fst r), option_map (fun _ => DequeSpec.Done) (snd r))
    | o => match DequeHistory.exec zero limit eqb d o with
           | Ret (d', a) => (d', Some a)
           | _ => (d, None)
           end
    end.
  Fixpoint z_drun (d : VecDeque) (ops : list (@DequeSpec.dop T)) : VecDeque * list (option (@DequeSpec.danswer T)) :=
    match ops with
    | [] => (d, [])
    | o :: r => let '(d', a) := z_dexec d o in let '(d'', rs) := z_drun d' r in (d'', a :: rs)
    end.
End Deque.

(** *** Mutex (sync.go:11-14): [None] is the nil pointer.  The lock of a zero Mutex is a
    zero sync.Mutex, which is unlocked. *)
Record mutex := mkMutex { value : option nat; held : bool }.
Definition zero_mutex : mutex := mkMutex None false.
(** sync.go:16-21, the value being stored at the address a. *)
Definition new_mutex (a : nat) : mutex := mkMutex (Some a) false.
(** sync.go:28-31; [None] outside: the caller waits. *)
Definition m_Lock (m : mutex) : option (mutex * option nat) :=
  if held m then None else Some (mkMutex (value m) true, value m).
(** sync.go:59-65: Ok holds the pointer, whatever it is. *)
Definition m_TryLock (m : mutex) : mutex * @OptionModel.Result (option nat) unit :=
  if held m then (m, OptionModel.Err (Some tt)) else (mkMutex (value m) true, OptionModel.Ok (value m)).
(** Reading through the pointer that Lock gave. *)
Definition load {T} (mem : list T) (p : option nat) : out T := a <- of_option p ;; idx mem a.

(** *** The other containers: a zero struct.  vec.go:11-13: a nil slice has no cells. *)
Definition zero_vec {T} (m : VecModel.mem T) : VecModel.mem T * VecModel.slice := (m ++ [[]], mkSlice (length m) 0).
(** linked_list.go:6-10. *)
Definition zero_list : ListModel.LinkedList := ListModel.mkList None None 0.
(** btree_map.go:16-19; btree_set.go:9-11. *)
Definition zero_tree : BTreeModel.BTreeMap := BTreeModel.mkMap None 0.
(** result.go:10-13; option.go:10-12. *)
Definition zero_result {T E} : @OptionModel.Result T E := OptionModel.mkR None None.
Definition zero_option {T} : option T := None.
