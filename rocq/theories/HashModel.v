(** HashModel.v -- HashMap and HashSet (hash_map.go, hash_set.go).

    Go's built-in map is modelled by its language semantics: a list of entries, found
    with the key type's == ([keqb], which need not be reflexive: NaN).  Storing under
    a key that is present overwrites the entry, key included (the runtime updates the
    key whenever two == keys can differ, as +0 and -0 do).  [range] visits every entry
    once in an order the runtime picks: every function that ranges takes the picked
    order as an argument [ord], of which callers may only assume that it permutes.
    Two HashMap structs never share a map here; a Go copy [b := a] of the struct does,
    and is in VarModel; the nil map of a zero struct is in ZeroModel.
    A Vec used as a buffer is represented by its elements. *)
From Verif Require Import Base Effect StringModel.
Local Open Scope Z_scope.

Section Map.
  Context {K V : Type}.
  Variable keqb : K -> K -> bool.
  Definition HashMap := list (K * V).
  Definition order := list (K * V) -> list (K * V).

  (** Go: v, ok := m[k];  m[k] = v;  delete(m, k). *)
  Fixpoint lookup (m : HashMap) (k : K) : option V :=
    match m with
    | [] => None
    | (k', v) :: r => if keqb k' k then Some v else lookup r k
    end.
  Fixpoint assign (m : HashMap) (k : K) (v : V) : HashMap :=
    match m with
    | [] => [(k, v)]
    | (k', v') :: r => if keqb k' k then (k, v) :: r else (k', v') :: assign r k v
    end.
  Fixpoint delete (m : HashMap) (k : K) : HashMap :=
    match m with
    | [] => []
    | (k', v') :: r => if keqb k' k then r else (k', v') :: delete r k
    end.

  (** hash_map.go:14-21. *)
  Definition HashMapNew : HashMap := [].
  Definition HashMapWithCapacity (capacity : Z) : HashMap := [].
  (** hash_map.go:35-37: len is an int, so the conversion never wraps. *)
  Definition Len (m : HashMap) : Z := Z.of_nat (length m).
  (** hash_map.go:46-48. *)
  Definition IsEmpty (m : HashMap) : bool := Len m =? 0.
  (** hash_map.go:56-64. *)
  Definition Insert (m : HashMap) (key : K) (value : V) : HashMap * option V := (assign m key value, lookup m key).
  (** hash_map.go:71-79. *)
  Definition Remove (m : HashMap) (key : K) : HashMap * option V := (delete m key, lookup m key).
  (** hash_map.go:87-89. *)
  Definition Clear (m : HashMap) : HashMap := [].
  (** hash_map.go:96-103. *)
  Definition Get (m : HashMap) (key : K) : option V := lookup m key.
  (** hash_map.go:111-114. *)
  Definition ContainsKey (m : HashMap) (key : K) : bool := match lookup m key with Some _ => true | None => false end.
  (** hash_map.go:123-130, 238-245, 346-353: the buffer of the iterator. *)
  Definition IntoIter_vec (ord : order) (m : HashMap) : list (K * V) := fold_left (fun vec e => vec ++ [e]) (ord m) [].
  Definition Keys_vec (ord : order) (m : HashMap) : list K := fold_left (fun vec e => vec ++ [fst e]) (ord m) [].
  Definition Values_vec (ord : order) (m : HashMap) : list V := fold_left (fun vec e => vec ++ [snd e]) (ord m) [].

  (** hash_map.go:474-494: the key's Clone is looked for before the value's. *)
  Fixpoint clone_loop (cloneK : option (K -> K)) (cloneV : option (V -> V)) (es : list (K * V)) (newMap : HashMap) : out HashMap :=
    match es with
    | [] => Ret newMap
    | (k, v) :: r => ck <- of_option cloneK ;; cv <- of_option cloneV ;;
                     clone_loop cloneK cloneV r (fst (Insert newMap (ck k) (cv v)))
    end.
  Definition Clone (ord : order) (cloneK : option (K -> K)) (cloneV : option (V -> V)) (m : HashMap) : out HashMap :=
    clone_loop cloneK cloneV (ord m) HashMapNew.
  (** hash_map.go:496-515: .Unwrap() panics when V has no Eq. *)
  Fixpoint eq_loop (eq : option (V -> V -> bool)) (es : list (K * V)) (rhs : HashMap) : out bool :=
    match es with
    | [] => Ret true
    | (k, v) :: r =>
        match lookup rhs k with
        | None => Ret false
        | Some w => f <- of_option eq ;; if negb (f v w) then Ret false else eq_loop eq r rhs
        end
    end.
  Definition Eq (ord : order) (eq : option (V -> V -> bool)) (m rhs : HashMap) : out bool :=
    if negb (Len m =? Len rhs) then Ret false else eq_loop eq (ord m) rhs.

  (** hash_map.go:447-462; strings.Join(fields, ", ").  The parameters of Format are
      what Display gives, None for a type without Display. *)
  Fixpoint join (fields : list (list Z)) : list Z :=
    match fields with
    | [] => []
    | [f] => f
    | f :: r => f ++ [44; 32] ++ join r
    end.
  Fixpoint display_fields {E} (format : list Z) (params : E -> Params) (es : list E) (fields : list (list Z)) : out (list (list Z)) :=
    match es with
    | [] => Ret fields
    | e :: r => f <- Format format (params e) ;; display_fields format params r (fields ++ [f])
    end.
  Definition Display (ord : order) (dK : K -> option (list Z)) (dV : V -> option (list Z)) (m : HashMap) : out (list Z) :=
    fields <- display_fields [123; 125; 58; 32; 123; 125] (fun e => [dK (fst e); dV (snd e)]) (ord m) [] ;;
    Ret ([72; 97; 115; 104; 77; 97; 112; 123] ++ join fields ++ [125]).
End Map.
Arguments HashMap K V : clear implicits.
Arguments order K V : clear implicits.

(** *** The iterators HashMapIter, HashMapKeys, HashMapValues and HashSetIter
    (hash_map.go:117-222, 225-337, 340-445; hash_set.go:332-437): one shape, a buffer
    and a position.  Every method but Next has a value receiver: it advances a copy. *)
Section Cursor.
  Context {T : Type}.
  Variable zero : T.
  Record cursor := mkCursor { vec : list T; position : Z }.
  Definition cursor_of (v : list T) : cursor := mkCursor v 0.
  (** i-- on a USize. *)
  Definition pred64 (i : Z) : Z := if i =? 0 then 2 ^ 64 - 1 else i - 1.
  Definition Next (it : cursor) : out (cursor * option T) :=
    if Z.of_nat (length (vec it)) <=? position it then Ret (it, None)
    else x <- idx (vec it) (Z.to_nat (position it)) ;; Ret (mkCursor (vec it) (position it + 1), Some x).

  (** for { value := self.Next(); if value.IsNone() { return }; body }: at most one
      round per element, so the buffer's length bounds the rounds. *)
  Fixpoint cloop {S A} (fuel : nat) (it : cursor) (body : A -> T -> M S A) (a : A) : M S A :=
    match fuel with
    | O => fun _ => Diverge
    | Datatypes.S k => fun s => r <- Next it ;;
        match snd r with
        | None => Ret (a, s)
        | Some x => (a' <~ body a x ;; cloop k (fst r) body a') s
        end
    end.
  Definition c_loop {S A} (it : cursor) (body : A -> T -> M S A) (a : A) : M S A := cloop (length (vec it) + 1) it body a.

  Definition c_Map {S} (it : cursor) (f : T -> M S T) : M S cursor :=
    n <~ c_loop it (fun n x => y <~ f x ;; mret (n ++ [y])) [] ;; mret (cursor_of n).
  Definition c_Filter {S} (it : cursor) (f : T -> M S bool) : M S cursor :=
    n <~ c_loop it (fun n x => b <~ f x ;; mret (if (b : bool) then n ++ [x] else n)) [] ;; mret (cursor_of n).
  Definition c_Fold {S} (it : cursor) (init : T) (f : T -> T -> M S T) : M S T := c_loop it f init.
  (** newVec := VecWithLen(len); i := len - 1; newVec.AsSlice()[i] = value; i-- *)
  Definition c_Rev (it : cursor) : out cursor :=
    let n := Z.of_nat (length (vec it)) in
    r <- c_loop it (fun (acc : list T * Z) x => fun s : unit =>
           let '(v, i) := acc in
           v' <- (if i <? Z.of_nat (length v) then upd v (Z.to_nat i) x else Panic) ;; Ret ((v', pred64 i), s))
         (repeat zero (length (vec it)), pred64 n) tt ;;
    Ret (cursor_of (fst (fst r))).
  Definition c_CollectToVec (it : cursor) : list T := vec it.
  (** The list is represented by its elements. *)
  Definition c_CollectToLinkedList (it : cursor) : out (list T) :=
    r <- c_loop it (fun l x => mret (l ++ [x])) [] tt ;; Ret (fst r).
End Cursor.
Arguments cursor T : clear implicits.

(** *** HashSet *)
Section Set_.
  Context {K : Type}.
  Variable keqb : K -> K -> bool.
  (** hash_set.go:9-11. *)
  Definition HashSet := HashMap K unit.
  Definition sorder := order K unit.

  (** hash_set.go:14-21. *)
  Definition HashSetNew : HashSet := HashMapNew.
  Definition HashSetWithCapacity (capacity : Z) : HashSet := HashMapWithCapacity capacity.
  (** hash_set.go:24-31. *)
  Definition AsSlice (ord : sorder) (s : HashSet) : list K := fold_left (fun r e => r ++ [fst e]) (ord s) [].
  (** hash_set.go:72-75. *)
  Definition sInsert (s : HashSet) (value : K) : HashSet * bool :=
    let r := Insert keqb s value tt in (fst r, match snd r with None => true | Some _ => false end).
  (** hash_set.go:34-41. *)
  Definition HashSetFromSlice (slice : list K) : HashSet := fold_left (fun s x => fst (sInsert s x)) slice HashSetNew.
  (** hash_set.go:49-51, 60-62. *)
  Definition sLen (s : HashSet) : Z := Len s.
  Definition sIsEmpty (s : HashSet) : bool := IsEmpty s.
  (** hash_set.go:85-88. *)
  Definition sRemove (s : HashSet) (value : K) : HashSet * bool :=
    let r := Remove keqb s value in (fst r, match snd r with Some _ => true | None => false end).
  (** hash_set.go:97-99. *)
  Definition sClear (s : HashSet) : HashSet := Clear s.
  (** hash_set.go:109-116: the answer is the argument, not the stored key. *)
  Definition sGet (s : HashSet) (value : K) : option K := match Get keqb s value with Some _ => Some value | None => None end.
  (** hash_set.go:126-128. *)
  Definition Contains (s : HashSet) (value : K) : bool := ContainsKey keqb s value.
  (** hash_set.go:338-345. *)
  Definition sIntoIter (ord : sorder) (s : HashSet) : cursor K :=
    cursor_of (fold_left (fun vec e => vec ++ [fst e]) (ord s) []).

  (** A loop over iter.Next() whose body may return. *)
  Fixpoint forall_loop (p : K -> bool) (l : list K) : bool :=
    match l with [] => true | x :: r => if negb (p x) then false else forall_loop p r end.
  Definition insert_loop (p : K -> bool) (l : list K) (s : HashSet) : HashSet :=
    fold_left (fun s x => if p x then fst (sInsert s x) else s) l s.
  (** The values iter.Next() delivers from a new iterator. *)
  Definition elements (ord : sorder) (s : HashSet) : list K := vec (sIntoIter ord s).

  (** hash_set.go:143-160. *)
  Definition IsSubset (ord : sorder) (s other : HashSet) : bool :=
    if sLen other <? sLen s then false else forall_loop (fun x => Contains other x) (elements ord s).
  (** hash_set.go:175-177. *)
  Definition IsSuperset (ord : sorder) (s other : HashSet) : bool := IsSubset ord other s.
  (** hash_set.go:195-210. *)
  Definition Intersection (ord : sorder) (s other : HashSet) : HashSet :=
    insert_loop (fun x => Contains other x) (elements ord s) HashSetNew.
  (** hash_set.go:223-236. *)
  Definition IsDisjoint (ord : sorder) (s other : HashSet) : bool :=
    forall_loop (fun x => negb (Contains other x)) (elements ord s).
  (** hash_set.go:255-281. *)
  Definition Union (ord1 ord2 : sorder) (s other : HashSet) : HashSet :=
    insert_loop (fun _ => true) (elements ord2 other) (insert_loop (fun _ => true) (elements ord1 s) HashSetNew).
  (** hash_set.go:299-329. *)
  Definition SymmetricDifference (ord1 ord2 : sorder) (s other : HashSet) : HashSet :=
    insert_loop (fun x => negb (Contains s x)) (elements ord2 other)
      (insert_loop (fun x => negb (Contains other x)) (elements ord1 s) HashSetNew).

  (** hash_set.go:439-454. *)
  Definition sDisplay (ord : sorder) (dK : K -> option (list Z)) (s : HashSet) : out (list Z) :=
    fields <- display_fields [123; 125] (fun e : K * unit => [dK (fst e)]) (ord s) [] ;;
    Ret ([72; 97; 115; 104; 83; 101; 116; 123] ++ join fields ++ [125]).
  (** hash_set.go:466-481. *)
  Fixpoint sclone_loop (cloneK : option (K -> K)) (es : list (K * unit)) (r : HashSet) : out HashSet :=
    match es with
    | [] => Ret r
    | (k, _) :: es' => ck <- of_option cloneK ;; sclone_loop cloneK es' (fst (sInsert r (ck k)))
    end.
  Definition sClone (ord : sorder) (cloneK : option (K -> K)) (s : HashSet) : out HashSet := sclone_loop cloneK (ord s) HashSetNew.
  (** hash_set.go:483-496. *)
  Definition sEq (ord : sorder) (s rhs : HashSet) : bool :=
    if negb (Len s =? Len rhs) then false else forall_loop (fun x => Contains rhs x) (map fst (ord s)).
End Set_.
Arguments HashSet K : clear implicits.
Arguments sorder K : clear implicits.
