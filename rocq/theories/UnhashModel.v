(** UnhashModel.v -- HashMap and HashSet (hash_map.go, hash_set.go) with keys of an interface
    type.  Since Go 1.20 (go.mod) such a type satisfies [comparable]; a key that cannot be
    hashed makes the runtime panic when a map is read, written or deleted from with it, also
    when the map is empty.  A panic is taken to be recovered by the caller. *)
From Verif Require Import Base Effect PanicModel HashModel HashSpec UnhashSpec.
Local Open Scope Z_scope.

Section Keys.
  Context {H U : Type}.
  Notation key := (interface H U).
  (** == on values that can be hashed. *)
  Variable heq : H -> H -> bool.

  (** The hash of a key, and == on two keys: the runtime's rules. *)
  Definition hash (k : key) : out unit := match k with Plain _ => Ret tt | Unhashable _ => Panic end.
  Definition same (a b : key) : out bool :=
    match a, b with
    | Plain x, Plain y => Ret (heq x y)
    | Unhashable _, Unhashable _ => Panic
    | _, _ => Ret false
    end.

  Section Map.
    Context {V : Type}.
    Notation gmap := (HashMap key V).
    (** Go: v, ok := m[k];  m[k] = v;  delete(m, k): the key is hashed first. *)
    Fixpoint walk (m : gmap) (k : key) : out (option V) :=
      match m with
      | [] => Ret None
      | (k', v) :: r => b <- same k' k ;; if (b : bool) then Ret (Some v) else walk r k
      end.
    Fixpoint over (m : gmap) (k : key) (v : V) : out gmap :=
      match m with
      | [] => Ret [(k, v)]
      | (k', v') :: r => b <- same k' k ;; if (b : bool) then Ret ((k, v) :: r) else r' <- over r k v ;; Ret ((k', v') :: r')
      end.
    Fixpoint cut (m : gmap) (k : key) : out gmap :=
      match m with
      | [] => Ret []
      | (k', v') :: r => b <- same k' k ;; if (b : bool) then Ret r else r' <- cut r k ;; Ret ((k', v') :: r')
      end.
    Definition g_lookup (m : gmap) (k : key) : out (option V) := _ <- hash k ;; walk m k.
    Definition g_assign (m : gmap) (k : key) (v : V) : out gmap := _ <- hash k ;; over m k v.
    Definition g_delete (m : gmap) (k : key) : out gmap := _ <- hash k ;; cut m k.

    (** hash_map.go:56-64. *)
    Definition u_Insert (k : key) (v : V) : X (gmap * unit) (option V) :=
      m <! xget ;; old <! xlift (g_lookup m k) ;; m' <! xlift (g_assign m k v) ;; _ <! xput m' ;; xret old.
    (** hash_map.go:71-79. *)
    Definition u_Remove (k : key) : X (gmap * unit) (option V) :=
      m <! xget ;; old <! xlift (g_lookup m k) ;; m' <! xlift (g_delete m k) ;; _ <! xput m' ;; xret old.
    (** hash_map.go:96-103. *)
    Definition u_Get (k : key) : X (gmap * unit) (option V) := m <! xget ;; xlift (g_lookup m k).
    (** hash_map.go:111-114. *)
    Definition u_ContainsKey (k : key) : X (gmap * unit) bool :=
      m <! xget ;; o <! xlift (g_lookup m k) ;; xret (match o with Some _ => true | None => false end).

    (** A call on a map: the map afterwards, and the answer or [None] for a panic.  The
        other methods do not look at keys: HashModel.v. *)
    Definition on {A} (f : X (gmap * unit) A) (g : A -> @manswer key V) (m : gmap) : gmap * option (@manswer key V) :=
      let r := f (m, tt) in (fst (fst r), option_map g (snd r)).
    Definition u_exec (ord : order key V) (m : gmap) (o : @mop key V) : gmap * option (@manswer key V) :=
      match o with
      | MInsert k v => on (u_Insert k v) Value m
      | MRemove k => on (u_Remove k) Value m
      | MGet k => on (u_Get k) Value m
      | MContainsKey k => on (u_ContainsKey k) Truth m
      | MClear => (Clear m, Some Done)
      | MLen => (m, Some (Number (Len m)))
      | MIsEmpty => (m, Some (Truth (IsEmpty m)))
      | MEntries => (m, Some (Entries (IntoIter_vec ord m)))
      | MKeys => (m, Some (KeyList (Keys_vec ord m)))
      | MValues => (m, Some (ValueList (Values_vec ord m)))
      end.
    Fixpoint u_run (ords : nat -> order key V) (n : nat) (m : gmap) (ops : list (@mop key V)) : gmap * list (option (@manswer key V)) :=
      match ops with
      | [] => (m, [])
      | o :: r => let '(m', a) := u_exec (ords n) m o in
                  let '(m'', rs) := u_run ords (S n) m' r in (m'', a :: rs)
      end.

    (** Inserting into a map that only the running function holds. *)
    Definition local_insert (m : gmap) (k : key) (v : V) : out gmap :=
      match u_Insert k v (m, tt) with (c, Some _) => Ret (fst c) | (_, None) => Panic end.
    (** hash_map.go:474-494. *)
    Fixpoint u_clone_loop (cloneK : option (key -> key)) (cloneV : option (V -> V)) (es : list (key * V)) (newMap : gmap) : out gmap :=
      match es with
      | [] => Ret newMap
      | (k, v) :: r => ck <- of_option cloneK ;; cv <- of_option cloneV ;;
                       newMap' <- local_insert newMap (ck k) (cv v) ;; u_clone_loop cloneK cloneV r newMap'
      end.
    Definition u_Clone (ord : order key V) (cloneK : option (key -> key)) (cloneV : option (V -> V)) (m : gmap) : out gmap :=
      u_clone_loop cloneK cloneV (ord m) HashMapNew.
    (** hash_map.go:496-515. *)
    Fixpoint u_eq_loop (eq : option (V -> V -> bool)) (es : list (key * V)) (rhs : gmap) : out bool :=
      match es with
      | [] => Ret true
      | (k, v) :: r =>
          o <- g_lookup rhs k ;;
          match o with
          | None => Ret false
          | Some w => f <- of_option eq ;; if negb (f v w) then Ret false else u_eq_loop eq r rhs
          end
      end.
    Definition u_Eq (ord : order key V) (eq : option (V -> V -> bool)) (m rhs : gmap) : out bool :=
      if negb (Len m =? Len rhs) then Ret false else u_eq_loop eq (ord m) rhs.
  End Map.

  (** *** HashSet (hash_set.go:9-11) *)
  Notation gset := (HashMap key unit).
  Variable clone : key -> key.
  (** hash_set.go:72-75, 85-88, 126-128, 109-116. *)
  Definition us_Insert (x : key) : X (gset * unit) bool :=
    o <! u_Insert x tt ;; xret (match o with None => true | Some _ => false end).
  Definition us_Remove (x : key) : X (gset * unit) bool :=
    o <! u_Remove x ;; xret (match o with Some _ => true | None => false end).
  Definition us_Contains (x : key) : X (gset * unit) bool := u_ContainsKey x.
  Definition us_Get (x : key) : X (gset * unit) (option key) :=
    o <! u_Get x ;; xret (match o with Some _ => Some x | None => None end).
  (** The same on sets that do not change, or that only the running function holds. *)
  Definition contains (s : gset) (x : key) : out bool :=
    match us_Contains x (s, tt) with (_, Some b) => Ret b | (_, None) => Panic end.
  Definition add (s : gset) (x : key) : out gset := local_insert s x tt.

  (** Loops over iter.Next() with a body that looks up, and perhaps inserts. *)
  Fixpoint u_forall_loop (p : key -> out bool) (l : list key) : out bool :=
    match l with [] => Ret true | x :: r => b <- p x ;; if negb b then Ret false else u_forall_loop p r end.
  Fixpoint u_insert_loop (p : key -> out bool) (l : list key) (s : gset) : out gset :=
    match l with
    | [] => Ret s
    | x :: r => b <- p x ;; s' <- (if (b : bool) then add s x else Ret s) ;; u_insert_loop p r s'
    end.
  Definition not_ (m : out bool) : out bool := b <- m ;; Ret (negb b).

  (** hash_set.go:34-41. *)
  Definition u_FromSlice (slice : list key) : out gset := u_insert_loop (fun _ => Ret true) slice HashSetNew.
  (** hash_set.go:143-160, 175-177. *)
  Definition u_IsSubset (ord : sorder key) (s other : gset) : out bool :=
    if sLen other <? sLen s then Ret false else u_forall_loop (contains other) (elements ord s).
  Definition u_IsSuperset (ord : sorder key) (s other : gset) : out bool := u_IsSubset ord other s.
  (** hash_set.go:195-210, 223-236. *)
  Definition u_Intersection (ord : sorder key) (s other : gset) : out gset :=
    u_insert_loop (contains other) (elements ord s) HashSetNew.
  Definition u_IsDisjoint (ord : sorder key) (s other : gset) : out bool :=
    u_forall_loop (fun x => not_ (contains other x)) (elements ord s).
  (** hash_set.go:255-281, 299-329. *)
  Definition u_Union (ord1 ord2 : sorder key) (s other : gset) : out gset :=
    r <- u_insert_loop (fun _ => Ret true) (elements ord1 s) HashSetNew ;;
    u_insert_loop (fun _ => Ret true) (elements ord2 other) r.
  Definition u_SymmetricDifference (ord1 ord2 : sorder key) (s other : gset) : out gset :=
    r <- u_insert_loop (fun x => not_ (contains other x)) (elements ord1 s) HashSetNew ;;
    u_insert_loop (fun x => not_ (contains s x)) (elements ord2 other) r.
  (** hash_set.go:466-481, for keys that have Clone. *)
  Definition u_sClone (ord : sorder key) (s : gset) : out gset :=
    u_insert_loop (fun _ => Ret true) (map (fun e => clone (fst e)) (ord s)) HashSetNew.
  (** hash_set.go:483-496. *)
  Definition u_sEq (ord : sorder key) (s rhs : gset) : out bool :=
    if negb (Len s =? Len rhs) then Ret false else u_forall_loop (contains rhs) (map fst (ord s)).

  (** A call on any number of sets; [None]: it panicked. *)
  Definition at_set {A} (hs : list gset) (i : nat) (f : X (gset * unit) A) (g : A -> @sanswer key) : list gset * option (@sanswer key) :=
    let r := f (nth i hs HashSetNew, tt) in (list_set hs i (fst (fst r)), option_map g (snd r)).
  Definition made (hs : list gset) (r : out gset) : list gset * option (@sanswer key) :=
    match r with Ret s => (hs ++ [s], Some SDone) | _ => (hs, None) end.
  Definition told (hs : list gset) (r : out bool) : list gset * option (@sanswer key) :=
    match r with Ret b => (hs, Some (STruth b)) | _ => (hs, None) end.
  Definition u_sexec (ord : nat -> sorder key) (hs : list gset) (o : @sop key) : list gset * option (@sanswer key) :=
    let at_ i := nth i hs HashSetNew in
    match o with
    | SNew => (hs ++ [HashSetNew], Some SDone)
    | SFromSlice xs => made hs (u_FromSlice xs)
    | SUnion i j => made hs (u_Union (ord 0%nat) (ord 1%nat) (at_ i) (at_ j))
    | SIntersection i j => made hs (u_Intersection (ord 0%nat) (at_ i) (at_ j))
    | SSymmetricDifference i j => made hs (u_SymmetricDifference (ord 0%nat) (ord 1%nat) (at_ i) (at_ j))
    | SClone i => made hs (u_sClone (ord 0%nat) (at_ i))
    | SInsert i x => at_set hs i (us_Insert x) STruth
    | SRemove i x => at_set hs i (us_Remove x) STruth
    | SClear i => (list_set hs i (sClear (at_ i)), Some SDone)
    | SContains i x => at_set hs i (us_Contains x) STruth
    | SGet i x => at_set hs i (us_Get x) SFound
    | SLen i => (hs, Some (SNumber (sLen (at_ i))))
    | SIsEmpty i => (hs, Some (STruth (sIsEmpty (at_ i))))
    | SIsSubset i j => told hs (u_IsSubset (ord 0%nat) (at_ i) (at_ j))
    | SIsSuperset i j => told hs (u_IsSuperset (ord 0%nat) (at_ i) (at_ j))
    | SIsDisjoint i j => told hs (u_IsDisjoint (ord 0%nat) (at_ i) (at_ j))
    | SEq i j => told hs (u_sEq (ord 0%nat) (at_ i) (at_ j))
    | SElements i => (hs, Some (SList (elements (ord 0%nat) (at_ i))))
    | SAsSlice i => (hs, Some (SList (AsSlice (ord 0%nat) (at_ i))))
    end.
  Fixpoint u_srun (ords : nat -> nat -> sorder key) (n : nat) (hs : list gset) (ops : list (@sop key)) :
    list gset * list (option (@sanswer key)) :=
    match ops with
    | [] => (hs, [])
    | o :: r => let '(hs', a) := u_sexec (ords n) hs o in
                let '(hs'', rs) := u_srun ords (S n) hs' r in (hs'', a :: rs)
    end.
End Keys.
