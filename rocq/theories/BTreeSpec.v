(** BTreeSpec.v -- what an ordered map should do, and the simple machine that the
    code turns out to be while it has a single node. *)
From Verif Require Import Base.
Local Open Scope nat_scope.

Section Spec.
  Context {K V : Type}.
  Variable cmp : K -> K -> ordering.

  Inductive bop :=
  | BInsert (k : K) (v : V) | BRemove (k : K) | BGet (k : K) | BContainsKey (k : K) | BLen | BIsEmpty | BClear
  | BEntries | BKeys | BValues.
  Inductive banswer :=
  | Done | Value (o : option V) | Truth (b : bool) | Number (z : Z)
  | Entries (es : list (K * V)) | KeyList (ks : list K) | ValueList (vs : list V).

  (** *** An ordered map: its entries in ascending order of the keys *)
  Fixpoint get (k : K) (l : list (K * V)) : option V :=
    match l with
    | [] => None
    | (k', v) :: r => match cmp k k' with Equal => Some v | _ => get k r end
    end.
  (** A key that is present keeps its place (and itself); its value is replaced. *)
  Fixpoint put (k : K) (v : V) (l : list (K * V)) : list (K * V) :=
    match l with
    | [] => [(k, v)]
    | (k', v') :: r =>
        match cmp k k' with
        | Less => (k, v) :: l
        | Equal => (k', v) :: r
        | Greater => (k', v') :: put k v r
        end
    end.
  Fixpoint drop (k : K) (l : list (K * V)) : list (K * V) :=
    match l with
    | [] => []
    | (k', v') :: r => match cmp k k' with Equal => r | _ => (k', v') :: drop k r end
    end.
  Definition is_some {A} (o : option A) : bool := match o with Some _ => true | None => false end.
  Definition map_step (l : list (K * V)) (o : bop) : list (K * V) * banswer :=
    match o with
    | BInsert k v => (put k v l, Value (get k l))
    | BRemove k => (drop k l, Value (get k l))
    | BGet k => (l, Value (get k l))
    | BContainsKey k => (l, Truth (is_some (get k l)))
    | BLen => (l, Number (Z.of_nat (length l)))
    | BIsEmpty => (l, Truth (length l =? 0))
    | BClear => ([], Done)
    | BEntries => (l, Entries l)
    | BKeys => (l, KeyList (map fst l))
    | BValues => (l, ValueList (map snd l))
    end.
  Fixpoint map_run (l : list (K * V)) (ops : list bop) : list (K * V) * list banswer :=
    match ops with
    | [] => (l, [])
    | o :: r => let '(l', a) := map_step l o in let '(l'', rs) := map_run l' r in (l'', a :: rs)
    end.
  (** The histories on which the code is right: no Remove, and a key that is new to a
      map of eleven or more keys is smaller than the eleventh of them; 21 keys at most. *)
  Definition allowed (l : list (K * V)) (o : bop) : Prop :=
    match o with
    | BRemove _ => False
    | BInsert k _ =>
        get k l = None -> 11 <= length l -> length l <= 20 /\ exists e, nth_error l 10 = Some e /\ cmp k (fst e) = Less
    | _ => True
    end.
  Fixpoint gentle (l : list (K * V)) (ops : list bop) : Prop :=
    match ops with
    | [] => True
    | o :: r => allowed l o /\ gentle (fst (map_step l o)) r
    end.
  (** Strictly ascending. *)
  Fixpoint sorted (l : list (K * V)) : Prop :=
    match l with
    | [] => True
    | e :: r => (forall e', In e' r -> cmp (fst e) (fst e') = Less) /\ sorted r
    end.

  (** An answer that only speaks of entries that satisfy P. *)
  Definition truthful (P : K -> V -> Prop) (o : bop) (a : banswer) : Prop :=
    match o, a with
    | BInsert k _, Value (Some v) | BGet k, Value (Some v) => P k v
    | BRemove _, Value (Some v) => exists k, P k v
    | BEntries, Entries es => forall k v, In (k, v) es -> P k v
    | BKeys, KeyList ks => forall k, In k ks -> exists v, P k v
    | BValues, ValueList vs => forall v, In v vs -> exists k, P k v
    | _, _ => True
    end.

  (** *** What Remove does to a map of at most eleven keys *)
  (** The value of the first key above k. *)
  Fixpoint above (k : K) (l : list (K * V)) : option V :=
    match l with
    | [] => None
    | (k', v) :: r => match cmp k k' with Less => Some v | _ => above k r end
    end.
  (** Remove answers with the value of the next key, unless k is the last one. *)
  Definition removed_value (k : K) (l : list (K * V)) : option V :=
    match get k l, above k l with
    | None, _ => None
    | Some _, Some w => Some w
    | Some v, None => Some v
    end.
  Definition mild_step (l : list (K * V)) (o : bop) : list (K * V) * banswer :=
    match o with
    | BRemove k => (drop k l, Value (removed_value k l))
    | _ => map_step l o
    end.
  (** A Remove takes a key that is absent, or is the only one, or is not the greatest;
      a new key finds at most ten others. *)
  Definition mild (l : list (K * V)) (o : bop) : Prop :=
    match o with
    | BRemove k => get k l = None \/ length l = 1 \/ above k l <> None
    | BInsert k _ => get k l = None -> length l < 11
    | _ => True
    end.
  Fixpoint mild_all (l : list (K * V)) (ops : list bop) : Prop :=
    match ops with
    | [] => True
    | o :: r => mild l o /\ mild_all (fst (mild_step l o)) r
    end.
  Fixpoint mild_run (l : list (K * V)) (ops : list bop) : list (K * V) * list banswer :=
    match ops with
    | [] => (l, [])
    | o :: r => let '(l', a) := mild_step l o in let '(l'', rs) := mild_run l' r in (l'', a :: rs)
    end.

  (** *** Sets, given by lists of elements *)
  Definition mem (x : K) (l : list K) : bool := existsb (fun y => match cmp x y with Equal => true | _ => false end) l.
  Fixpoint distinct (l : list K) : list K :=
    match l with [] => [] | x :: r => if mem x r then distinct r else x :: distinct r end.
  (** Strictly ascending. *)
  Fixpoint ascending (l : list K) : Prop :=
    match l with [] => True | x :: r => (forall y, In y r -> cmp x y = Less) /\ ascending r end.

  (** *** The one-node machine: eleven slots.  [live] are the first n slots, [rest] the
      others, which may still hold removed entries ("ghosts"); [count] is what Len says. *)
  Record slots := mkSlots { live : list (K * V); rest : list (option (K * V)); count : Z }.
  Definition all_slots (s : slots) : list (option (K * V)) := map Some (live s) ++ rest s.
  Definition no_slots : slots := mkSlots [] (repeat None 11) 0.
  (** Search: skip smaller keys, up to the first empty slot, live or not. *)
  Fixpoint seek (k : K) (l : list (option (K * V))) (i : nat) : option nat :=
    match l with
    | Some e :: r => match cmp k (fst e) with Greater => seek k r (S i) | Equal => Some i | Less => None end
    | _ => None
    end.
  (** Place a new entry before the greater ones at the end. *)
  Fixpoint place_rev (e : K * V) (rl : list (K * V)) : list (K * V) :=
    match rl with
    | [] => [e]
    | x :: r => match cmp (fst x) (fst e) with Greater => x :: place_rev e r | _ => e :: rl end
    end.
  Definition place (e : K * V) (l : list (K * V)) : list (K * V) := rev (place_rev e (rev l)).
  Definition slot_value (l : list (option (K * V))) (i : nat) : option V :=
    match nth_error l i with Some (Some e) => Some (snd e) | _ => None end.
  Definition revalue (s : slots) (i : nat) (v : V) : slots :=
    if i <? length (live s) then
      mkSlots (match nth_error (live s) i with Some e => list_set (live s) i (fst e, v) | None => live s end) (rest s) (count s)
    else
      mkSlots (live s)
        (match nth_error (rest s) (i - length (live s)) with
         | Some (Some e) => list_set (rest s) (i - length (live s)) (Some (fst e, v)) | _ => rest s end) (count s).
  (** The first live key that is not smaller, if it is equal. *)
  Fixpoint live_index (k : K) (l : list (K * V)) (i : nat) : option nat :=
    match l with
    | [] => None
    | e :: r => match cmp (fst e) k with Less => live_index k r (S i) | Equal => Some i | Greater => None end
    end.
  (** Take live entry i out: the last one stays behind as a ghost; another one closes the
      gap and leaves an empty slot. *)
  Definition take_out (s : slots) (i : nat) : slots :=
    mkSlots (firstn i (live s) ++ skipn (S i) (live s))
            ((if S i =? length (live s) then nth i (map Some (live s)) None else None) :: rest s) (count s).
  Definition wrap64 (z : Z) : Z := (z mod 2 ^ 64)%Z.
  Definition emptied (s : slots) : slots := match live s with [] => mkSlots [] (repeat None 11) (count s) | _ => s end.
  Fixpoint somes {A} (l : list (option A)) : list A :=
    match l with [] => [] | Some a :: r => a :: somes r | None :: r => somes r end.

  (** [None]: a new key on top of eleven live ones, where the machine ends. *)
  Definition slot_step (s : slots) (o : bop) : option (slots * banswer) :=
    match o with
    | BInsert k v =>
        match seek k (all_slots s) 0 with
        | Some i => Some (revalue s i v, Value (slot_value (all_slots s) i))
        | None => if length (live s) =? 11 then None
                  else Some (mkSlots (place (k, v) (live s)) (tl (rest s)) (match live s with [] => 1%Z | _ => wrap64 (count s + 1) end), Value None)
        end
    | BRemove k =>
        let s' := match live_index k (live s) 0 with Some i => take_out s i | None => s end in
        match seek k (all_slots s) 0 with
        | Some i => let s'' := emptied s' in
                    Some (mkSlots (live s'') (rest s'') (wrap64 (count s - 1)), Value (slot_value (all_slots s') i))
        | None => Some (emptied s', Value None)
        end
    | BGet k => Some (s, Value (match seek k (all_slots s) 0 with Some i => slot_value (all_slots s) i | None => None end))
    | BContainsKey k => Some (s, Truth (is_some (seek k (all_slots s) 0)))
    | BLen => Some (s, Number (count s))
    | BIsEmpty => Some (s, Truth (count s =? 0)%Z)
    | BClear => Some (no_slots, Done)
    | BEntries => Some (s, Entries (somes (all_slots s)))
    | BKeys => Some (s, KeyList (map fst (live s)))
    | BValues => Some (s, ValueList (map snd (somes (all_slots s))))
    end.
  (** The slot in which a key to remove was found is empty once it is removed, so that
      there is no value to give back.  Only an order that contradicts itself does this. *)
  Definition lost (s : slots) (o : bop) (a : banswer) : bool :=
    match o, a with BRemove k, Value None => is_some (seek k (all_slots s) 0) | _, _ => false end.
  Fixpoint slot_run (s : slots) (ops : list bop) : option (slots * list banswer) :=
    match ops with
    | [] => Some (s, [])
    | o :: r => match slot_step s o with
                | None => None
                | Some (s', a) => match slot_run s' r with None => None | Some (s'', rs) => Some (s'', a :: rs) end
                end
    end.
End Spec.
Arguments bop K V : clear implicits.
Arguments banswer K V : clear implicits.
Arguments slots K V : clear implicits.
