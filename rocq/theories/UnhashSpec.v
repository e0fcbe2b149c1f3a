(** UnhashSpec.v -- keys of an interface type (HashMap[any, V]): a key is a value that can be
    hashed, or one that cannot (a slice, a map, a function, or a struct with one of them). *)
From Verif Require Import Base HashSpec ZeroSpec.

Inductive interface (H U : Type) := Plain (h : H) | Unhashable (u : U).
Arguments Plain {H U}. Arguments Unhashable {H U}.

Section Keys.
  Context {H U : Type}.
  Notation key := (interface H U).
  Definition plain (k : key) : option H := match k with Plain h => Some h | Unhashable _ => None end.
  (** All of them, or none. *)
  Fixpoint plains (ks : list key) : option (list H) :=
    match ks with
    | [] => Some []
    | k :: r => match plain k, plains r with Some h, Some hs => Some (h :: hs) | _, _ => None end
    end.

  (** *** Maps.  A call as one on a map with hashable keys; None if its key is not. *)
  Definition map_call {V} (o : @mop key V) : option (@mop H V) :=
    match o with
    | MInsert k v => option_map (fun h => MInsert h v) (plain k)
    | MRemove k => option_map MRemove (plain k)
    | MGet k => option_map MGet (plain k)
    | MContainsKey k => option_map MContainsKey (plain k)
    | MClear => Some MClear | MLen => Some MLen | MIsEmpty => Some MIsEmpty
    | MEntries => Some MEntries | MKeys => Some MKeys | MValues => Some MValues
    end.
  Definition map_answer {V} (a : @manswer H V) : @manswer key V :=
    match a with
    | Done => Done | Value o => Value o | Truth b => Truth b | Number z => Number z
    | Entries es => Entries (map (fun e => (Plain (fst e), snd e)) es)
    | KeyList ks => KeyList (map Plain ks)
    | ValueList vs => ValueList vs
    end.

  (** *** Sets *)
  Definition set_call (o : @sop key) : option (@sop H) :=
    match o with
    | SNew => Some SNew
    | SFromSlice xs => option_map SFromSlice (plains xs)
    | SUnion i j => Some (SUnion i j) | SIntersection i j => Some (SIntersection i j)
    | SSymmetricDifference i j => Some (SSymmetricDifference i j) | SClone i => Some (SClone i)
    | SInsert i x => option_map (SInsert i) (plain x)
    | SRemove i x => option_map (SRemove i) (plain x)
    | SContains i x => option_map (SContains i) (plain x)
    | SGet i x => option_map (SGet i) (plain x)
    | SClear i => Some (SClear i) | SLen i => Some (SLen i) | SIsEmpty i => Some (SIsEmpty i)
    | SIsSubset i j => Some (SIsSubset i j) | SIsSuperset i j => Some (SIsSuperset i j)
    | SIsDisjoint i j => Some (SIsDisjoint i j) | SEq i j => Some (SEq i j)
    | SElements i => Some (SElements i) | SAsSlice i => Some (SAsSlice i)
    end.
  Definition set_answer (a : @sanswer H) : @sanswer key :=
    match a with
    | SDone => SDone | STruth b => STruth b | SNumber z => SNumber z
    | SFound o => SFound (option_map Plain o)
    | SList xs => SList (map Plain xs)
    end.
End Keys.

Definition absent {A} (o : option A) : bool := match o with None => true | Some _ => false end.
