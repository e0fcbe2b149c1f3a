(** HashVarModel.v -- variables of type HashMap and HashSet (hash_map.go, hash_set.go).  The
    struct of a HashMap holds a Go map (hash_map.go:9-11), and that of a HashSet a HashMap
    (hash_set.go:9-11).  A Go map is a reference: the assignment of a struct copies the
    reference.  A nil map, which nothing can be stored in, has a cell of its own here. *)
From Verif Require Import Base HashModel HashSpec HashHistory ZeroModel HashVarSpec.
Local Open Scope Z_scope.

(** The Go maps made so far, and for each variable the number of its map. *)
Record memory C := mkMemory { cells : list C; vars : list nat }.
Arguments mkMemory {C}. Arguments cells {C}. Arguments vars {C}.

Section Machine.
  Context {C O Q A : Type}.
  (** What a method does to the map of its receiver, and the map a function makes. *)
  Variable method : nat -> C -> O -> C * A.
  Variable function : nat -> list C -> Q -> option C * A.
  Variable zero : C.
  Variable done : A.
  Variable clears : O -> bool.
  (** Clear puts a new map into its receiver (hash_map.go:87-89, hash_set.go:97-99); the
      other methods with a pointer receiver work on the map that is there
      (hash_map.go:56-64, 71-79, hash_set.go:72-75, 85-88). *)
  Definition h_step (n : nat) (m : memory C) (o : cop O Q) : memory C * A :=
    let map_of v := nth v (vars m) (length (cells m)) in
    let at_ v := nth (map_of v) (cells m) zero in
    match o with
    | Copy v => (mkMemory (cells m) (vars m ++ [map_of v]), done)
    | Do v o => let '(c, a) := method n (at_ v) o in
                if clears o then (mkMemory (cells m ++ [c]) (list_set (vars m) v (length (cells m))), a)
                else (mkMemory (list_set (cells m) (map_of v) c) (vars m), a)
    | From q vs => let '(r, a) := function n (map at_ vs) q in
                   match r with
                   | Some c => (mkMemory (cells m ++ [c]) (vars m ++ [length (cells m)]), a)
                   | None => (m, a)
                   end
    end.
  Fixpoint h_run (n : nat) (m : memory C) (ops : list (cop O Q)) : memory C * list A :=
    match ops with
    | [] => (m, [])
    | o :: r => let '(m', a) := h_step n m o in let '(m'', rs) := h_run (S n) m' r in (m'', a :: rs)
    end.
  Definition h_start : memory C := mkMemory [] [].
End Machine.

Section Maps.
  Context {K V : Type}.
  Variable keqb : K -> K -> bool.
  Variable ords : nat -> order K V.
  (** The methods: ZeroModel.v. *)
  Definition m_method (n : nat) (m : gomap K V) (o : @mop K V) : gomap K V * option (@manswer K V) := z_exec keqb (ords n) m o.
  (** A declaration; hash_map.go:14-16, 19-21. *)
  Definition m_function (n : nat) (ms : list (gomap K V)) (q : mquery) : option (gomap K V) * option (@manswer K V) :=
    (Some (match q with MDeclare => zero_map | MNew => Some HashMapNew | MWithCapacity c => Some (HashMapWithCapacity c) end), Some Done).
  Definition map_program (ops : list (cop (@mop K V) mquery)) : list (option (@manswer K V)) :=
    snd (h_run m_method m_function zero_map (Some Done) mclears 0 h_start ops).
End Maps.

Section Sets.
  Context {K : Type}.
  Variable keqb : K -> K -> bool.
  Variable clone : K -> K.
  Variable ords : nat -> nat -> sorder K.
  (** hash_set.go:49-128: on a list of one set. *)
  Definition s_method (n : nat) (s : goset) (o : sdo K) : goset * option (@sanswer K) :=
    let r := z_sexec keqb clone (ords n) [s] (ZeroSpec.Do (on_first o)) in (nth 0 (fst r) s, snd r).
  (** hash_set.go:14-16, 34-41, 143-329, 466-496: on the list of the arguments. *)
  Definition s_function (n : nat) (ss : list goset) (q : squery K) : option goset * option (@sanswer K) :=
    let r := z_sexec keqb clone (ords n) ss (match q with QDeclare => ZeroSpec.Declare | _ => ZeroSpec.Do (on_both q) end) in
    (nth_error (fst r) (length ss), snd r).
  Definition set_program (ops : list (cop (sdo K) (squery K))) : list (option (@sanswer K)) :=
    snd (h_run s_method s_function zero_map (Some SDone) sclears 0 h_start ops).
End Sets.
