(** MutexCopyModel.v -- sync.go, with Mutex structs that are copied.

    MutexNew returns a struct (sync.go:16-21), so x := m, a call by value, a range loop or a
    struct that contains a Mutex makes a second Mutex: it has a lock word of its own with
    the state the first one had, and the same pointer to the value.

    Goroutines' operations take effect one at a time (a Lock that waits takes effect when it
    gets the lock).  A struct is copied when no goroutine waits for its lock: the lock word is
    one bit here. *)
From Verif Require Import Base.

Section Copy.
  Context {T : Type}.
  (** A variable of type Mutex: the pointer and the lock (sync.go:11-14).  [mem]: the values. *)
  Record state := mkState { vars : list (nat * bool); mem : list T }.
  Definition nothing : state := mkState [] [].

  (** What a goroutine does.  Variables and pointers are numbers. *)
  Inductive op := New (x : T) | Copy (v : nat) | Lock (v : nat) | TryLock (v : nat) | Unlock (v : nat)
    | Load (a : nat) | Store (a : nat) (x : T).
  (** What it gets. *)
  Inductive answer := Var (v : nat) | Ptr (a : nat) | Err | Val (x : T) | Done.

  (** [None]: it has to wait, cannot do that (there is no such variable), or the program is
      stopped (Unlock of an unlocked mutex). *)
  Definition step (s : state) (o : op) : option (state * answer) :=
    match o with
    | New x => (* sync.go:16-21 *)
      Some (mkState (vars s ++ [(length (mem s), false)]) (mem s ++ [x]), Var (length (vars s)))
    | Copy v => (* an assignment of the user's code *)
      match nth_error (vars s) v with
      | Some m => Some (mkState (vars s ++ [m]) (mem s), Var (length (vars s)))
      | None => None
      end
    | Lock v => (* sync.go:28-31 *)
      match nth_error (vars s) v with
      | Some (a, false) => Some (mkState (list_set (vars s) v (a, true)) (mem s), Ptr a)
      | _ => None
      end
    | TryLock v => (* sync.go:59-65 *)
      match nth_error (vars s) v with
      | Some (a, false) => Some (mkState (list_set (vars s) v (a, true)) (mem s), Ptr a)
      | Some (_, true) => Some (s, Err)
      | None => None
      end
    | Unlock v => (* sync.go:39-41 *)
      match nth_error (vars s) v with
      | Some (a, true) => Some (mkState (list_set (vars s) v (a, false)) (mem s), Done)
      | _ => None
      end
    | Load a => (* through the pointer *)
      match nth_error (mem s) a with Some x => Some (s, Val x) | None => None end
    | Store a x => if a <? length (mem s) then Some (mkState (vars s) (list_set (mem s) a x), Done) else None
    end.
  (** A history: who does what and gets what. *)
  Fixpoint run (s : state) (h : list (nat * op * answer)) : Prop :=
    match h with
    | [] => True
    | (_, o, r) :: h => exists s', step s o = Some (s', r) /\ run s' h
    end.
End Copy.
Arguments state T : clear implicits.
Arguments op T : clear implicits.
Arguments answer T : clear implicits.
