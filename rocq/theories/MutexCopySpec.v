(** MutexCopySpec.v -- words about histories of copied mutexes (C109), read off the operations
    and their answers. *)
From Verif Require Import Base MutexCopyModel.

Section Spec.
  Context {T : Type}.
  Notation history := (list (nat * op T * answer T)).

  (** The mutex that a variable holds: mutexes made by MutexNew are numbered in order; a copy
      holds the mutex its original holds.  The list has an entry per variable. *)
  Fixpoint mutexes (acc : list nat) (made : nat) (h : history) : list nat :=
    match h with
    | [] => acc
    | (_, New _, _) :: h => mutexes (acc ++ [made]) (S made) h
    | (_, Copy v, _) :: h => mutexes (acc ++ [nth v acc 0]) made h
    | _ :: h => mutexes acc made h
    end.
  Definition mutex_of (h : history) (v : nat) : option nat := nth_error (mutexes [] 0 h) v.
  (** How many variables hold mutex m. *)
  Definition copies (h : history) (m : nat) : nat := count_occ Nat.eq_dec (mutexes [] 0 h) m.

  (** Who is inside, and through which variable: from the return of Lock or of a successful
      TryLock to Unlock. *)
  Definition inside_after (l : list (nat * nat)) (e : nat * op T * answer T) : list (nat * nat) :=
    match e with
    | (t, Lock v, Ptr _) | (t, TryLock v, Ptr _) => (t, v) :: l
    | (t, Unlock v, _) => filter (fun p => negb ((fst p =? t) && (snd p =? v))) l
    | _ => l
    end.
  Definition inside (h : history) : list (nat * nat) := fold_left inside_after h [].
  (** Goroutines call Unlock only on a mutex (variable) they are inside of. *)
  Fixpoint disciplined (l : list (nat * nat)) (h : history) : Prop :=
    match h with
    | [] => True
    | (t, o, r) :: h =>
      match o with Unlock v => In (t, v) l | _ => True end /\ disciplined (inside_after l (t, o, r)) h
    end.
  (** How many are inside mutex m, through any variable. *)
  Definition crowd (h : history) (m : nat) : nat :=
    length (filter (fun p => match mutex_of h (snd p) with Some m' => m' =? m | None => false end) (inside h)).
End Spec.
