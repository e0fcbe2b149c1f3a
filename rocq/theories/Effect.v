(** Effect.v -- closures passed in by the user.  A Go closure may read and write
    any state and may panic, so it is modelled as a state transformer over an
    arbitrary state type [S].  Models no gost function. *)
From Verif Require Import Base.

Definition M (S A : Type) : Type := S -> out (A * S).
Definition mret {S A} (a : A) : M S A := fun s => Ret (a, s).
Definition mpanic {S A} : M S A := fun _ => Panic.
Definition mbind {S A B} (m : M S A) (k : A -> M S B) : M S B :=
  fun s => match m s with
           | Ret (a, s') => k a s'
           | Panic => Panic
           | Diverge => Diverge
           end.
Notation "x <~ m ;; k" := (mbind m (fun x => k))
  (at level 61, m at next level, right associativity).
