(** Base.v -- outcomes of Go calls and checked list access, shared by all models.

    No part of this file models a particular gost function; it fixes how the
    model represents what a Go call can do. *)
From Coq Require Export List ZArith Bool Lia.
Export ListNotations.

(** Outcome of a Go call: it returns a value, panics (including runtime panics
    such as index-out-of-range, nil dereference, division by zero), or does not
    return ([Diverge] is produced when the fuel of a loop that has no structural
    bound runs out). *)
Inductive out (A : Type) : Type :=
| Ret (a : A)
| Panic
| Diverge.
Arguments Ret {A} a.
Arguments Panic {A}.
Arguments Diverge {A}.

(** Sequencing: a panic or divergence aborts the rest of the function. *)
Definition bind {A B : Type} (m : out A) (k : A -> out B) : out B :=
  match m with
  | Ret a => k a
  | Panic => Panic
  | Diverge => Diverge
  end.

Notation "x <- m ;; k" := (bind m (fun x => k))
  (at level 61, m at next level, right associativity).
Notation "' p <- m ;; k" := (bind m (fun x => let p := x in k))
  (at level 61, p pattern, m at next level, right associativity).

(** Map over a value that is certainly returned. *)
Definition omap {A B : Type} (f : A -> B) (m : out A) : out B :=
  x <- m ;; Ret (f x).

(** Pointer dereference / [Unwrap]: nil is a run-time panic. *)
Definition of_option {A : Type} (o : option A) : out A :=
  match o with Some a => Ret a | None => Panic end.

(** Go slice read [s[i]]: panics when out of range. *)
Definition idx {A : Type} (s : list A) (i : nat) : out A := of_option (nth_error s i).

(** Replace position [i] (no effect if out of range). *)
Fixpoint list_set {A : Type} (s : list A) (i : nat) (v : A) : list A :=
  match s, i with
  | [], _ => []
  | _ :: s', O => v :: s'
  | x :: s', S i' => x :: list_set s' i' v
  end.

(** Go slice write [s[i] = v]: panics when out of range. *)
Definition upd {A : Type} (s : list A) (i : nat) (v : A) : out (list A) :=
  if Nat.ltb i (length s) then Ret (list_set s i v) else Panic.

(** Did the call return normally? *)
Definition returns {A : Type} (m : out A) : Prop := exists a, m = Ret a.

(** Ordering, as in cmp.go:5-10 ([type Ordering int]; only the three named
    constants are ever produced by gost). *)
Inductive ordering := Less | Equal | Greater.
