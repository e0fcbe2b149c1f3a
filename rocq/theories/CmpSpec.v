(** CmpSpec.v -- total orders, stated independently of the model. *)
From Coq Require Import List ZArith Floats.SpecFloat.
From Verif Require Import Base.
Import ListNotations.

Definition flip (o : ordering) : ordering :=
  match o with Less => Greater | Equal => Equal | Greater => Less end.

(** [cmp] is a total order on the values satisfying [P], and [eqb] is its equality. *)
Record total_order {A : Type} (P : A -> Prop) (cmp : A -> A -> ordering) (eqb : A -> A -> bool) : Prop := {
  to_refl : forall a, P a -> cmp a a = Equal;
  to_antisym : forall a b, P a -> P b -> cmp b a = flip (cmp a b);
  to_trans_lt : forall a b c, P a -> P b -> P c -> cmp a b = Less -> cmp b c = Less -> cmp a c = Less;
  to_equal : forall a b c, P a -> P b -> P c -> cmp a b = Equal -> cmp b c = cmp a c;
  to_eq : forall a b, P a -> P b -> (cmp a b = Equal <-> eqb a b = true)
}.

Definition everything {A : Type} (_ : A) : Prop := True.

(** Lexicographic order on byte strings. *)
Definition lex_less (a b : list Z) : Prop :=
  (exists c r, b = a ++ c :: r) \/
  (exists p x y r s, a = p ++ x :: r /\ b = p ++ y :: s /\ (x < y)%Z).

(** The number denoted by a finite binary64 (or binary32) value, scaled by
    2^1074 so that it is an integer; infinities are beyond every finite value. *)
Definition is_nan (x : spec_float) : bool := match x with S754_nan => true | _ => false end.
Definition scaled (x : spec_float) : Z :=
  match x with
  | S754_finite s m e => (if s then -1 else 1) * Z.pos m * 2 ^ (e + 1074)
  | S754_infinity s => (if s then -1 else 1) * 2 ^ 4000
  | _ => 0
  end.
(** x < y as numbers (with infinities at the ends). *)
Definition num_lt (x y : spec_float) : Prop := (scaled x < scaled y)%Z.
