(** CodeSpec.v -- comparison results are integers (C119). *)
From Verif Require Import Base.
Local Open Scope Z_scope.

(** The usual reading of the result of a comparison: its sign. *)
Definition by_sign (c : Z) : ordering := if c <? 0 then Less else if c =? 0 then Equal else Greater.
(** OrderingLess, OrderingEqual, OrderingGreater. *)
Definition code_of (o : ordering) : Z := match o with Less => -1 | Equal => 0 | Greater => 1 end.
(** It is one of the three. *)
Definition proper (c : Z) : Prop := exists o, c = code_of o.

(** What a value that is compared with [==] to the three constants stands for; nothing if it is
    none of them. *)
Definition decode (c : Z) : out ordering :=
  if c =? -1 then Ret Less else if c =? 0 then Ret Equal else if c =? 1 then Ret Greater else Diverge.
(** A value that is none of the three taken for [other]. *)
Definition or_else (other : ordering) (c : Z) : ordering :=
  match decode c with Ret o => o | _ => other end.
(** Only OrderingLess is told from the rest. *)
Definition less_or_not (c : Z) : ordering := if c =? -1 then Less else Greater.
Definition via {A} (f : Z -> ordering) (cmp : A -> A -> Z) (a b : A) : ordering := f (cmp a b).

(** The comparison an author in a hurry writes. *)
Definition difference (a b : Z) : Z := a - b.
