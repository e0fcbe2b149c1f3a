(** StringSearchSpec.v -- occurrences of one text in another, cutting and
    joining, white space, letter case. *)
From Coq Require Import List ZArith.
From Verif Require Import StringSpec.
Import ListNotations.
Local Open Scope Z_scope.

(** [p] stands in [s] at position [i]. *)
Definition stands (p s : list Z) (i : Z) : Prop :=
  exists before after, s = before ++ p ++ after /\ Z.of_nat (length before) = i.
Definition occurs (p s : list Z) : Prop := exists i, stands p s i.
(** [i] is the first such position. *)
Definition first_at (p s : list Z) (i : Z) : Prop :=
  stands p s i /\ forall j, stands p s j -> i <= j.
(** [s] cut at every occurrence of [sep], from left to right without overlap. *)
Inductive cut (sep : list Z) : list Z -> list (list Z) -> Prop :=
| cut_last s : ~ occurs sep s -> cut sep s [s]
| cut_more a rest ps : first_at sep (a ++ sep ++ rest) (Z.of_nat (length a)) ->
    cut sep rest ps -> cut sep (a ++ sep ++ rest) (a :: ps).
(** The pieces written one after the other with [sep] between them. *)
Fixpoint join (sep : list Z) (ps : list (list Z)) : list Z :=
  match ps with
  | [] => []
  | [p] => p
  | p :: rest => p ++ sep ++ join sep rest
  end.
(** [n] copies of [s]. *)
Fixpoint copies (n : nat) (s : list Z) : list Z :=
  match n with O => [] | Datatypes.S k => s ++ copies k s end.

(** Unicode's White_Space (PropList.txt). *)
Definition white (c : Z) : Prop :=
  9 <= c <= 13 \/ c = 32 \/ c = 133 \/ c = 160 \/ c = 5760 \/ 8192 <= c <= 8202 \/
  c = 8232 \/ c = 8233 \/ c = 8239 \/ c = 8287 \/ c = 12288.
(** [mid] is the text [cs] without the white space around it. *)
Definition trimmed (cs mid : list Z) : Prop :=
  exists lead tail, cs = lead ++ mid ++ tail /\ Forall white lead /\ Forall white tail /\
    (forall c t, mid = c :: t -> ~ white c) /\ (forall t c, mid = t ++ [c] -> ~ white c).

(** The case of the 26 letters. *)
Definition ascii_lower (c d : Z) : Prop :=
  (65 <= c <= 90 /\ d = c + 32) \/ (~ 65 <= c <= 90 /\ d = c).
Definition ascii_upper (c d : Z) : Prop :=
  (97 <= c <= 122 /\ d = c - 32) \/ (~ 97 <= c <= 122 /\ d = c).
