(** IllFormedSpec.v -- how any byte string is read as characters, by the definition of
    UTF-8 alone: from left to right, a character where one stands; a byte at which no
    character stands counts as the replacement character U+FFFD. *)
From Coq Require Import List ZArith.
From Verif Require Import StringSpec StringSearchSpec.
Import ListNotations.
Local Open Scope Z_scope.

Definition byte (b : Z) : Prop := 0 <= b < 256.
(** No character stands at the front of [s]. *)
Definition no_character (s : list Z) : Prop := forall c b rest, utf8_char c b -> s <> b ++ rest.
(** [s] in pieces: each with the character it is read as and the bytes it consists of. *)
Inductive pieced : list (Z * list Z) -> list Z -> Prop :=
| pieced_nil : pieced [] []
| pieced_char c b us s : utf8_char c b -> pieced us s -> pieced ((c, b) :: us) (b ++ s)
| pieced_stray x us s : no_character (x :: s) -> pieced us s -> pieced ((65533, [x]) :: us) (x :: s).
Definition characters (us : list (Z * list Z)) : list Z := map fst us.
Definition bytes_of (us : list (Z * list Z)) : list Z := concat (map snd us).
(** The pieces [mid] of [us] without the white space around them. *)
Definition trimmed_pieces (us mid : list (Z * list Z)) : Prop :=
  exists lead tail, us = lead ++ mid ++ tail /\ Forall (fun u => white (fst u)) lead /\ Forall (fun u => white (fst u)) tail /\
    (forall u t, mid = u :: t -> ~ white (fst u)) /\ (forall t u, mid = t ++ [u] -> ~ white (fst u)).
