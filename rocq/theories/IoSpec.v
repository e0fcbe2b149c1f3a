(** IoSpec.v -- lines and words of an input. *)
From Coq Require Import List ZArith.
Import ListNotations.
Local Open Scope Z_scope.

(** Unicode's White_Space. *)
Definition white (r : Z) : Prop :=
  9 <= r <= 13 \/ r = 32 \/ r = 133 \/ r = 160 \/ r = 5760 \/ 8192 <= r <= 8202 \/
  r = 8232 \/ r = 8233 \/ r = 8239 \/ r = 8287 \/ r = 12288.
(** White space within a line. *)
Definition blanks (s : list Z) : Prop := Forall (fun r => white r /\ r <> 10) s.
Definition word (s : list Z) : Prop := s <> [] /\ Forall (fun r => ~ white r) s.

(** What the documentation of ReadLine says: the input's first line (with its newline, if
    it has one) is appended to the buffer and consumed. *)
Inductive documented (encode : list Z -> list Z) (buffer input : list Z) : list Z -> list Z -> Prop :=
  | doc_line l rest : ~ In 10 l -> input = l ++ 10 :: rest -> documented encode buffer input (buffer ++ encode (l ++ [10])) rest
  | doc_last : ~ In 10 input -> documented encode buffer input (buffer ++ encode input) [].
(** The same without the newline. *)
Inductive documented_chomped (encode : list Z -> list Z) (buffer input : list Z) : list Z -> list Z -> Prop :=
  | chomp_line l rest : ~ In 10 l -> input = l ++ 10 :: rest -> documented_chomped encode buffer input (buffer ++ encode l) rest
  | chomp_last : ~ In 10 input -> documented_chomped encode buffer input (buffer ++ encode input) [].

(** What it does: the word read and what is left of the input. *)
Inductive scanned : list Z -> list Z -> list Z -> Prop :=
  | scan_end s : blanks s -> scanned s [] []
  | scan_empty_line s rest : blanks s -> scanned (s ++ 10 :: rest) [] rest
  | scan_word s w s' rest : blanks s -> word w -> blanks s' -> scanned (s ++ w ++ s' ++ 10 :: rest) w rest
  | scan_last_word s w s' : blanks s -> word w -> blanks s' -> scanned (s ++ w ++ s') w []
  | scan_more s w s' c rest : blanks s -> word w -> blanks s' -> s' <> [] -> ~ white c -> scanned (s ++ w ++ s' ++ c :: rest) w rest.
