(** StringSpec.v -- UTF-8 and UTF-16 by their definition (RFC 3629, RFC 2781),
    format templates. *)
From Coq Require Import List ZArith.
Import ListNotations.
Local Open Scope Z_scope.

(** A Unicode scalar value. *)
Definition scalar (c : Z) : Prop := 0 <= c <= 1114111 /\ ~ (55296 <= c <= 57343).
Definition trail (b : Z) : Prop := 128 <= b < 192.
(** [bs] is the UTF-8 encoding of [c]. *)
Definition utf8_char (c : Z) (bs : list Z) : Prop :=
  scalar c /\
  ((0 <= c < 128 /\ bs = [c]) \/
   (128 <= c < 2048 /\ exists a b, bs = [192 + a; b] /\ 0 <= a < 32 /\ trail b /\ c = a * 64 + (b - 128)) \/
   (2048 <= c < 65536 /\ exists a b d, bs = [224 + a; b; d] /\ 0 <= a < 16 /\ trail b /\ trail d /\
      c = a * 4096 + (b - 128) * 64 + (d - 128)) \/
   (65536 <= c /\ exists a b d e, bs = [240 + a; b; d; e] /\ 0 <= a < 8 /\ trail b /\ trail d /\ trail e /\
      c = a * 262144 + (b - 128) * 4096 + (d - 128) * 64 + (e - 128))).
(** [bs] is valid UTF-8 for the text [cs]. *)
Inductive utf8 : list Z -> list Z -> Prop :=
| utf8_nil : utf8 [] []
| utf8_cons c cs b bs : utf8_char c b -> utf8 cs bs -> utf8 (c :: cs) (b ++ bs).
(** UTF-16: one unit, or a surrogate pair. *)
Inductive utf16 : list Z -> list Z -> Prop :=
| utf16_nil : utf16 [] []
| utf16_one c cs us : scalar c -> c < 65536 -> utf16 cs us -> utf16 (c :: cs) (c :: us)
| utf16_pair c cs us a b : scalar c -> 65536 <= c -> 0 <= a < 1024 -> 0 <= b < 1024 ->
    c = 65536 + a * 1024 + b -> utf16 cs us -> utf16 (c :: cs) (55296 + a :: 56320 + b :: us).

(** A template as its author reads it. *)
Inductive piece := Text (c : Z) | OpenBrace | CloseBrace | Hole.
(** The template's source text (as characters). *)
Definition piece_source (p : piece) : list Z :=
  match p with Text c => [c] | OpenBrace => [123; 123] | CloseBrace => [125; 125] | Hole => [123; 125] end.
Definition source (ps : list piece) : list Z := flat_map piece_source ps.
Definition plain (p : piece) : Prop :=
  match p with Text c => scalar c /\ c <> 123 /\ c <> 125 | _ => True end.
Definition holes (ps : list piece) : nat := length (filter (fun p => match p with Hole => true | _ => false end) ps).
(** [renders ps texts out]: [out] is the expansion with the given texts in the holes. *)
Inductive renders : list piece -> list (list Z) -> list Z -> Prop :=
| r_nil texts : renders [] texts []
| r_text c b ps texts out : utf8_char c b -> renders ps texts out -> renders (Text c :: ps) texts (b ++ out)
| r_open ps texts out : renders ps texts out -> renders (OpenBrace :: ps) texts (123 :: out)
| r_close ps texts out : renders ps texts out -> renders (CloseBrace :: ps) texts (125 :: out)
| r_hole t ps texts out : renders ps texts out -> renders (Hole :: ps) (t :: texts) (t ++ out).
