(** FloatTextProps.v -- C93 .. C95: floating-point numbers as text. *)
From Coq Require Import ZArith QArith Qabs Lqa Lia Bool List Floats.SpecFloat.
From Verif Require Import DecimalSpec FloatSpec FloatTextSpec FloatModel FloatTextModel FloatOpsProofs FloatUniqueProofs FloatTextProofs FloatParseProofs.
Import ListNotations.
Local Open Scope Z_scope.

(** *** C93: ParseF64 rounds correctly *)
(** A numeral in decimal notation, with an exponent or without one: the nearest number,
    of two equally near ones the even one; an error if and only if it is too large.
    (strconv keeps only five digits of an exponent; this matters only for texts of more
    than 9000 bytes.) *)
Theorem C93_parse : forall s neg d f e, numeral s neg d f e -> Z.abs e < 100000 \/ Z.of_nat (length s) <= 9000 ->
  number_read neg (scaled d (e - f)) (ParseF64 s).
Proof. exact parse_rounds. Qed.
Print Assumptions C93_parse.
(** The result is the only one with this property. *)
Theorem C93_unique : forall v r r', rounds_to 53 1024 v r -> rounds_to 53 1024 v r' -> negative r = negative r' -> r = r'.
Proof. exact (rounds_unique 53 1024 ltac:(lia) ltac:(lia)). Qed.
Print Assumptions C93_unique.
(** "inf", "+Infinity", "NaN" and so on. *)
Theorem C93_names : forall s x, named s x -> ParseF64 s = Some x.
Proof. exact parse_named. Qed.
Print Assumptions C93_names.
(** Anything else is an error (hexadecimal notation and underscores apart). *)
Theorem C93_rejects : forall s, ~ In 95 s -> ~ hexadecimal s ->
  (forall x, ~ named s x) -> (forall neg d f e, ~ numeral s neg d f e) -> ParseF64 s = None.
Proof.
  intros s N H NN NM. unfold ParseF64. destruct (ParseFloat s) as [x|] eqn:E; [exfalso|reflexivity].
  destruct (parse_only s x N H E) as [Q|(neg & d & f & e & Q)]; [exact (NN x Q)|exact (NM _ _ _ _ Q)].
Qed.
Print Assumptions C93_rejects.
(** "-12.5e1" is -125; "1e400" is too large; "1e" is not a numeral. *)
Example C93_nonvacuous :
  numeral [45; 49; 50; 46; 53; 101; 49] true 125 1 1 /\
  ParseF64 [45; 49; 50; 46; 53; 101; 49] = Some (S754_finite true 8796093022208000 (-46)) /\
  numeral [49; 101; 52; 48; 48] false 1 0 400 /\ ParseF64 [49; 101; 52; 48; 48] = None /\
  ParseF64 [49; 101] = None /\ ParseF64 [] = None /\ ParseF64 [46] = None /\
  named [45; 73; 110; 102] (S754_infinity true) /\ ParseF64 [49; 32] = None.
Proof.
  split; [exists [45], [49; 50], [46], [53], [101; 49]; repeat split; auto; try (repeat constructor; unfold digit_char; lia); try discriminate|].
  { right. exists 101, [], [49]. repeat split; auto; try discriminate. repeat constructor; lia. }
  split; [vm_compute; reflexivity|].
  split; [exists [], [49], [], [], [101; 52; 48; 48]; repeat split; auto; try (repeat constructor; unfold digit_char; lia); try discriminate|].
  { right. exists 101, [], [52; 48; 48]. repeat split; auto; try discriminate. repeat constructor; lia. }
  repeat (split; [vm_compute; reflexivity|]). split; [|vm_compute; reflexivity].
  right. exists [45], [73; 110; 102], true. repeat split; auto. left. repeat constructor; lia.
Qed.

(** *** C94: the text of an F64 is read back as the same F64 *)
(** Infinities, NaN and both zeros included. *)
Theorem C94_round_trip : forall x, is_F64 x -> ParseF64 (F64_ToString x) = Some x.
Proof. exact round_trip. Qed.
Print Assumptions C94_round_trip.
Theorem C94_injective : forall x y, is_F64 x -> is_F64 y -> F64_ToString x = F64_ToString y -> x = y.
Proof. intros x y Vx Vy E. apply round_trip in Vx, Vy. unfold F64_ToString in E. rewrite E in Vx. congruence. Qed.
Print Assumptions C94_injective.
(** 1/3, -0 and a large number. *)
Example C94_nonvacuous :
  let third := SFdiv 53 1024 (binary_normalize 53 1024 1 0 false) (binary_normalize 53 1024 3 0 false) in
  is_F64 third /\ F64_ToString third = 48 :: 46 :: repeat 51 16 /\ ParseF64 (F64_ToString third) = Some third /\
  ParseF64 (F64_ToString (S754_zero true)) = Some (S754_zero true) /\
  ParseF64 (F64_ToString (S754_finite true 9007199254740991 7)) = Some (S754_finite true 9007199254740991 7).
Proof. repeat split; vm_compute; reflexivity. Qed.

(** *** C95: the text of a number is the shortest one that denotes it *)
Theorem C95_text : forall x,
  (is_F32 x -> number_text 24 128 9 x (F32_ToString x)) /\ (is_F64 x -> number_text 53 1024 17 x (F64_ToString x)).
Proof.
  intros x. split; intros V; [unfold F32_ToString; rewrite narrow_widen by exact V|]; apply text_ok; auto; lia.
Qed.
Print Assumptions C95_text.
Theorem C95_complex : forall a b,
  (is_F32 a -> is_F32 b -> Complex64_ToString (a, b) = complex_text (F32_ToString a) (F32_ToString b) b) /\
  (is_F64 a -> is_F64 b -> Complex128_ToString (a, b) = complex_text (F64_ToString a) (F64_ToString b) b).
Proof.
  intros a b. split; intros Va Vb.
  - unfold Complex64_ToString, FormatComplex, F32_ToString, complex_text. cbn [fst snd]. rewrite !narrow_widen by assumption. cbv zeta.
    pose proof (text_head 24 128 b Vb ltac:(lia) ltac:(lia)) as H. cbv zeta in H. rewrite H. cbn [app]. rewrite <- app_assoc. reflexivity.
  - unfold Complex128_ToString, FormatComplex, F64_ToString, complex_text. cbn [fst snd]. cbv zeta.
    pose proof (text_head 53 1024 b Vb ltac:(lia) ltac:(lia)) as H. cbv zeta in H. rewrite H. cbn [app]. rewrite <- app_assoc. reflexivity.
Qed.
Print Assumptions C95_complex.
(** The F32 nearest to 0.1 is printed as 0.1; widened to F64 it is
    0.10000000149011612. 2^100 is 1267650600228229400000000000000 (all its digits are not
    needed); 1 - 2i is (1-2i). *)
Example C95_nonvacuous :
  let tenth := S754_finite false 13421773 (-27) in
  is_F32 tenth /\ F32_ToString tenth = [48; 46; 49] /\
  F64_ToString (to64 tenth) = [48; 46; 49; 48; 48; 48; 48; 48; 48; 48; 49; 52; 57; 48; 49; 49; 54; 49; 50] /\
  F64_ToString (binary_normalize 53 1024 1 100 false) = [49; 50; 54; 55; 54; 53; 48; 54; 48; 48; 50; 50; 56; 50; 50; 57; 52] ++ repeat 48 14 /\
  Complex128_ToString (binary_normalize 53 1024 1 0 false, binary_normalize 53 1024 (-2) 0 false) = [40; 49; 45; 50; 105; 41].
Proof. repeat split; vm_compute; reflexivity. Qed.
