(** FloatHexProps.v -- C93: ParseF64 on hexadecimal numerals, on underscores, and on every
    other text. *)
From Coq Require Import ZArith QArith Lia Bool List Floats.SpecFloat.
From Verif Require Import DecimalSpec FloatSpec FloatTextSpec FloatHexSpec FloatModel FloatTextModel FloatParseProofs FloatHexProofs.
Import ListNotations.
Local Open Scope Z_scope.

(** A hexadecimal numeral is rounded correctly too.  (strconv keeps only five digits of
    an exponent; this matters only for texts of more than 2000 bytes.) *)
Theorem C93_hexadecimal : forall s neg d f e, hex_numeral s neg d f e -> Z.abs e < 100000 \/ Z.of_nat (length s) <= 2000 ->
  number_read neg (scaled2 d (e - 4 * f)) (ParseF64 s).
Proof. exact hex_rounds. Qed.
Print Assumptions C93_hexadecimal.
(** Underscores that group the digits are ignored, any other underscore is an error. *)
Theorem C93_underscores : forall s, In 95 s ->
  (grouped s -> ParseF64 s = ParseF64 (ungrouped s)) /\ (~ grouped s -> ParseF64 s = None).
Proof. exact underscores_read. Qed.
Print Assumptions C93_underscores.
(** Every other text is an error. *)
Theorem C93_rejects_all : forall s, ~ In 95 s -> (forall x, ~ named s x) ->
  (forall neg d f e, ~ numeral s neg d f e) -> (forall neg d f e, ~ hex_numeral s neg d f e) -> ParseF64 s = None.
Proof.
  intros s N NN NM NH. unfold ParseF64. destruct (ParseFloat s) as [x|] eqn:E; [exfalso|reflexivity].
  assert (H : hexadecimal s \/ ~ hexadecimal s).
  { destruct (cut_sign_spec s) as (sign & body & neg & ES & _ & SG).
    assert (HS : sign = [] \/ sign = [43] \/ sign = [45]) by tauto.
    assert (HB : sign = [] -> hd 0 body <> 45 /\ hd 0 body <> 43).
    { intros ->. destruct SG as [(_ & _ & H)|[[Q _]|[Q _]]]; [exact H|discriminate|discriminate]. }
    rewrite ES, (hexadecimal_body sign body HS HB).
    destruct (ok_cases body) as [(x0 & r & EB & L & _)|[(y & r & EB & L & _)|[NX _]]].
    - left. eauto.
    - right. intros (x0 & r0 & E0 & L0). rewrite EB in E0. injection E0 as <- <-. lia.
    - right. intros (x0 & r0 & E0 & L0). exact (NX _ _ E0 L0). }
  destruct H as [H|H].
  - destruct (hex_only s x N H E) as (neg & d & f & e & Q). exact (NH _ _ _ _ Q).
  - destruct (parse_only s x N H E) as [Q|(neg & d & f & e & Q)]; [exact (NN x Q)|exact (NM _ _ _ _ Q)].
Qed.
Print Assumptions C93_rejects_all.
(** "-0x1.8p-1" is -0.75; "1_000.5" is 1000.5 and "0x_1p1_0" is 1024; "1__0", "_1", "1_.5",
    "0x1", "0x", "0b1" and "0_x1p1" are errors. *)
Example C93_hexadecimal_nonvacuous :
  hex_numeral [45; 48; 120; 49; 46; 56; 112; 45; 49] true 24 1 (-1) /\
  ParseF64 [45; 48; 120; 49; 46; 56; 112; 45; 49] = Some (S754_finite true 6755399441055744 (-53)) /\
  grouped [49; 95; 48; 48; 48; 46; 53] /\
  ParseF64 [49; 95; 48; 48; 48; 46; 53] = ParseF64 [49; 48; 48; 48; 46; 53] /\
  ParseF64 [49; 48; 48; 48; 46; 53] = Some (S754_finite false 8800491068719104 (-43)) /\
  ParseF64 [48; 120; 95; 49; 112; 49; 95; 48] = Some (S754_finite false 4503599627370496 (-42)) /\
  ~ grouped [49; 95; 95; 48] /\
  map ParseF64 [[49; 95; 95; 48]; [95; 49]; [49; 95; 46; 53]; [48; 120; 49]; [48; 120]; [48; 98; 49]; [48; 95; 120; 49; 112; 49]] = repeat None 7.
Proof.
  split; [exists [45], 120, [49], [46], [56], 112, [45], [49]; repeat split; auto; try (repeat constructor; unfold hex_char, digit_char; lia); try discriminate|].
  split; [vm_compute; reflexivity|].
  split.
  { intros a b E. destruct a as [|a0 [|a1 a]]; cbn [app] in E; try discriminate E.
    - injection E as E0 E1. subst. split.
      + left. exists [], 49. split; [reflexivity|]. left. unfold digit_char. lia.
      + exists 48, [48; 48; 46; 53]. split; [reflexivity|]. left. unfold digit_char. lia.
    - injection E as _ _ E. repeat (destruct a as [|? a]; cbn [app] in E; try discriminate E; injection E as E0 E; try discriminate; subst). }
  split; [vm_compute; reflexivity|]. split; [vm_compute; reflexivity|]. split; [vm_compute; reflexivity|].
  split; [|vm_compute; reflexivity].
  intros G. destruct (G [49] [95; 48] eq_refl) as [_ (c & b' & E & D)]. injection E as <- <-. unfold digit_of, digit_char, hex_char in D. lia.
Qed.
