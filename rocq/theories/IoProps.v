(** IoProps.v -- theorems C100 and C101 (the console). *)
From Coq Require Import Lia.
From Verif Require Import Base StringModel StringSpec StringProofs StringProps TextSpec IoModel IoSpec IoProofs.
Local Open Scope Z_scope.

(** ** C100 ReadLine "reads a line of input, appending it to the specified buffer".
    What it does: it replaces the buffer by the first word of the line, without the white
    space around it.  If there is a second word on the line, its first character is lost
    and the next call goes on in the middle of the line. *)
Theorem C100_read_line_characterised : forall buffer input buffer' rest,
  ReadLine buffer input = (buffer', rest) <-> exists w, scanned input w rest /\ buffer' = EncodeRunes w.
Proof. exact ReadLine_scanned. Qed.
Print Assumptions C100_read_line_characterised.
(** The result is the same whatever was in the buffer, so nothing is ever appended to a
    buffer that is not empty; a line of two words is not read as a line. *)
Theorem C100_read_line_refuted :
  (forall buffer buffer' input, ReadLine buffer input = ReadLine buffer' input) /\
  (forall input t rest, ~ documented_chomped EncodeRunes (zs "abc") (zs "d" ++ 10 :: input) (fst (ReadLine (zs "abc") (zs "d" ++ 10 :: input))) rest /\
     ~ documented EncodeRunes (zs "abc") (zs "d" ++ 10 :: input) (fst (ReadLine (zs "abc") (zs "d" ++ 10 :: input))) t) /\
  ReadLine [] (zs "ab cd" ++ 10 :: zs "e") = (zs "ab", zs "d" ++ 10 :: zs "e").
Proof.
  split; [reflexivity|]. split; [|vm_compute; reflexivity]. intros input t rest.
  assert (E : ReadLine (zs "abc") (zs "d" ++ 10 :: input) = (zs "d", input)).
  { apply ReadLine_scanned. exists (zs "d"). split; [|reflexivity]. apply (scan_word [] (zs "d") [] input); [constructor| |constructor].
    split; [discriminate|]. constructor; [unfold white; cbn; lia|constructor]. }
  rewrite E. cbn [fst]. split; intros H; inversion H as [l r N D Q|N Q]; discriminate.
Qed.
Print Assumptions C100_read_line_refuted.
(** With an empty buffer and a line that is one word (or empty) it does read the line. *)
Theorem C100_read_line_partial : forall input t rest w,
  (word w \/ w = []) -> (input = w ++ 10 :: rest \/ (input = w /\ rest = [])) -> ReadLine [] input = (t, rest) ->
  documented_chomped EncodeRunes [] input t rest.
Proof.
  intros input t rest w W I H.
  assert (NW : ~ In 10 w).
  { destruct W as [[_ F]| ->]; [|intros []]. intros X. rewrite Forall_forall in F. exact (F 10 X white_10). }
  assert (E : ReadLine [] input = (EncodeRunes w, rest)).
  { apply ReadLine_scanned. exists w. split; [|reflexivity]. destruct W as [W| ->], I as [-> |[-> ->]].
    - apply (scan_word [] w [] rest); auto; constructor.
    - replace w with ([] ++ w ++ []) at 1 by (cbn; apply app_nil_r). apply (scan_last_word [] w []); auto; constructor.
    - apply (scan_empty_line [] rest). constructor.
    - apply (scan_end []). constructor. }
  rewrite E in H. injection H as <-. destruct I as [-> |[-> ->]].
  - apply (chomp_line EncodeRunes [] _ w rest NW eq_refl).
  - apply (chomp_last EncodeRunes [] w NW).
Qed.
Print Assumptions C100_read_line_partial.
(** The word is UTF-8 if the input is a sequence of characters. *)
Theorem C100_word_is_utf8 : forall buffer input t rest, Forall scalar input -> ReadLine buffer input = (t, rest) ->
  exists w, utf8 w t /\ scanned input w rest.
Proof.
  intros buffer input t rest S H. apply ReadLine_scanned in H. destruct H as (w & C & ->). exists w. split; [|exact C].
  apply utf8_encode. rewrite Forall_forall in S. rewrite Forall_forall. intros x X. apply S.
  inversion C; subst; try (destruct X; fail); apply in_or_app; right; apply in_or_app; left; exact X.
Qed.
Print Assumptions C100_word_is_utf8.
Example C100_nonvacuous :
  ReadLine [] (zs "hello" ++ 10 :: zs "x y") = (zs "hello", zs "x y") /\ ReadLine (zs "hello") (zs "x y") = (zs "x", []) /\
  word (zs "hello") /\ ReadLine [] (32 :: 10 :: zs "q") = ([], zs "q").
Proof.
  split; [vm_compute; reflexivity|]. split; [vm_compute; reflexivity|]. split; [|vm_compute; reflexivity].
  split; [discriminate|]. repeat (apply Forall_cons; [unfold white; cbn; lia|]). apply Forall_nil.
Qed.

(** ** C101 Print writes the expansion of its template to standard output, after what is
    there; Println adds a newline; if the expansion panics nothing is written. *)
Theorem C101_print : forall ps template texts rest stdout,
  Forall plain ps -> utf8 (source ps) template -> length texts = holes ps ->
  exists o, renders ps texts o /\
    Print stdout template (map Some texts ++ rest) = Ret (stdout ++ o) /\
    Println stdout template (map Some texts ++ rest) = Ret (stdout ++ o ++ [10]).
Proof.
  intros ps template texts rest stdout P U L. destruct (C30_format_expands ps template texts rest P U L) as (o & R & E).
  exists o. split; [exact R|]. unfold Println, Print. rewrite E. cbn [bind]. rewrite <- app_assoc. auto.
Qed.
Print Assumptions C101_print.
Theorem C101_print_panics : forall ps template params stdout,
  Forall plain ps -> utf8 (source ps) template ->
  (Print stdout template params = Panic <-> exists k, (k < holes ps)%nat /\ (nth_error params k = None \/ nth_error params k = Some None)) /\
  (Println stdout template params = Panic <-> Print stdout template params = Panic).
Proof.
  intros ps template params stdout P U. rewrite <- (C30_format_panics_iff ps template params P U). unfold Println, Print.
  destruct (Format template params); cbn [bind]; split; split; try discriminate; auto.
Qed.
Print Assumptions C101_print_panics.
Example C101_nonvacuous :
  Println (zs "a") (zs "{} + {{}}") [Some (zs "1")] = Ret (zs "a1 + {}" ++ [10]) /\ Print (zs "a") (zs "{}{}") [Some (zs "1")] = Panic.
Proof. split; vm_compute; reflexivity. Qed.
