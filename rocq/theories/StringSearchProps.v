(** StringSearchProps.v -- C82 .. C87: searching, cutting, replacing, repeating,
    trimming and changing the case of strings. *)
From Coq Require Import Lia.
From Verif Require Import Base OptionModel StringModel StringSpec StringProofs StringSearchModel StringSearchSpec
  StringSearchProofs TextSpec.
Local Open Scope Z_scope.

(** *** C82: Find gives the first position of the pattern, Contains says whether there is one *)
Theorem C82_find_contains : forall s p,
  (forall i, String_Find s p = Some i <-> first_at p s i) /\
  (String_Find s p = None <-> ~ occurs p s) /\
  (String_Contains s p = true <-> occurs p s).
Proof. intros s p. split; [intros i; apply Find_some|]. split; [apply Find_none|apply Contains_iff]. Qed.
Print Assumptions C82_find_contains.

(** In UTF-8 text the position is that of a character: the byte index of the
    first place where the pattern's characters stand. *)
Theorem C82_find_characters : forall cs s ps p, utf8 cs s -> utf8 ps p ->
  (String_Contains s p = true <-> occurs ps cs) /\
  (forall i, String_Find s p = Some i -> exists before after b,
     cs = before ++ ps ++ after /\ first_at ps cs (Z.of_nat (length before)) /\
     utf8 before b /\ i = Z.of_nat (length b)).
Proof.
  intros cs s ps p V U. split; [rewrite Contains_iff; apply occurs_chars; assumption|].
  intros i. apply Find_chars; assumption.
Qed.
Print Assumptions C82_find_characters.

(** "é!é" holds "é" at byte 0, "!" at byte 2; "ê" (the same lead byte) is not in it. *)
Example C82_nonvacuous :
  utf8 [233; 33; 233] [195; 169; 33; 195; 169] /\
  String_Find [195; 169; 33; 195; 169] [33] = Some 2 /\
  String_Find [195; 169; 33; 195; 169] [195; 169] = Some 0 /\
  String_Find [195; 169; 33; 195; 169] [195; 170] = None /\
  String_Find [195; 169; 33; 195; 169] [] = Some 0 /\
  String_Contains (zs "hello") (zs "llo") = true /\ String_Contains (zs "llo") (zs "hello") = false.
Proof.
  split; [|repeat split; vm_compute; reflexivity].
  change [195; 169; 33; 195; 169] with (EncodeRunes [233; 33; 233]). apply utf8_encode.
  repeat constructor; unfold scalar; lia.
Qed.

(** *** C83: Split cuts at every occurrence of the separator and at nothing else *)
Theorem C83_split : forall s sep, sep <> [] ->
  cut sep s (String_Split s sep) /\
  join sep (String_Split s sep) = s /\
  Forall (fun p => ~ occurs sep p) (String_Split s sep).
Proof.
  intros s sep NE. pose proof (Split_cut s sep NE) as C.
  split; [exact C|]. split; [apply cut_join, C|eapply cut_free; eauto].
Qed.
Print Assumptions C83_split.

(** The cut is unique: [cut] leaves nothing open. *)
Theorem C83_only_one : forall s sep ps, sep <> [] -> cut sep s ps -> String_Split s sep = ps.
Proof. exact (fun s sep ps => Split_of_cut s sep ps). Qed.
Print Assumptions C83_only_one.

(** The pieces of UTF-8 text are the UTF-8 of the pieces of the text. *)
Theorem C83_split_characters : forall cs s sp sep, sp <> [] -> utf8 cs s -> utf8 sp sep ->
  exists pieces, cut sp cs pieces /\ Forall2 utf8 pieces (String_Split s sep).
Proof.
  intros cs s sp sep NE V U. eapply cut_utf8; eauto. apply Split_cut.
  intros ->. apply NE. apply utf8_empty with (1 := U).
Qed.
Print Assumptions C83_split_characters.

(** The empty separator cuts between all characters. *)
Theorem C83_split_empty_separator : forall cs s, utf8 cs s -> Forall2 utf8_char cs (String_Split s []).
Proof. exact Split_empty. Qed.
Print Assumptions C83_split_empty_separator.

Example C83_nonvacuous :
  String_Split (zs "a,,b,") (zs ",") = [zs "a"; []; zs "b"; []] /\
  String_Split (zs "aaa") (zs "aa") = [[]; zs "a"] /\
  String_Split (zs "abc") (zs "x") = [zs "abc"] /\ String_Split [] (zs ",") = [[]] /\
  String_Split [195; 169; 33] [] = [[195; 169]; [33]].
Proof. repeat split; vm_compute; reflexivity. Qed.

(** *** C84: Replace writes the new text for every occurrence of the old *)
Theorem C84_replace : forall s old new ps, old <> [] -> cut old s ps -> String_Replace s old new = join new ps.
Proof. exact (fun s old new ps => Replace_cut s old new ps). Qed.
Print Assumptions C84_replace.

(** What does not hold the old text is left as it is; replacing a text by itself
    changes nothing; replacing is splitting at the old and joining with the new. *)
Theorem C84_replace_split : forall s old new, old <> [] ->
  String_Replace s old new = join new (String_Split s old) /\
  (~ occurs old s -> String_Replace s old new = s) /\
  String_Replace s old old = s.
Proof.
  intros s old new NE. pose proof (Split_cut s old NE) as C. split; [|split].
  - apply Replace_cut; assumption.
  - intros N. rewrite (Replace_cut s old new [s] NE); [reflexivity|]. constructor. exact N.
  - rewrite (Replace_cut s old old _ NE C). apply cut_join, C.
Qed.
Print Assumptions C84_replace_split.

(** The empty text is found before every character and at the end. *)
Theorem C84_replace_empty : forall cs s new bs, utf8 cs s -> Forall2 utf8_char cs bs ->
  String_Replace s [] new = new ++ flat_map (fun b => b ++ new) bs.
Proof. exact Replace_empty. Qed.
Print Assumptions C84_replace_empty.

Example C84_nonvacuous :
  String_Replace (zs "this is old") (zs "is") (zs "at") = zs "that at old" /\
  String_Replace (zs "aaa") (zs "aa") (zs "b") = zs "ba" /\
  String_Replace (zs "aaa") (zs "a") (zs "aa") = zs "aaaaaa" /\
  String_Replace (zs "ab") [] (zs "-") = zs "-a-b-".
Proof. repeat split; vm_compute; reflexivity. Qed.

(** *** C85: Repeat n gives n copies *)
(** For every string that exists and every USize: [n] copies, or a panic exactly
    when [n], or the length of the result, is 2^63 or more. *)
Theorem C85_characterised : forall s n, 0 <= n < 2 ^ 64 -> Z.of_nat (length s) < 2 ^ 63 ->
  (n < 2 ^ 63 /\ Z.of_nat (length s) * n < 2 ^ 63 -> String_Repeat s n = Ret (copies (Z.to_nat n) s)) /\
  (2 ^ 63 <= n \/ 2 ^ 63 <= Z.of_nat (length s) * n -> String_Repeat s n = Panic).
Proof.
  intros s n HN HL. rewrite (Repeat_exact s n HN HL). split.
  - intros [A B]. apply Z.ltb_lt in A, B. rewrite A, B. reflexivity.
  - intros [A|A]; destruct (Z.ltb_spec n (2 ^ 63)), (Z.ltb_spec (Z.of_nat (length s) * n) (2 ^ 63)); try lia; reflexivity.
Qed.
Print Assumptions C85_characterised.

(** Where the result of a non-empty string can exist at all, it is what one expects. *)
Theorem C85_partial : forall s n, 0 <= n < 2 ^ 64 -> s <> [] ->
  Z.of_nat (length (copies (Z.to_nat n) s)) < 2 ^ 63 -> Z.of_nat (length s) < 2 ^ 63 ->
  String_Repeat s n = Ret (copies (Z.to_nat n) s).
Proof.
  intros s n HN NE HC HL. rewrite copies_length, Nat2Z.inj_mul, Z2Nat.id in HC by lia.
  apply C85_characterised; try assumption.
  assert (1 <= Z.of_nat (length s)) by (destruct s; [congruence|cbn [length]; lia]). nia.
Qed.
Print Assumptions C85_partial.

(** The empty string repeated 2^63 times is the empty string, but Repeat panics. *)
Theorem C85_refuted : exists n, 0 <= n < 2 ^ 64 /\ copies (Z.to_nat n) [] = [] /\ String_Repeat [] n = Panic.
Proof.
  exists (2 ^ 63). split; [lia|]. split; [|reflexivity].
  generalize (Z.to_nat (2 ^ 63)). intros n. induction n as [|n IH]; [reflexivity|exact IH].
Qed.
Print Assumptions C85_refuted.

Example C85_nonvacuous :
  String_Repeat (zs "ab") 3 = Ret (zs "ababab") /\ String_Repeat (zs "ab") 0 = Ret [] /\
  String_Repeat [] 7 = Ret [] /\ String_Repeat (zs "ab") (2 ^ 62) = Panic.
Proof. repeat split; vm_compute; reflexivity. Qed.

(** *** C86: Trim removes the white space around a text, all of it and nothing else *)
Theorem C86_trim : forall cs s, utf8 cs s -> exists mid, trimmed cs mid /\ utf8 mid (String_Trim s).
Proof. exact Trim_utf8. Qed.
Print Assumptions C86_trim.

(** There is only one such text, so Trim is determined; trimming again changes nothing. *)
Theorem C86_trim_determined : forall cs s mid t, utf8 cs s -> trimmed cs mid -> utf8 mid t ->
  String_Trim s = t /\ String_Trim t = t.
Proof.
  assert (H : forall cs s mid t, utf8 cs s -> trimmed cs mid -> utf8 mid t -> String_Trim s = t).
  { intros cs s mid t V T U. destruct (Trim_utf8 _ _ V) as (m & T' & U').
    rewrite (trimmed_unique _ _ _ T' T) in U'. eapply utf8_det; eauto. }
  intros cs s mid t V T U. split; [eapply H; eauto|].
  apply (H mid t mid t U); [|exact U]. destruct T as (lead & tail & _ & _ & _ & A & B).
  exists [], []. rewrite app_nil_r. repeat split; try constructor; assumption.
Qed.
Print Assumptions C86_trim_determined.

(** Ideographic space, tab and no-break space around "é x"; only white space. *)
Example C86_nonvacuous :
  String_Trim [227; 128; 128; 9; 195; 169; 32; 120; 194; 160; 10] = [195; 169; 32; 120] /\
  String_Trim (zs "  plain ") = zs "plain" /\ String_Trim [32; 227; 128; 128; 13] = [] /\
  utf8 [12288; 9; 233; 32; 120; 160; 10] [227; 128; 128; 9; 195; 169; 32; 120; 194; 160; 10].
Proof.
  repeat split; try (vm_compute; reflexivity).
  change [227; 128; 128; 9; 195; 169; 32; 120; 194; 160; 10] with (EncodeRunes [12288; 9; 233; 32; 120; 160; 10]).
  apply utf8_encode. repeat constructor; unfold scalar; lia.
Qed.

(** *** C87: ToLowercase and ToUppercase convert character by character *)
(** [f] stands for Unicode's mapping of single characters: any that agrees with
    the alphabet on ASCII and maps characters to characters. *)
Theorem C87_lowercase : forall f, (forall c, 0 <= c < 128 -> ascii_lower c (f c)) ->
  (forall c, scalar c -> scalar (f c)) ->
  forall cs s, utf8 cs s -> utf8 (map f cs) (String_ToLowercase f s).
Proof. intros f A S cs s. apply lower_utf8; assumption. Qed.
Print Assumptions C87_lowercase.
Theorem C87_uppercase : forall f, (forall c, 0 <= c < 128 -> ascii_upper c (f c)) ->
  (forall c, scalar c -> scalar (f c)) ->
  forall cs s, utf8 cs s -> utf8 (map f cs) (String_ToUppercase f s).
Proof. intros f A S cs s. apply upper_utf8; assumption. Qed.
Print Assumptions C87_uppercase.

(** ASCII text is converted letter by letter whatever the table says. *)
Theorem C87_ascii : forall f s, Forall (fun b => 0 <= b < 128) s ->
  Forall2 ascii_lower s (String_ToLowercase f s) /\ Forall2 ascii_upper s (String_ToUppercase f s).
Proof.
  intros f s F. assert (isASCII s = true) as E.
  { unfold isASCII. apply forallb_forall. intros b H. apply Z.ltb_lt. rewrite Forall_forall in F. apply F in H. lia. }
  unfold String_ToLowercase, strings_ToLower, String_ToUppercase, strings_ToUpper. rewrite E.
  clear. split; induction s as [|c s IH]; constructor; try assumption; [apply lower_byte_spec|apply upper_byte_spec].
Qed.
Print Assumptions C87_ascii.

(** If the table's capitals have no other small letter, converting twice is converting once. *)
Theorem C87_idempotent : forall f, (forall c, 0 <= c < 128 -> ascii_lower c (f c)) ->
  (forall c, scalar c -> scalar (f c)) -> (forall c, f (f c) = f c) ->
  forall cs s, utf8 cs s -> String_ToLowercase f (String_ToLowercase f s) = String_ToLowercase f s.
Proof.
  intros f A S I cs s V. pose proof (lower_utf8 f cs s A S V) as U. pose proof (lower_utf8 f _ _ A S U) as W.
  rewrite map_map in W. rewrite (map_ext (fun x => f (f x)) f I) in W. eapply utf8_det; eauto.
Qed.
Print Assumptions C87_idempotent.

(** A mapping that also knows É/é. *)
Definition small (c : Z) : Z := if c =? 201 then 233 else lower_byte c.
Example C87_nonvacuous :
  (forall c, 0 <= c < 128 -> ascii_lower c (small c)) /\ (forall c, scalar c -> scalar (small c)) /\
  (forall c, small (small c) = small c) /\
  String_ToLowercase small [195; 137; 88; 33] = [195; 169; 120; 33] /\
  String_ToLowercase small (zs "Hello, X!") = zs "hello, x!" /\ String_ToUppercase small (zs "Hello, x!") = zs "HELLO, X!".
Proof.
  split; [|split; [|split]].
  - intros c H. unfold small. destruct (Z.eqb_spec c 201); [lia|apply lower_byte_spec].
  - intros c H. unfold small. destruct (Z.eqb_spec c 201); [unfold scalar; lia|].
    destruct (lower_byte_spec c) as [[P ->]|[_ ->]]; [unfold scalar in *; lia|exact H].
  - intros c. unfold small. destruct (Z.eqb_spec c 201); [subst; reflexivity|].
    destruct (lower_byte_spec c) as [[P E]|[P E]]; rewrite E.
    + destruct (Z.eqb_spec (c + 32) 201); [lia|]. destruct (lower_byte_spec (c + 32)) as [[Q E']|[Q E']]; [lia|exact E'].
    + destruct (Z.eqb_spec c 201); [lia|]. exact E.
  - repeat split; vm_compute; reflexivity.
Qed.
