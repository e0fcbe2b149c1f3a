(** StringProps.v -- theorems C30-C32, C71 (strings, Format, assertions).
    [utf8 cs bs]: the bytes [bs] are the UTF-8 encoding of the characters [cs]. *)
From Verif Require Import Base BaseLemmas OptionModel StringModel StringSpec StringProofs TextSpec.
Local Open Scope Z_scope.

(** ** C30 Format.  A template is a list of pieces; its text is any UTF-8 encoding of
    [source ps].  If each hole has a parameter with a Display text, the result is
    the expansion. *)
Theorem C30_format_expands : forall ps template texts rest,
  Forall plain ps -> utf8 (source ps) template -> length texts = holes ps ->
  exists o, renders ps texts o /\ Format template (map Some texts ++ rest) = Ret o.
Proof.
  intros ps template texts rest F HT HL. unfold Format. rewrite (runes_utf8 _ _ HT).
  destruct (Format_ok (map Some texts ++ rest) ps F 0 texts []) as (o & R & E).
  - intros k Hk. cbn [Nat.add]. rewrite nth_error_app1 by (rewrite map_length; lia). apply nth_error_map.
  - lia.
  - exists o. split; [exact R|exact E].
Qed.
Print Assumptions C30_format_expands.
(** The expansion is unique, so the theorem above fixes the result. *)
Theorem C30_expansion_unique : forall ps texts o1 o2, renders ps texts o1 -> renders ps texts o2 -> o1 = o2.
Proof.
  intros ps texts o1 o2 H. revert o2. induction H; intros o2 H2; inversion H2; subst; auto.
  - rewrite (utf8_char_unique _ _ H), (utf8_char_unique _ _ H4). f_equal; auto.
  - f_equal; auto.
  - f_equal; auto.
  - f_equal; auto.
Qed.
Print Assumptions C30_expansion_unique.
(** It panics exactly when some hole has no parameter, or one without Display. *)
Theorem C30_format_panics_iff : forall ps template params,
  Forall plain ps -> utf8 (source ps) template ->
  (Format template params = Panic <->
   exists k, (k < holes ps)%nat /\ (nth_error params k = None \/ nth_error params k = Some None)).
Proof.
  intros ps template params F HT. unfold Format. rewrite (runes_utf8 _ _ HT). split.
  - intros HP.
    set (bad k := match nth_error params k with Some (Some _) => false | _ => true end).
    destruct (existsb bad (seq 0 (holes ps))) eqn:EB.
    + apply existsb_exists in EB. destruct EB as (k & Hk & Hb). apply in_seq in Hk. exists k. split; [lia|].
      unfold bad in Hb. destruct (nth_error params k) as [[t|]|]; auto; discriminate.
    + exfalso.
      assert (forall k, (k < holes ps)%nat -> exists t, nth_error params k = Some (Some t)) as HG.
      { intros k Hk. destruct (nth_error params k) as [[t|]|] eqn:E; eauto;
        exfalso; assert (existsb bad (seq 0 (holes ps)) = true) as X by
          (apply existsb_exists; exists k; split; [apply in_seq; lia|unfold bad; now rewrite E]); congruence. }
      set (texts := map (fun p => match p with Some t => t | None => [] end) (firstn (holes ps) params)).
      destruct (Format_ok params ps F 0 texts []) as (o & _ & E); [| |congruence].
      * intros k Hk. cbn [Nat.add]. destruct (HG k Hk) as [t Ht]. unfold texts.
        rewrite Ht, nth_error_map, nth_error_firstn. destruct (Nat.ltb_spec k (holes ps)); [|lia]. now rewrite Ht.
      * unfold texts. rewrite map_length, firstn_length.
        destruct (Nat.le_gt_cases (holes ps) (length params)) as [L|L]; [lia|].
        destruct (HG (length params) L) as [t Ht]. assert (nth_error params (length params) = None) by (apply nth_error_None; lia). congruence.
  - intros (k & Hk & HN). eapply Format_fails; eauto.
Qed.
Print Assumptions C30_format_panics_iff.
Example C30_nonvacuous :
  Forall plain [Text 97; Hole; OpenBrace; Text 233; CloseBrace; Hole] /\
  utf8 (source [Text 97; Hole; OpenBrace; Text 233; CloseBrace; Hole]) [97; 123; 125; 123; 123; 195; 169; 125; 125; 123; 125] /\
  Format [97; 123; 125; 123; 123; 195; 169; 125; 125; 123; 125] [Some [49]; Some [50]] = Ret [97; 49; 123; 195; 169; 125; 50] /\
  Format [97; 123; 125; 123; 123; 195; 169; 125; 125; 123; 125] [Some [49]] = Panic.
Proof.
  split. { repeat constructor; unfold scalar; lia. }
  split. { change [97; 123; 125; 123; 123; 195; 169; 125; 125; 123; 125] with (EncodeRunes [97; 123; 125; 123; 123; 233; 125; 125; 123; 125]).
           apply utf8_encode. repeat constructor; unfold scalar; lia. }
  split; vm_compute; reflexivity.
Qed.
(** A template outside the grammar: after a lone "}" the next "{}" prints "}" and
    loses the parameter ("a}b{}" with x prints "ab}"). *)
Theorem C30_malformed_template_example :
  Format [97; 125; 98; 123; 125] [Some [120]] = Ret [97; 98; 125].
Proof. vm_compute. reflexivity. Qed.
Print Assumptions C30_malformed_template_example.

(** ** C31 strings as sequences of characters *)
Theorem C31_chars : forall cs bs, utf8 cs bs -> String_Chars bs = cs.
Proof. intros cs bs H. unfold String_Chars. rewrite fold_push. cbn. now apply runes_utf8. Qed.
Print Assumptions C31_chars.
Theorem C31_push : forall cs bs c, utf8 cs bs -> scalar c ->
  exists bs', String_Push bs c = (bs', bs') /\ utf8 (cs ++ [c]) bs'.
Proof.
  intros cs bs c H Hc. eexists. split; [reflexivity|]. apply utf8_app; auto.
  rewrite <- (app_nil_r (EncodeRune c)). constructor; [now apply EncodeRune_utf8|constructor].
Qed.
Print Assumptions C31_push.
Theorem C31_pop : forall bs,
  (forall cs c, utf8 (cs ++ [c]) bs -> exists bs', String_Pop bs = Ret (bs', Some c) /\ utf8 cs bs') /\
  (utf8 [] bs -> String_Pop bs = Ret (bs, None)).
Proof.
  intros bs. split.
  - intros cs c H. exists (EncodeRunes cs). split; [now apply Pop_utf8|].
    apply utf8_encode. apply utf8_scalars in H. apply Forall_app in H. tauto.
  - inversion 1. reflexivity.
Qed.
Print Assumptions C31_pop.
(** Push then Pop gives back the character and the very same bytes. *)
Theorem C31_push_pop : forall cs bs c, utf8 cs bs -> scalar c ->
  String_Pop (fst (String_Push bs c)) = Ret (bs, Some c).
Proof.
  intros cs bs c H Hc. destruct (C31_push cs bs c H Hc) as (bs' & E & H'). rewrite E. cbn [fst].
  rewrite (Pop_utf8 _ _ _ H'). now rewrite <- (utf8_encode_unique _ _ H).
Qed.
Print Assumptions C31_push_pop.
(** Any history of Push and Pop on a valid string is a stack of characters. *)
Inductive string_op := OpPush (c : Z) | OpPop.
Definition char_stack_step (cs : list Z) (o : string_op) : list Z * option Z :=
  match o with
  | OpPush c => (cs ++ [c], None)
  | OpPop => match rev cs with [] => ([], None) | c :: r => (rev r, Some c) end
  end.
Fixpoint char_stack (cs : list Z) (ops : list string_op) : list Z * list (option Z) :=
  match ops with
  | [] => (cs, [])
  | o :: r => let (cs', a) := char_stack_step cs o in let (cs'', l) := char_stack cs' r in (cs'', a :: l)
  end.
Fixpoint string_run (bs : list Z) (ops : list string_op) : out (list Z * list (option Z)) :=
  match ops with
  | [] => Ret (bs, [])
  | OpPush c :: r => let bs' := fst (String_Push bs c) in p <- string_run bs' r ;; Ret (fst p, None :: snd p)
  | OpPop :: r => q <- String_Pop bs ;; p <- string_run (fst q) r ;; Ret (fst p, snd q :: snd p)
  end.
Definition pushes_scalar (o : string_op) : Prop := match o with OpPush c => scalar c | OpPop => True end.
Theorem C31_push_pop_history : forall ops cs bs, utf8 cs bs -> Forall pushes_scalar ops ->
  exists bs', string_run bs ops = Ret (bs', snd (char_stack cs ops)) /\ utf8 (fst (char_stack cs ops)) bs'.
Proof.
  induction ops as [|o ops IH]; intros cs bs H F.
  - exists bs. auto.
  - inversion F as [|? ? Ho F']; subst. destruct o as [c|].
    + destruct (C31_push cs bs c H Ho) as (bs' & E & H'). cbn [string_run char_stack char_stack_step]. rewrite E. cbn [fst].
      destruct (IH _ _ H' F') as (b & E2 & H2). destruct (char_stack (cs ++ [c]) ops) as [c2 l2]. cbn [fst snd] in *.
      exists b. rewrite E2. auto.
    + cbn [string_run char_stack char_stack_step]. destruct (rev cs) as [|c r] eqn:ER.
      * assert (cs = []) by (rewrite <- (rev_involutive cs), ER; reflexivity). subst.
        destruct (C31_pop bs) as [_ P]. rewrite (P H). cbn [bind fst snd].
        destruct (IH _ _ H F') as (b & E2 & H2). destruct (char_stack [] ops) as [c2 l2]. cbn [fst snd] in *.
        exists b. rewrite E2. auto.
      * assert (cs = rev r ++ [c]) as -> by (rewrite <- (rev_involutive cs), ER; reflexivity).
        destruct (C31_pop bs) as [P _]. destruct (P _ _ H) as (bs' & E & H'). rewrite E. cbn [bind fst snd].
        destruct (IH _ _ H' F') as (b & E2 & H2). destruct (char_stack (rev r) ops) as [c2 l2]. cbn [fst snd] in *.
        exists b. rewrite E2. auto.
Qed.
Print Assumptions C31_push_pop_history.
(** On arbitrary bytes Pop never panics, and what it leaves is valid UTF-8. *)
Theorem C31_pop_any_bytes : forall bs, Forall (fun b => 0 <= b < 256) bs ->
  exists bs' r, String_Pop bs = Ret (bs', r) /\ (r = None <-> bs = []) /\
    (bs <> [] -> exists cs, utf8 cs bs' /\ exists c, r = Some c /\ runes bs = cs ++ [c]).
Proof.
  intros bs F. destruct bs as [|b t].
  - exists [], None. split; [reflexivity|]. split; [tauto|congruence].
  - unfold String_Pop. cbn [String_IsEmpty].
    pose proof (runes_scalar _ F) as HS.
    assert (runes (b :: t) <> []) as HN.
    { unfold runes. cbn [length runes_go]. destruct (DecodeRune (b :: t)). discriminate. }
    destruct (exists_last HN) as (cs & c & E). rewrite E in *. rewrite idx_snoc, firstn_snoc. cbn [bind].
    exists (EncodeRunes cs), (Some c). split; [reflexivity|]. split; [split; discriminate|].
    intros _. exists cs. split; [apply utf8_encode; apply Forall_app in HS; tauto|]. eauto.
Qed.
Print Assumptions C31_pop_any_bytes.
Example C31_nonvacuous :
  utf8 [233; 128512] [195; 169; 240; 159; 152; 128] /\
  String_Pop [195; 169; 240; 159; 152; 128] = Ret ([195; 169], Some 128512) /\
  String_Chars [195; 169; 240; 159; 152; 128] = [233; 128512] /\ String_Pop [255] = Ret ([], Some 65533).
Proof.
  split; [|repeat split; vm_compute; reflexivity].
  change [195; 169; 240; 159; 152; 128] with (EncodeRunes [233; 128512]). apply utf8_encode.
  repeat constructor; unfold scalar; lia.
Qed.

(** ** C32 conversions *)
Theorem C32_utf8_roundtrip : forall bytes,
  IntoBytes (StringFromUTF8 bytes) = bytes /\ StringFromUTF8 (IntoBytes bytes) = bytes /\
  String_Len bytes = Z.of_nat (length bytes) /\ (String_IsEmpty bytes = true <-> String_Len bytes = 0).
Proof.
  intros bytes. unfold IntoBytes, StringFromUTF8, String_Len. rewrite fold_push. cbn.
  split; [auto|]. split; [auto|]. split; [auto|]. destruct bytes; cbn; split; intros; try discriminate; auto.
Qed.
Print Assumptions C32_utf8_roundtrip.
(** UTF-16 is false: only every other unit is read ("ab" gives "a"), and invalid
    data is accepted. *)
Theorem C32_utf16_refuted :
  utf16 [97; 98] [97; 98] /\ StringFromUTF16 [97; 98] = Ok [97] /\
  (forall cs, ~ utf16 cs [56320]) /\ StringFromUTF16 [56320] = Ok [239; 191; 189].
Proof.
  split. { repeat constructor; unfold scalar; lia. }
  split; [vm_compute; reflexivity|]. split; [|vm_compute; reflexivity].
  intros cs H. inversion H; subst; unfold scalar in *; lia.
Qed.
Print Assumptions C32_utf16_refuted.
(** It never returns Err: its documented error case does not exist. *)
Theorem C32_utf16_never_errs_characterised : forall units, exists s, StringFromUTF16 units = Ok s.
Proof. intros. eexists. reflexivity. Qed.
Print Assumptions C32_utf16_never_errs_characterised.
Lemma utf16_Decode_ok cs us : utf16 cs us -> utf16_Decode us = cs.
Proof.
  induction 1 as [|c cs us H1 H2 _ IH|c cs us a b H1 H2 Ha Hb E _ IH]; [reflexivity| |].
  - cbn [utf16_Decode]. unfold scalar in H1.
    destruct (Z.ltb_spec c 55296); cbn [orb]; [now rewrite IH|]. destruct (Z.leb_spec 57344 c); [now rewrite IH|lia].
  - cbn [utf16_Decode].
    destruct (Z.ltb_spec (55296 + a) 55296); [lia|]. destruct (Z.leb_spec 57344 (55296 + a)); [lia|]. cbn [orb].
    destruct (Z.ltb_spec (55296 + a) 56320); [|lia]. destruct (Z.leb_spec 56320 (56320 + b)); [|lia].
    destruct (Z.ltb_spec (56320 + b) 57344); [|lia]. cbn [andb]. rewrite IH. f_equal. lia.
Qed.
Lemma utf16_scalars cs us : utf16 cs us -> Forall scalar cs.
Proof. induction 1; constructor; auto. Qed.
(** What it does decode: the units at even positions; if those are valid UTF-16 for
    [cs] the result is the UTF-8 of [cs].  Missing: the units at odd positions. *)
Fixpoint evens {A} (l : list A) : list A :=
  match l with [] => [] | [x] => [x] | x :: _ :: t => x :: evens t end.
Theorem C32_utf16_partial : forall cs units, utf16 cs (evens units) ->
  exists s, StringFromUTF16 units = Ok s /\ utf8 cs s.
Proof.
  intros cs units H. unfold StringFromUTF16.
  assert (every_other units = evens units) as ->.
  { clear H. revert units. fix IH 1. intros [|a [|b t]]; cbn; auto. now rewrite IH. }
  rewrite (utf16_Decode_ok _ _ H). eexists. split; [reflexivity|]. apply utf8_encode. eapply utf16_scalars; eauto.
Qed.
Print Assumptions C32_utf16_partial.
Example C32_nonvacuous : utf16 [233] (evens [233; 7]) /\ StringFromUTF16 [233; 7] = Ok [195; 169].
Proof. split; [repeat constructor; unfold scalar; lia|vm_compute; reflexivity]. Qed.

(** ** C71 assertions *)
(** They panic exactly when they should. *)
Theorem C71_assertions_panic_iff : forall (b : bool) l r args,
  (Assert b args = Passed <-> b = true) /\
  (AssertEq b l r args = Passed <-> b = true) /\ (AssertNe b l r args = Passed <-> b = false).
Proof.
  assert (forall m, fails_with m <> Passed) as HF by (intros [t| |]; discriminate).
  assert (forall m (P : Prop), fails_with m = Passed -> P) as HF2 by (intros m P H; destruct (HF m H)).
  intros [] l r args; unfold Assert, AssertEq, AssertNe; cbn [negb]; split; [|split| |split]; split; intros H; auto;
    try discriminate; try (eapply HF2; exact H); destruct args as [|[] ?]; eapply HF2; exact H.
Qed.
Print Assumptions C71_assertions_panic_iff.
(** Without a message the text is the documented one. *)
Theorem C71_default_messages : forall l r,
  Assert false [] = Failed assertion_failed /\
  AssertEq false (Some l) (Some r) [] = Failed (assertion_failed ++ [58; 32] ++ l ++ [32; 33; 61; 32] ++ r) /\
  AssertNe true (Some l) (Some r) [] = Failed (assertion_failed ++ [58; 32] ++ l ++ [32; 61; 61; 32] ++ r).
Proof.
  intros l r. split; [vm_compute; reflexivity|].
  split; unfold AssertEq, AssertNe; cbn [negb]; unfold assert_message, Format, ne_template, eq_template; vm_compute runes;
    cbn; repeat rewrite <- app_assoc; reflexivity.
Qed.
Print Assumptions C71_default_messages.
(** False part: a message with placeholders is expanded with itself as the first
    argument (and a plain Go string message crashes the formatter instead). *)
Theorem C71_message_arguments_refuted :
  Assert false [AString [98; 123; 125]; AOther (Some [55])] = Failed [98; 98; 123; 125] /\
  AssertEq false (Some [49]) (Some [50]) [AGoString [98; 123; 125]; AOther (Some [55])] = Crashed /\
  Assert false [AGoString [98]] = Failed assertion_failed.
Proof. repeat split; vm_compute; reflexivity. Qed.
Print Assumptions C71_message_arguments_refuted.
(** A message without placeholders is reported as written (escapes expanded).
    Missing: messages with placeholders. *)
Theorem C71_message_partial : forall ps message args,
  Forall plain ps -> utf8 (source ps) message -> holes ps = 0%nat ->
  exists text, renders ps [] text /\
    Assert false (AString message :: args) = Failed text /\
    forall l r, AssertEq false (Some l) (Some r) (AString message :: args)
      = Failed (assertion_failed ++ [58; 32] ++ l ++ [32; 33; 61; 32] ++ r ++ gt3 ++ text) /\
      AssertNe true (Some l) (Some r) (AString message :: args)
      = Failed (assertion_failed ++ [58; 32] ++ l ++ [32; 61; 61; 32] ++ r ++ gt3 ++ text).
Proof.
  intros ps message args F HT H0.
  destruct (C30_format_expands ps message [] (map arg_display (AString message :: args)) F HT (eq_sym H0)) as (o & R & E).
  cbn [map app arg_display] in E. exists o. split; auto.
  split. { unfold Assert. cbn [negb map arg_display]. now rewrite E. }
  intros l r. destruct (C71_default_messages l r) as (_ & E1 & E2).
  unfold AssertEq, AssertNe in *. cbn [negb] in *. unfold assert_message in *.
  split.
  - destruct (Format ne_template [Some l; Some r]) as [t| |]; cbn [bind fails_with] in E1; try discriminate.
    injection E1 as ->. cbn [bind map arg_display]. rewrite E. cbn [bind fails_with]. f_equal.
    unfold assertion_failed. cbn [app]. rewrite <- !app_assoc. cbn [app]. reflexivity.
  - destruct (Format eq_template [Some l; Some r]) as [t| |]; cbn [bind fails_with] in E2; try discriminate.
    injection E2 as ->. cbn [bind map arg_display]. rewrite E. cbn [bind fails_with]. f_equal.
    unfold assertion_failed. cbn [app]. rewrite <- !app_assoc. cbn [app]. reflexivity.
Qed.
Print Assumptions C71_message_partial.
Example C71_nonvacuous :
  Assert false [AString [98; 97; 100]] = Failed [98; 97; 100] /\ Assert true [AString [98]] = Passed.
Proof. split; vm_compute; reflexivity. Qed.
(** Unimplemented, Unreachable and Todo always panic: with the first message, taken as
    it is, or with their own text. *)
Theorem C71_always_panic : forall m r,
  Unimplemented (m :: r) = Failed m /\ Unreachable (m :: r) = Failed m /\ Todo (m :: r) = Failed m /\
  Unimplemented [] = Failed (zs "not implemented") /\ Unreachable [] = Failed (zs "unreachable") /\ Todo [] = Failed (zs "todo").
Proof. intros m r. repeat split. Qed.
Print Assumptions C71_always_panic.
