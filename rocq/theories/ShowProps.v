(** ShowProps.v -- theorems C96-C99 (texts of values of any type). *)
From Coq Require Import ZArith Lia Bool List Floats.SpecFloat.
From Verif Require Import Base IntModel IntSpec DecimalModel DecimalSpec DecimalProofs Int128Model Int128Spec Int128Proofs
  FloatSpec FloatModel FloatTextModel FloatTextSpec FloatTextProps StringModel StringSpec HashModel TextSpec ShowModel ShowSpec ShowProofs.
Import ListNotations.
Local Open Scope Z_scope.

(** ** C96 Display of a value of any shape, to any depth of nesting, is the text of its
    structure. *)
Theorem C96_display : forall v t, Display v = Ret t <-> shown v t.
Proof. exact Display_shown. Qed.
Print Assumptions C96_display.
(** It panics exactly if a Pair, a value without a Display method or an empty BTreeSet
    is somewhere inside, and never runs forever. *)
Theorem C96_panics : forall v, (Display v = Panic <-> ~ displayable v) /\ Display v <> Diverge.
Proof. intros v. split; [apply Display_panics|apply Display_total]. Qed.
Print Assumptions C96_panics.
(** Debug of everything but the primitive types is the same text. *)
Theorem C96_debug_of_containers : forall v, (forall p, v <> VPrim p) -> Debug v = Display v.
Proof. intros [p| | | | | | |] H; try reflexivity. destruct (H p eq_refl). Qed.
Print Assumptions C96_debug_of_containers.
Example C96_nonvacuous :
  let i x := VPrim (PInt ISize x) in
  let v := VMap HashMap [(VPrim (PString (zs "k")), VSeq Vec [VOption (Some (i 1)); VOption None]); (VPrim (PString []), VSeq Vec [])] in
  shown v (zs "HashMap{k: Vec[Some(1), None], : Vec[]}") /\ displayable v /\
  Display (VSeq Vec [VPair (i 1) (i 2)]) = Panic /\ ~ displayable (VOk (VSeq BTreeSet [])).
Proof.
  cbv zeta. split; [apply C96_display; vm_compute; reflexivity|]. split; [repeat split; discriminate|]. split; [reflexivity|].
  intros [H _]. now apply H.
Qed.

(** ** C97 Two different values of the same type have different texts: for every type
    built from integers, U128, floats, Byte, Char and Bool by Option, the five sequence
    and the two map types, to any depth. *)
Theorem C97_text_injective_partial : forall t v w a, of_type v t -> of_type w t -> Display v = Ret a -> Display w = Ret a -> v = w.
Proof. exact Display_injective. Qed.
Print Assumptions C97_text_injective_partial.
(** More: a text of such a type ends where it ends, whatever is printed after it (a
    separator, a bracket or nothing). *)
Theorem C97_text_delimited_partial : forall t v w a b r r', of_type v t -> of_type w t -> Display v = Ret a -> Display w = Ret b ->
  (r = [] \/ exists c q, r = c :: q /\ In c (zs ",])}:")) -> (r' = [] \/ exists c q, r' = c :: q /\ In c (zs ",])}:")) ->
  a ++ r = b ++ r' -> v = w /\ r = r'.
Proof.
  intros t v w a b r r' Tv Tw Dv Dw Er Er' E. apply Display_shown in Dv, Dw.
  assert (H : forall r, (r = [] \/ exists c q, r = c :: q /\ In c (zs ",])}:")) -> ends r).
  { intros q [->|(c & q' & -> & I)]; [exact I|]. cbn in I. cbn [ends]. unfold stops. lia. }
  destruct (unambiguous_all t v w a b r r' Tv Tw Dv Dw (H r Er) (H r' Er') E) as (A & _ & B). auto.
Qed.
Print Assumptions C97_text_delimited_partial.
(** Strings are printed without quotation marks, an Err without a word, and I128 prints
    some numbers as others: there the text does not tell values apart. *)
Theorem C97_text_injective_refuted :
  let s x := VPrim (PString x) in
  (Display (VSeq Vec [s (zs "a, b")]) = Display (VSeq Vec [s (zs "a"); s (zs "b")])) /\
  (Display (VErr (zs "Ok(1)")) = Display (VOk (VPrim (PInt ISize 1)))) /\
  (ivalid (mkI (-1) 0) /\ ivalid (mkI 0 0) /\ mkI (-1) 0 <> mkI 0 0 /\ Display (VPrim (PI128 (mkI (-1) 0))) = Display (VPrim (PI128 (mkI 0 0)))).
Proof. cbv zeta. repeat split; cbn; try lia; try discriminate; vm_compute; reflexivity. Qed.
Print Assumptions C97_text_injective_refuted.
Example C97_nonvacuous :
  let t := TMap BTreeMap (TInt U8) (TSeq LinkedList (TOption TBool)) in
  let v := VMap BTreeMap [(VPrim (PInt U8 7), VSeq LinkedList [VOption (Some (VPrim (PBool true))); VOption None])] in
  of_type v t /\ Display v = Ret (zs "BTreeMap{7: LinkedList[Some(true), None]}").
Proof. cbv zeta. split; [repeat (constructor; try (unfold in_range; cbn; lia))|vm_compute; reflexivity]. Qed.

(** ** C98 Debug of a primitive value is its type's name with its text in parentheses; so
    it tells the type and, whenever the text does, the value. *)
Theorem C98_debug : forall p, Debug (VPrim p) = Ret (type_word p ++ zs "(" ++ prim_ToString p ++ zs ")") /\
  Display (VPrim p) = Ret (prim_ToString p).
Proof. intros [[]| | | | | | | | | |]; split; reflexivity. Qed.
Print Assumptions C98_debug.
Theorem C98_debug_tells_type : forall p q a, Debug (VPrim p) = Ret a -> Debug (VPrim q) = Ret a ->
  type_word p = type_word q /\ prim_ToString p = prim_ToString q.
Proof.
  intros p q a Hp Hq. rewrite (proj1 (C98_debug p)) in Hp. rewrite (proj1 (C98_debug q)) in Hq.
  assert (E : type_word p ++ 40 :: prim_ToString p ++ [41] = type_word q ++ 40 :: prim_ToString q ++ [41]).
  { injection Hp as Ep. injection Hq as Eq. exact (eq_trans Ep (eq_sym Eq)). }
  clear Hp Hq. assert (N : forall p, ~ In 40 (type_word p)) by (intros [[]| | | | | | | | | |]; cbn; lia).
  pose proof (N p) as Np. pose proof (N q) as Nq. revert E Np Nq. generalize (type_word p) as l. generalize (type_word q) as m. clear.
  induction m as [|c m IH]; intros [|d l] E Np Nq; cbn [app] in E.
  - injection E as E. apply app_inj_tail in E. destruct E as [E _]. auto.
  - injection E as -> _. destruct Np. now left.
  - injection E as <- _. destruct Nq. now left.
  - injection E as -> E. destruct (IH l E) as [-> F]; [intros X; apply Np; now right|intros X; apply Nq; now right|]. auto.
Qed.
Print Assumptions C98_debug_tells_type.
(** The text itself. *)
Theorem C98_primitive_text : forall p, prim_ok p -> prim_text p (prim_ToString p).
Proof.
  intros [t x|a|a|x|x|x|x|b|b|[a b]|[a b]] V; cbn [prim_ok prim_text prim_ToString] in *.
  - intros H. now apply ToString_canonical.
  - intros H. destruct (Z.ltb_spec (ival a) 0).
    + rewrite I128_ToString_neg_ok by (auto; apply neg_ok_awkward; auto). apply Itoa_canonical.
    + rewrite I128_ToString_nonneg by auto. apply Itoa_canonical.
  - rewrite U128_ToString_Itoa by exact V. apply Itoa_canonical.
  - now apply F32_text.
  - now apply F64_text.
  - apply Itoa_canonical.
  - apply Itoa_canonical.
  - reflexivity.
  - destruct b; reflexivity.
  - destruct V as [A B]. exists (F32_ToString a), (F32_ToString b). split; [now apply F32_text|]. split; [now apply F32_text|]. now apply C95_complex.
  - destruct V as [A B]. exists (F64_ToString a), (F64_ToString b). split; [now apply F64_text|]. split; [now apply F64_text|]. now apply C95_complex.
Qed.
Print Assumptions C98_primitive_text.
Example C98_nonvacuous :
  prim_ok (PChar 65) /\ Debug (VPrim (PChar 65)) = Ret (zs "Char(65)") /\ Debug (VPrim (PString (zs "x)"))) = Ret (zs "String(x))") /\
  Debug (VPrim (PInt U16 9)) = Ret (zs "U16(9)") /\ Debug (VPrim (PBool false)) = Ret (zs "Bool(false)").
Proof. repeat split; cbn; lia. Qed.
(** A Char is printed as its number ('A' is 65), never as the character. *)
Theorem C98_char_is_a_number : forall c bs, utf8_char c bs -> Display (VPrim (PChar c)) <> Ret bs.
Proof.
  intros c bs [[R _] U] H. cbn in H. injection H as H.
  destruct (Itoa_canonical c) as [[P (N & D & L & V)]|[P _]]; [|lia]. rewrite H in *.
  destruct U as [[A ->]|[[A (a & b & -> & B & _)]|[[A (a & b & d & -> & B & _)]|[A (a & b & d & e & -> & B & _)]]]];
    apply Forall_inv in D; unfold digit_char in D; [unfold value_of in V; cbn [fold_left] in V|..]; lia.
Qed.
Print Assumptions C98_char_is_a_number.

(** ** C99 The text of a Pair of primitive values is Pair[key, value], with the texts of
    the components. *)
Theorem C99_pair_text : forall sprint p q,
  Pair_text sprint (VPrim p) (VPrim q) = zs "Pair[" ++ prim_ToString p ++ zs ", " ++ prim_ToString q ++ zs "]".
Proof. reflexivity. Qed.
Print Assumptions C99_pair_text.
(** A component that is not primitive is printed by Go's formatter. *)
Theorem C99_pair_text_characterised : forall sprint k v, exists a b,
  Pair_text sprint k v = zs "Pair[" ++ a ++ zs ", " ++ b ++ zs "]" /\
  (forall p, k = VPrim p -> a = prim_ToString p) /\ ((forall p, k <> VPrim p) -> a = sprint k) /\
  (forall p, v = VPrim p -> b = prim_ToString p) /\ ((forall p, v <> VPrim p) -> b = sprint v).
Proof.
  intros sprint k v. unfold Pair_text.
  exists (match as_ToString k with Some t => t | None => sprint k end), (match as_ToString v with Some t => t | None => sprint v end).
  split; [reflexivity|]. repeat split.
  - intros p ->. reflexivity.
  - intros H. destruct k; try reflexivity. destruct (H p eq_refl).
  - intros p ->. reflexivity.
  - intros H. destruct v; try reflexivity. destruct (H p eq_refl).
Qed.
Print Assumptions C99_pair_text_characterised.
(** But a Pair cannot be shown by anything else: Format, Print and every container panic,
    whatever the components. *)
Theorem C99_pair_display_refuted : forall k v rest,
  Format (zs "{}") (param (Display (VPair k v)) :: rest) = Panic /\ Display (VOption (Some (VPair k v))) = Panic /\
  (forall kind l, In (VPair k v) l -> Display (VSeq kind l) = Panic).
Proof.
  intros k v rest. split; [reflexivity|]. split; [reflexivity|]. intros kind l I. apply Display_panics. intros [_ H].
  induction l as [|x l IH]; [destruct I|]. destruct H as [H1 H2]. destruct I as [->|I]; [exact H1|exact (IH I H2)].
Qed.
Print Assumptions C99_pair_display_refuted.
(** The texts tell pairs of (not String) primitive values of the same types apart. *)
Theorem C99_pair_injective_partial : forall sprint t u p q p' q',
  of_type (VPrim p) t -> of_type (VPrim p') t -> of_type (VPrim q) u -> of_type (VPrim q') u ->
  Pair_text sprint (VPrim p) (VPrim q) = Pair_text sprint (VPrim p') (VPrim q') -> p = p' /\ q = q'.
Proof.
  intros sprint t u p q p' q' P P' Q Q' E. rewrite !C99_pair_text in E. apply app_prefix in E.
  destruct (unambiguous_all t (VPrim p) (VPrim p') (prim_ToString p) (prim_ToString p') (44 :: 32 :: prim_ToString q ++ [93]) (44 :: 32 :: prim_ToString q' ++ [93])
              P P' (shown_prim p) (shown_prim p') ltac:(left; reflexivity) ltac:(left; reflexivity) E) as (A & _ & B).
  injection B as B. apply app_inj_tail in B. destruct B as [B _]. injection A as ->. split; [reflexivity|]. exact (prim_injective _ _ _ Q Q' B).
Qed.
Print Assumptions C99_pair_injective_partial.
Example C99_nonvacuous : forall sprint,
  Pair_text sprint (VPrim (PInt ISize (-3))) (VPrim (PString (zs "x"))) = zs "Pair[-3, x]" /\
  of_type (VPrim (PInt ISize (-3))) (TInt ISize) /\ of_type (VPrim (PBool true)) TBool.
Proof. intros sprint. split; [reflexivity|]. split; constructor. unfold in_range; cbn; lia. Qed.
