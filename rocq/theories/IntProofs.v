(** IntProofs.v -- proofs about the integer methods. *)
From Coq Require Import ZArith Lia Bool.
From Verif Require Import Base IntModel IntSpec.
Local Open Scope Z_scope.
Local Open Scope bool_scope.

Ltac zcase :=
  repeat match goal with
  | |- context [ ?x <? ?y ] => destruct (Z.ltb_spec x y)
  | |- context [ ?x <=? ?y ] => destruct (Z.leb_spec x y)
  | |- context [ ?x =? ?y ] => destruct (Z.eqb_spec x y)
  end; cbn [andb orb negb].

Lemma MIN_lowest t : MIN t = lowest t.
Proof. destruct t; reflexivity. Qed.
Lemma MAX_highest t : MAX t = highest t.
Proof. destruct t; reflexivity. Qed.
Lemma modulus_width t : modulus t = 2 ^ width t.
Proof. destruct t; reflexivity. Qed.
Lemma modulus_pos t : 0 < modulus t.
Proof. destruct t; reflexivity. Qed.
Lemma highest_eq t : highest t = lowest t + modulus t - 1.
Proof. destruct t; reflexivity. Qed.

(** [wrap] in terms of the literal bounds. *)
Lemma wrap_alt t z : wrap t z = (z - lowest t) mod modulus t + lowest t.
Proof.
  assert (forall c M L, L = - c -> (z + c) mod M - c = (z - L) mod M + L) as HG.
  { intros c M L ->. replace (z - - c) with (z + c) by lia. lia. }
  rewrite modulus_width. unfold wrap.
  destruct t; cbn [signed width]; try (apply HG; reflexivity);
    cbn [lowest]; now rewrite Z.sub_0_r, Z.add_0_r.
Qed.

Lemma wrap_range t z : in_range t (wrap t z).
Proof.
  rewrite wrap_alt. unfold in_range. rewrite highest_eq.
  pose proof (Z.mod_pos_bound (z - lowest t) (modulus t) (modulus_pos t)). lia.
Qed.

Lemma wrap_id t z : in_range t z -> wrap t z = z.
Proof.
  intros H. rewrite wrap_alt. unfold in_range in H. rewrite highest_eq in H.
  rewrite Z.mod_small; lia.
Qed.

Lemma wrap_cong t z : exists k, z = wrap t z + k * modulus t.
Proof.
  rewrite wrap_alt. exists ((z - lowest t) / modulus t).
  pose proof (Z.div_mod (z - lowest t) (modulus t)).
  pose proof (modulus_pos t). lia.
Qed.

Lemma wrap_wraps t z : wraps_to t z (wrap t z).
Proof. split. apply wrap_range. apply wrap_cong. Qed.

Lemma wraps_to_unique t z r1 r2 : wraps_to t z r1 -> wraps_to t z r2 -> r1 = r2.
Proof.
  intros [H1 [k1 E1]] [H2 [k2 E2]]. unfold in_range in *. pose proof (highest_eq t).
  pose proof (modulus_pos t).
  destruct (Z.lt_trichotomy k1 k2) as [HL|[->|HL]]; [exfalso; nia | lia | exfalso; nia].
Qed.

Lemma wrap_unique t z r : wraps_to t z r -> wrap t z = r.
Proof. intros H. eapply wraps_to_unique; [apply wrap_wraps | exact H]. Qed.

Lemma wrap_add_mult t z k : wrap t (z + k * modulus t) = wrap t z.
Proof.
  apply wrap_unique. split. apply wrap_range.
  destruct (wrap_cong t z) as [j E]. exists (j + k). lia.
Qed.

Lemma wrap_mod t z : wrap t (wrap t z) = wrap t z.
Proof. apply wrap_id, wrap_range. Qed.

Lemma wrap_add_l t x y : wrap t (wrap t x + y) = wrap t (x + y).
Proof.
  destruct (wrap_cong t x) as [k E]. rewrite E at 2.
  replace (wrap t x + k * modulus t + y) with (wrap t x + y + k * modulus t) by lia.
  now rewrite wrap_add_mult.
Qed.

Lemma wrap_mul_l t x y : wrap t (wrap t x * y) = wrap t (x * y).
Proof.
  destruct (wrap_cong t x) as [k E]. rewrite E at 2.
  replace ((wrap t x + k * modulus t) * y) with (wrap t x * y + (k * y) * modulus t) by lia.
  now rewrite wrap_add_mult.
Qed.
Lemma wrap_mul_r t x y : wrap t (x * wrap t y) = wrap t (x * y).
Proof. rewrite Z.mul_comm, wrap_mul_l, Z.mul_comm. reflexivity. Qed.

(** The value of a wrapped sum/difference when the operands are in range. *)
Lemma wrap_near t z :
  lowest t - modulus t <= z <= highest t + modulus t ->
  wrap t z = if z <? lowest t then z + modulus t else if highest t <? z then z - modulus t else z.
Proof.
  intros H. apply wrap_unique. pose proof (highest_eq t).
  split.
  - unfold in_range. zcase; lia.
  - zcase; [exists (-1) | exists 1 | exists 0]; lia.
Qed.

Lemma lowest_signed t : signed t = true -> lowest t = - highest t - 1 /\ 0 < highest t.
Proof. destruct t; try discriminate; intros _; split; reflexivity. Qed.
Lemma lowest_unsigned t : signed t = false -> lowest t = 0 /\ 0 < highest t.
Proof. destruct t; try discriminate; intros _; split; reflexivity. Qed.

Ltac bounds t Hs :=
  pose proof (highest_eq t);
  match type of Hs with
  | signed t = true => destruct (lowest_signed t Hs)
  | signed t = false => destruct (lowest_unsigned t Hs)
  end.

(** *** Addition *)
Lemma HasOverflow_Add_spec t a b :
  signed t = true -> in_range t a -> in_range t b ->
  HasOverflow_Add t a b = true <-> ~ in_range t (a + b).
Proof.
  intros Hs Ha Hb. unfold HasOverflow_Add. rewrite MIN_lowest, MAX_highest.
  bounds t Hs. unfold in_range in *.
  destruct (Z.ltb_spec 0 a); cbn [andb].
  - rewrite (wrap_id t (highest t - a)) by (unfold in_range; lia).
    destruct (Z.ltb_spec (highest t - a) b); cbn [andb].
    + split; [lia|reflexivity].
    + destruct (Z.ltb_spec a 0); [lia|]. cbn [andb]. split; [discriminate|]. lia.
  - destruct (Z.ltb_spec a 0); cbn [andb].
    + rewrite (wrap_id t (lowest t - a)) by (unfold in_range; lia).
      destruct (Z.ltb_spec b (lowest t - a)).
      * split; [lia|reflexivity].
      * split; [discriminate|lia].
    + split; [discriminate|lia].
Qed.

Lemma HasOverflow_Add_false t a b :
  signed t = true -> in_range t a -> in_range t b ->
  HasOverflow_Add t a b = false <-> in_range t (a + b).
Proof.
  intros Hs Ha Hb. pose proof (HasOverflow_Add_spec t a b Hs Ha Hb) as H.
  destruct (HasOverflow_Add t a b).
  - split; [discriminate|]. intros. destruct H. now apply H in H0.
  - split; [|reflexivity]. intros _. unfold in_range in *.
    destruct (Z.le_gt_cases (lowest t) (a+b)); destruct (Z.le_gt_cases (a+b) (highest t)); try lia;
      exfalso; assert (false = true) by (apply H; lia); discriminate.
Qed.

Lemma unsigned_add_test t a b :
  signed t = false -> in_range t a -> in_range t b ->
  ((wrap t (a + b) <? a) || (wrap t (a + b) <? b)) = true <-> ~ in_range t (a + b).
Proof.
  intros Hs Ha Hb. bounds t Hs. unfold in_range in *.
  rewrite wrap_near by lia.
  destruct (Z.ltb_spec (a + b) (lowest t)), (Z.ltb_spec (highest t) (a + b)); try lia;
  rewrite orb_true_iff, !Z.ltb_lt; lia.
Qed.

Lemma checked_add_exact t a b :
  in_range t a -> in_range t b -> exact t (a + b) (CheckedAdd t a b).
Proof.
  intros Ha Hb. unfold CheckedAdd, exact. destruct (signed t) eqn:Hs.
  - pose proof (HasOverflow_Add_spec t a b Hs Ha Hb) as H.
    destruct (HasOverflow_Add t a b); split; intros Hr; auto.
    + now apply H in Hr.
    + now rewrite wrap_id.
    + exfalso. apply H in Hr. discriminate.
  - pose proof (unsigned_add_test t a b Hs Ha Hb) as H.
    destruct (_ || _); split; intros Hr; auto.
    + now apply H in Hr.
    + now rewrite wrap_id.
    + exfalso. apply H in Hr. discriminate.
Qed.

Lemma saturating_add_clamps t a b :
  in_range t a -> in_range t b -> SaturatingAdd t a b = clamp t (a + b).
Proof.
  intros Ha Hb. unfold SaturatingAdd, clamp. rewrite MIN_lowest, MAX_highest.
  destruct (signed t) eqn:Hs; bounds t Hs.
  - pose proof (HasOverflow_Add_spec t a b Hs Ha Hb) as H2.
    pose proof (HasOverflow_Add_false t a b Hs Ha Hb) as H3.
    destruct (HasOverflow_Add t a b).
    + assert (~ in_range t (a + b)) as HN by (apply H2; reflexivity).
      unfold in_range in *. destruct (Z.ltb_spec a 0); lia.
    + assert (in_range t (a + b)) as HN by (apply H3; reflexivity).
      rewrite wrap_id by auto. unfold in_range in *. lia.
  - unfold in_range in *. cbv zeta. rewrite wrap_near by lia.
    destruct (Z.ltb_spec (a + b) (lowest t)), (Z.ltb_spec (highest t) (a + b)); try lia; zcase; lia.
Qed.

Lemma wrapping_add_wraps t a b :
  in_range t a -> in_range t b -> wraps_to t (a + b) (WrappingAdd t a b).
Proof.
  intros Ha Hb. unfold WrappingAdd. destruct (signed t) eqn:Hs; [apply wrap_wraps|].
  cbv zeta. rewrite MAX_highest. bounds t Hs.
  destruct (_ || _).
  - assert (wrap t (wrap t (wrap t (a+b) - highest t) - 1) = wrap t (a + b)) as ->.
    { unfold Z.sub. rewrite wrap_add_l.
      replace (wrap t (a + b) + - highest t + -(1)) with (wrap t (a + b) + (-1) * modulus t) by lia.
      rewrite wrap_add_mult. apply wrap_mod. }
    apply wrap_wraps.
  - apply wrap_wraps.
Qed.

(** *** Subtraction *)
Lemma signed_sub_exact_test t a b :
  signed t = true -> in_range t a -> in_range t b ->
  (if (0 <? b) && (a <? wrap t (MIN t + b)) then true
   else if (b <? 0) && (wrap t (MAX t + b) <? a) then true else false) = true
  <-> ~ in_range t (a - b).
Proof.
  intros Hs Ha Hb. rewrite MIN_lowest, MAX_highest. bounds t Hs. unfold in_range in *.
  destruct (Z.ltb_spec 0 b); cbn [andb].
  - rewrite (wrap_id t (lowest t + b)) by (unfold in_range; lia).
    destruct (Z.ltb_spec a (lowest t + b)); cbn [andb].
    + split; [lia|reflexivity].
    + destruct (Z.ltb_spec b 0); [lia|]. cbn [andb]. split; [discriminate|]. lia.
  - destruct (Z.ltb_spec b 0); cbn [andb].
    + rewrite (wrap_id t (highest t + b)) by (unfold in_range; lia).
      destruct (Z.ltb_spec (highest t + b) a).
      * split; [lia|reflexivity].
      * split; [discriminate|lia].
    + split; [discriminate|lia].
Qed.

Definition is_USize_dec (t : ity) : {t = USize} + {t <> USize}.
Proof. destruct t; (left; reflexivity) || (right; discriminate). Defined.
Definition is_ISize_dec (t : ity) : {t = ISize} + {t <> ISize}.
Proof. destruct t; (left; reflexivity) || (right; discriminate). Defined.

Lemma in_range_dec t z : in_range t z \/ ~ in_range t z.
Proof. unfold in_range. lia. Qed.

Lemma HasOverflow_Sub_ISize a b :
  in_range ISize a -> in_range ISize b ->
  HasOverflow_Sub ISize a b = true <-> ~ in_range ISize (a - b).
Proof.
  intros Ha Hb. rewrite <- (signed_sub_exact_test ISize a b eq_refl Ha Hb).
  unfold HasOverflow_Sub.
  destruct (Z.ltb_spec b 0), (Z.ltb_spec 0 b); cbn [andb]; try lia; try tauto.
Qed.

Lemma HasUnderflow_Sub_ISize a b :
  in_range ISize a -> in_range ISize b ->
  HasUnderflow_Sub ISize a b = true <->
  (0 < b /\ a - b < lowest I32) \/ (b < 0 /\ highest I32 < a - b).
Proof.
  intros Ha Hb. unfold HasUnderflow_Sub, in_range in *; cbn [lowest highest] in *.
  destruct (Z.ltb_spec 0 b); cbn [andb].
  - rewrite (wrap_id ISize (-2147483648 + b)) by (unfold in_range; cbn [lowest highest]; lia).
    destruct (Z.ltb_spec b 0); cbn [andb]; [lia|].
    destruct (Z.ltb_spec a (-2147483648 + b)); split; intros; try lia; try reflexivity; try discriminate.
  - destruct (Z.ltb_spec b 0); cbn [andb].
    + rewrite (wrap_id ISize (2147483647 + b)) by (unfold in_range; cbn [lowest highest]; lia).
      destruct (Z.ltb_spec (2147483647 + b) a); split; intros; try lia; try reflexivity; try discriminate.
    + split; intros; [discriminate|lia].
Qed.

Lemma HasUnderflow_Sub_signed t a b :
  signed t = true -> t <> ISize -> in_range t a -> in_range t b ->
  HasUnderflow_Sub t a b = true <-> ~ in_range t (a - b).
Proof.
  intros Hs Hn Ha Hb. rewrite <- (signed_sub_exact_test t a b Hs Ha Hb).
  destruct t; try discriminate; try congruence; reflexivity.
Qed.

Lemma HasUnderflow_Sub_unsigned t a b :
  signed t = false -> in_range t a -> in_range t b ->
  HasUnderflow_Sub t a b = true <-> ~ in_range t (a - b).
Proof.
  intros Hs Ha Hb. bounds t Hs. unfold in_range in *.
  replace (HasUnderflow_Sub t a b) with (a <? b) by (destruct t; try discriminate; reflexivity).
  rewrite Z.ltb_lt. lia.
Qed.

(** The narrow signed [_HasOverflow_Sub]: true only on overflow or when the
    difference is exactly the minimum. *)
Lemma HasOverflow_Sub_narrow t a b :
  signed t = true -> t <> ISize -> in_range t a -> in_range t b ->
  HasOverflow_Sub t a b = true ->
  (0 < a /\ highest t < a - b) \/ (a < 0 /\ a - b <= lowest t).
Proof.
  intros Hs Hn Ha Hb.
  replace (HasOverflow_Sub t a b) with
    (if (0 <? a) && (b <? wrap t (MIN t + a)) then true
      else if (a <? 0) && (wrap t (MAX t + a) <? b) then true else false)
    by (destruct t; try discriminate; try congruence; reflexivity).
  rewrite MIN_lowest, MAX_highest. bounds t Hs. unfold in_range in *.
  destruct (Z.ltb_spec 0 a); cbn [andb].
  - rewrite (wrap_id t (lowest t + a)) by (unfold in_range; lia).
    destruct (Z.ltb_spec b (lowest t + a)); intros; [lia|].
    destruct (Z.ltb_spec a 0); [lia|]. discriminate.
  - destruct (Z.ltb_spec a 0); cbn [andb]; [|discriminate].
    rewrite (wrap_id t (highest t + a)) by (unfold in_range; lia).
    destruct (Z.ltb_spec (highest t + a) b); intros; [lia|discriminate].
Qed.

Lemma iff_false_of (x : bool) (P : Prop) : (x = true <-> ~ P) -> P \/ ~ P -> x = false -> P.
Proof. intros H [?|?] E; auto. apply H in H0. congruence. Qed.

Lemma checked_sub_unsigned_exact t a b :
  signed t = false -> in_range t a -> in_range t b -> exact t (a - b) (CheckedSub t a b).
Proof.
  intros Hs Ha Hb. pose proof (HasUnderflow_Sub_unsigned t a b Hs Ha Hb) as H.
  replace (CheckedSub t a b) with (if HasUnderflow_Sub t a b then None else Some (wrap t (a - b)))
    by (destruct t; try discriminate; reflexivity).
  destruct (HasUnderflow_Sub t a b) eqn:E; split; intros Hr; auto.
  - now apply H in Hr.
  - now rewrite wrap_id.
  - apply H in Hr. discriminate.
Qed.

Lemma checked_sub_narrow t a b :
  signed t = true -> t <> ISize -> in_range t a -> in_range t b ->
  (in_range t (a - b) /\ in_range t (a + b) -> CheckedSub t a b = Some (a - b)) /\
  (~ (in_range t (a - b) /\ in_range t (a + b)) -> CheckedSub t a b = None).
Proof.
  intros Hs Hn Ha Hb. pose proof (HasUnderflow_Sub_signed t a b Hs Hn Ha Hb) as H.
  pose proof (HasOverflow_Add_spec t a b Hs Ha Hb) as H2.
  replace (CheckedSub t a b) with
    (if HasOverflow_Add t a b || HasUnderflow_Sub t a b then None else Some (wrap t (a - b)))
    by (destruct t; try discriminate; try congruence; reflexivity).
  destruct (HasUnderflow_Sub t a b) eqn:E; destruct (HasOverflow_Add t a b) eqn:E2; cbn [orb];
    split; intros Hr; auto.
  - destruct Hr as [Hr _]. now apply H in Hr.
  - destruct Hr as [Hr _]. now apply H in Hr.
  - destruct Hr as [_ Hr]. now apply H2 in Hr.
  - rewrite wrap_id; tauto.
  - exfalso. apply Hr. split.
    + eapply iff_false_of; [exact H | apply in_range_dec | reflexivity].
    + eapply iff_false_of; [exact H2 | apply in_range_dec | reflexivity].
Qed.

Lemma checked_sub_ISize a b :
  in_range ISize a -> in_range ISize b ->
  CheckedSub ISize a b =
    if (0 <? b) && (a - b <? lowest I32) || (b <? 0) && (highest I32 <? a - b)
    then None else Some (a - b).
Proof.
  intros Ha Hb.
  pose proof (HasOverflow_Sub_ISize a b Ha Hb) as H1.
  pose proof (HasUnderflow_Sub_ISize a b Ha Hb) as H2.
  unfold CheckedSub. fold (HasOverflow_Sub ISize a b).
  assert (in_range ISize (a - b) -> wrap ISize (a - b) = a - b) as HW by apply wrap_id.
  unfold in_range in *. cbn [lowest highest] in *.
  destruct (HasOverflow_Sub ISize a b) eqn:E1; destruct (HasUnderflow_Sub ISize a b) eqn:E2;
    cbn [orb];
  destruct (Z.ltb_spec 0 b); destruct (Z.ltb_spec b 0);
  destruct (Z.ltb_spec (a - b) (-2147483648)); destruct (Z.ltb_spec 2147483647 (a - b));
    cbn [andb orb]; try reflexivity; try lia;
    try (f_equal; apply HW; lia);
    exfalso;
    try (assert (false = true) by (apply H2; lia); discriminate);
    try (assert (false = true) by (apply H1; lia); discriminate);
    try (destruct H1 as [H1 _]; specialize (H1 eq_refl); destruct H2 as [H2 _]; try specialize (H2 eq_refl); lia).
Qed.

Lemma checked_sub_sound t a b :
  in_range t a -> in_range t b -> sound t (a - b) (CheckedSub t a b).
Proof.
  intros Ha Hb v Hv. destruct (signed t) eqn:Hs.
  - destruct (is_ISize_dec t) as [->|Hn].
    + rewrite checked_sub_ISize in Hv by auto.
      assert (in_range ISize (a - b)) as HR.
      { destruct (_ || _) eqn:E in Hv; [discriminate|].
        unfold in_range in *; cbn [lowest highest] in *. lia. }
      split; auto. destruct (_ || _) in Hv; congruence.
    + destruct (checked_sub_narrow t a b Hs Hn Ha Hb) as [H1 H2].
      destruct (in_range_dec t (a - b)), (in_range_dec t (a + b));
        try (rewrite H2 in Hv by tauto; discriminate).
      rewrite H1 in Hv by tauto. split; congruence.
  - destruct (checked_sub_unsigned_exact t a b Hs Ha Hb) as [H1 H2].
    destruct (in_range_dec t (a - b)).
    + rewrite H1 in Hv by auto. split; congruence.
    + rewrite H2 in Hv by auto. discriminate.
Qed.

Lemma saturating_sub_clamps t a b :
  t <> ISize -> in_range t a -> in_range t b -> SaturatingSub t a b = clamp t (a - b).
Proof.
  intros Hn Ha Hb. unfold SaturatingSub, clamp. cbv zeta. rewrite MIN_lowest, MAX_highest.
  destruct (signed t) eqn:Hs.
  - pose proof (HasUnderflow_Sub_signed t a b Hs Hn Ha Hb) as H1.
    pose proof (HasOverflow_Sub_narrow t a b Hs Hn Ha Hb) as H2.
    bounds t Hs.
    destruct (HasUnderflow_Sub t a b) eqn:E1.
    + rewrite orb_true_r. assert (~ in_range t (a - b)) by (apply H1; reflexivity).
      unfold in_range in *. destruct (Z.ltb_spec a 0); lia.
    + assert (in_range t (a - b)) as HR.
      { eapply iff_false_of; [exact H1 | apply in_range_dec | reflexivity]. }
      destruct (HasOverflow_Sub t a b) eqn:E2; cbn [orb].
      * specialize (H2 eq_refl). unfold in_range in *. destruct (Z.ltb_spec a 0); lia.
      * rewrite wrap_id by auto. unfold in_range in *. lia.
  - bounds t Hs. unfold in_range in *. rewrite wrap_near by lia. zcase; lia.
Qed.

Lemma saturating_sub_ISize a b :
  in_range ISize a -> in_range ISize b ->
  SaturatingSub ISize a b =
    if (0 <? b) && (a - b <? lowest I32) || (b <? 0) && (highest I32 <? a - b)
    then (if a <? 0 then lowest ISize else highest ISize) else a - b.
Proof.
  intros Ha Hb. pose proof (checked_sub_ISize a b Ha Hb) as H.
  unfold CheckedSub in H. unfold SaturatingSub. cbn [signed]. cbv zeta in *.
  rewrite MIN_lowest, MAX_highest.
  destruct (HasOverflow_Sub ISize a b || HasUnderflow_Sub ISize a b);
  destruct (((0 <? b) && (a - b <? lowest I32)) || ((b <? 0) && (highest I32 <? a - b))); congruence.
Qed.

(** *** Multiplication *)
Lemma quot_pos_le a b M : 0 < b -> 0 <= M -> (Z.quot M b <? a) = true <-> M < a * b.
Proof.
  intros Hb HM. rewrite Z.ltb_lt, Z.quot_div_nonneg by lia.
  split; intros H.
  - apply Z.lt_nge. intros HC. apply Z.div_le_mono with (c := b) in HC; [|lia].
    rewrite Z.div_mul in HC by lia. lia.
  - apply Z.div_lt_upper_bound; lia.
Qed.

Lemma HasOverflow_Mul_signed t a b :
  signed t = true -> in_range t a -> in_range t b ->
  HasOverflow_Mul t a b = false <-> in_range t (a * b) /\ (0 < a <-> 0 < b).
Proof.
  intros Hs Ha Hb. bounds t Hs.
  replace (HasOverflow_Mul t a b) with
      (if 0 <? a then
        if 0 <? b then Z.quot (MAX t) b <? a
        else b <? Z.quot (MAX t) a
      else
        if 0 <? b then a <? Z.quot (MAX t) b
        else negb (a =? 0) && (b <? Z.quot (MAX t) a))
    by (destruct t; try discriminate; reflexivity).
  rewrite MAX_highest. unfold in_range in *.
  assert (forall x, 0 < x -> x <= highest t -> 1 <= Z.quot (highest t) x) as HQ.
  { intros x Hx Hx2. rewrite Z.quot_div_nonneg by lia. apply Z.div_le_lower_bound; lia. }
  destruct (Z.ltb_spec 0 a); destruct (Z.ltb_spec 0 b).
  - pose proof (quot_pos_le a b (highest t)) as HQL. destruct (Z.quot (highest t) b <? a).
    + split; [discriminate|]. intros. assert (true = true) as HT by reflexivity. apply HQL in HT; lia.
    + split; [|reflexivity]. intros _. split; [|tauto].
      assert (~ highest t < a * b). { intros HC. apply HQL in HC; try lia; discriminate HC. } nia.
  - specialize (HQ a). destruct (Z.ltb_spec b (Z.quot (highest t) a)); [|lia].
    split; [discriminate|lia].
  - specialize (HQ b). destruct (Z.ltb_spec a (Z.quot (highest t) b)); [|lia].
    split; [discriminate|lia].
  - destruct (Z.eqb_spec a 0); cbn [negb andb].
    + subst. split; [|reflexivity]. intros _. lia.
    + replace a with (- (- a)) by lia. rewrite Z.quot_opp_r by lia.
      pose proof (quot_pos_le (-b) (-a) (highest t)) as HQL.
      replace (- b * - a) with (a * b) in HQL by lia.
      replace (b <? - (highest t ÷ - a)) with (highest t ÷ - a <? - b)
        by (destruct (Z.ltb_spec (highest t ÷ - a) (- b)), (Z.ltb_spec b (- (highest t ÷ - a))); lia).
      replace (- - a) with a by lia.
      destruct (highest t ÷ - a <? - b).
      * split; [discriminate|]. intros. assert (true = true) as HT by reflexivity. apply HQL in HT; lia.
      * split; [|reflexivity]. intros _. split; [|lia].
        assert (~ highest t < a * b). { intros HC. apply HQL in HC; try lia; discriminate HC. } nia.
Qed.

Lemma HasOverflow_Mul_unsigned t a b :
  signed t = false -> t <> USize -> in_range t a -> in_range t b ->
  HasOverflow_Mul t a b = false <-> in_range t (a * b).
Proof.
  intros Hs Hn Ha Hb. bounds t Hs.
  replace (HasOverflow_Mul t a b) with (negb (a =? 0) && (Z.quot (MAX t) a <? b))
    by (destruct t; try discriminate; try congruence; reflexivity).
  rewrite MAX_highest. unfold in_range in *.
  destruct (Z.eqb_spec a 0); cbn [negb andb]; [subst; split; intros; [lia|reflexivity]|].
  pose proof (quot_pos_le b a (highest t)) as HQL. rewrite Z.mul_comm in HQL.
  destruct (highest t ÷ a <? b).
  - split; [discriminate|]. intros. assert (true = true) as HT by reflexivity. apply HQL in HT; lia.
  - split; [|reflexivity]. intros _.
    assert (~ highest t < a * b). { intros HC. apply HQL in HC; try lia; discriminate HC. } nia.
Qed.

Lemma HasOverflow_Mul_USize a b :
  in_range USize a -> in_range USize b ->
  HasOverflow_Mul USize a b = false <-> in_range U32 (a * b).
Proof.
  intros Ha Hb. unfold HasOverflow_Mul. unfold in_range in *; cbn [lowest highest] in *.
  destruct (Z.eqb_spec a 0); cbn [negb andb]; [subst; split; intros; [lia|reflexivity]|].
  pose proof (quot_pos_le b a 4294967295) as HQL. rewrite Z.mul_comm in HQL.
  destruct (4294967295 ÷ a <? b).
  - split; [discriminate|]. intros. assert (true = true) as HT by reflexivity. apply HQL in HT; lia.
  - split; [|reflexivity]. intros _.
    assert (~ 4294967295 < a * b). { intros HC. apply HQL in HC; try lia; discriminate HC. } nia.
Qed.

Lemma U32_in_USize z : in_range U32 z -> in_range USize z.
Proof. unfold in_range; cbn; lia. Qed.

Lemma checked_mul_signed t a b :
  signed t = true -> in_range t a -> in_range t b ->
  (in_range t (a * b) /\ (0 < a <-> 0 < b) -> CheckedMul t a b = Some (a * b)) /\
  (~ (in_range t (a * b) /\ (0 < a <-> 0 < b)) -> CheckedMul t a b = None).
Proof.
  intros Hs Ha Hb. pose proof (HasOverflow_Mul_signed t a b Hs Ha Hb) as H.
  unfold CheckedMul. cbv zeta.
  destruct (HasOverflow_Mul t a b); split; intros Hr; auto.
  - apply H in Hr. discriminate.
  - rewrite wrap_id; tauto.
  - exfalso. apply Hr, H. reflexivity.
Qed.

Lemma checked_mul_unsigned t a b :
  signed t = false -> t <> USize -> in_range t a -> in_range t b ->
  exact t (a * b) (CheckedMul t a b).
Proof.
  intros Hs Hn Ha Hb. pose proof (HasOverflow_Mul_unsigned t a b Hs Hn Ha Hb) as H.
  unfold CheckedMul, exact. cbv zeta.
  destruct (HasOverflow_Mul t a b); split; intros Hr; auto.
  - apply H in Hr. discriminate.
  - rewrite wrap_id; tauto.
  - exfalso. apply Hr, H. reflexivity.
Qed.

Lemma checked_mul_USize a b :
  in_range USize a -> in_range USize b ->
  (in_range U32 (a * b) -> CheckedMul USize a b = Some (a * b)) /\
  (~ in_range U32 (a * b) -> CheckedMul USize a b = None).
Proof.
  intros Ha Hb. pose proof (HasOverflow_Mul_USize a b Ha Hb) as H.
  unfold CheckedMul. cbv zeta.
  destruct (HasOverflow_Mul USize a b); split; intros Hr; auto.
  - apply H in Hr. discriminate.
  - rewrite wrap_id; auto. now apply U32_in_USize.
  - exfalso. apply Hr, H. reflexivity.
Qed.

Lemma checked_mul_sound t a b :
  in_range t a -> in_range t b -> sound t (a * b) (CheckedMul t a b).
Proof.
  intros Ha Hb v Hv.
  assert (HasOverflow_Mul t a b = false) as HF.
  { unfold CheckedMul in Hv. cbv zeta in Hv. destruct (HasOverflow_Mul t a b); congruence. }
  assert (in_range t (a * b)) as HR.
  { destruct (signed t) eqn:Hs.
    - apply (HasOverflow_Mul_signed t a b Hs Ha Hb) in HF. tauto.
    - destruct (is_USize_dec t) as [->|Hn].
      + apply U32_in_USize. apply (HasOverflow_Mul_USize a b Ha Hb) in HF. auto.
      + apply (HasOverflow_Mul_unsigned t a b Hs Hn Ha Hb) in HF. auto. }
  split; auto. unfold CheckedMul in Hv. cbv zeta in Hv. rewrite HF, wrap_id in Hv by auto. congruence.
Qed.

Lemma saturating_mul_unsigned t a b :
  signed t = false -> t <> USize -> in_range t a -> in_range t b ->
  SaturatingMul t a b = clamp t (a * b).
Proof.
  intros Hs Hn Ha Hb. pose proof (HasOverflow_Mul_unsigned t a b Hs Hn Ha Hb) as H.
  unfold SaturatingMul, clamp. cbv zeta. rewrite Hs, MAX_highest. bounds t Hs.
  destruct (HasOverflow_Mul t a b).
  - assert (~ in_range t (a * b)) by (intros HC; apply H in HC; discriminate).
    unfold in_range in *. nia.
  - assert (in_range t (a * b)) by (apply H; reflexivity).
    rewrite wrap_id by auto. unfold in_range in *. lia.
Qed.

Lemma saturating_mul_USize a b :
  in_range USize a -> in_range USize b ->
  (in_range U32 (a * b) -> SaturatingMul USize a b = a * b) /\
  (~ in_range U32 (a * b) -> SaturatingMul USize a b = highest USize).
Proof.
  intros Ha Hb. pose proof (HasOverflow_Mul_USize a b Ha Hb) as H.
  unfold SaturatingMul. cbv zeta. cbn [signed]. rewrite MAX_highest.
  destruct (HasOverflow_Mul USize a b); split; intros Hr; auto.
  - apply H in Hr. discriminate.
  - rewrite wrap_id; auto. now apply U32_in_USize.
  - exfalso. apply Hr, H. reflexivity.
Qed.

Lemma saturating_mul_signed t a b :
  signed t = true -> in_range t a -> in_range t b ->
  (in_range t (a * b) /\ (0 < a <-> 0 < b) -> SaturatingMul t a b = a * b) /\
  (~ (in_range t (a * b) /\ (0 < a <-> 0 < b)) ->
     SaturatingMul t a b = if a <? 0 then lowest t else highest t).
Proof.
  intros Hs Ha Hb. pose proof (HasOverflow_Mul_signed t a b Hs Ha Hb) as H.
  unfold SaturatingMul. cbv zeta. rewrite Hs, MIN_lowest, MAX_highest.
  destruct (HasOverflow_Mul t a b); split; intros Hr; auto.
  - apply H in Hr. discriminate.
  - rewrite wrap_id; tauto.
  - exfalso. apply Hr, H. reflexivity.
Qed.

Lemma wrapping_mul_wraps t a b :
  t <> ISize -> wraps_to t (a * b) (WrappingMul t a b).
Proof.
  intros Hn. unfold WrappingMul. cbv zeta. destruct t; try congruence; apply wrap_wraps.
Qed.

(** ISize.WrappingMul flips the top bit whenever the wrapped product is below
    one of the operands. *)
Lemma wrapping_mul_ISize a b r :
  wraps_to ISize (a * b) r ->
  (a <= r /\ b <= r -> WrappingMul ISize a b = r) /\
  (~ (a <= r /\ b <= r) -> WrappingMul ISize a b = if r <? 0 then r + 2^63 else r - 2^63).
Proof.
  intros H. apply wrap_unique in H. unfold WrappingMul. cbv zeta. rewrite H.
  rewrite MAX_highest. split; intros Hr.
  - destruct (Z.ltb_spec r a), (Z.ltb_spec r b); cbn [orb]; try lia; reflexivity.
  - replace ((r <? a) || (r <? b)) with true
      by (destruct (Z.ltb_spec r a), (Z.ltb_spec r b); cbn [orb]; try lia; reflexivity).
    unfold Z.sub at 1. rewrite wrap_add_l. fold (r - highest ISize - 1).
    assert (in_range ISize r) as HR by (rewrite <- H; apply wrap_range).
    unfold in_range in HR. cbn [lowest highest] in *.
    replace (r - 9223372036854775807 + -1) with (r - 2^63) by lia.
    apply wrap_unique. unfold wraps_to, in_range, modulus. cbn [lowest highest].
    destruct (Z.ltb_spec r 0); (split; [lia|]); [exists (-1)|exists 0]; lia.
Qed.

Lemma wrapping_mul_ISize_correct_iff a b r :
  wraps_to ISize (a * b) r -> (WrappingMul ISize a b = r <-> a <= r /\ b <= r).
Proof.
  intros H. destruct (wrapping_mul_ISize a b r H) as [H1 H2].
  split; [|exact H1]. intros E.
  destruct (Z.le_gt_cases a r), (Z.le_gt_cases b r); try tauto;
    rewrite H2 in E by lia; destruct (r <? 0); lia.
Qed.

(** *** Division *)
Lemma quot_in_range t a b :
  in_range t a -> in_range t b -> b <> 0 -> ~ (signed t = true /\ a = lowest t /\ b = -1) ->
  in_range t (Z.quot a b).
Proof.
  intros Ha Hb H0 HN.
  pose proof (Z.quot_abs a b H0) as HA.
  assert (0 <= Z.abs a ÷ Z.abs b <= Z.abs a) as HB.
  { rewrite Z.quot_div_nonneg by lia. split. apply Z.div_pos; lia.
    apply Z.div_le_upper_bound; nia. }
  destruct (signed t) eqn:Hs; bounds t Hs; unfold in_range in *.
  - destruct (Z.eq_dec a (lowest t)).
    + assert (b <> -1) by tauto. subst a.
      destruct (Z.eq_dec b 1). { subst. rewrite Z.quot_1_r. lia. }
      assert (Z.abs (lowest t) ÷ Z.abs b <= Z.abs (lowest t) / 2).
      { rewrite Z.quot_div_nonneg by lia. apply Z.div_le_compat_l; lia. }
      assert (Z.abs (lowest t) / 2 <= highest t) by (apply Z.div_le_upper_bound; lia).
      lia.
    + lia.
  - assert (0 <= Z.quot a b). { rewrite Z.quot_div_nonneg by lia. apply Z.div_pos; lia. }
    lia.
Qed.

Lemma min_quot_m1 t : signed t = true -> wraps_to t (Z.quot (lowest t) (-1)) (lowest t).
Proof.
  intros Hs. bounds t Hs. change (-1) with (- (1)). rewrite Z.quot_opp_r, Z.quot_1_r by lia.
  split. unfold in_range; lia. exists 1. lia.
Qed.

Lemma div_wraps t a b :
  b <> 0 -> exists r, Div t a b = Ret r /\ wraps_to t (Z.quot a b) r.
Proof.
  intros H. unfold Div. destruct (Z.eqb_spec b 0); [lia|]. eexists; split; [reflexivity|apply wrap_wraps].
Qed.

Lemma rem_in_range t a b : in_range t a -> in_range t b -> b <> 0 -> in_range t (Z.rem a b).
Proof.
  intros Ha Hb H. pose proof (Z.rem_bound_abs a b H). 
  destruct (signed t) eqn:Hs; bounds t Hs; unfold in_range in *.
  - destruct (Z.le_gt_cases 0 a).
    + pose proof (Z.rem_bound_pos_pos a (Z.abs b)). 
      assert (0 <= Z.rem a b <= a).
      { pose proof (Z.rem_nonneg a b H ltac:(lia)). split; auto.
        rewrite <- (Z.rem_abs_r a b H).
        rewrite Z.rem_mod_nonneg by lia. apply Z.mod_le; lia. }
      lia.
    + assert (a <= Z.rem a b <= 0).
      { pose proof (Z.rem_nonpos a b H ltac:(lia)). split; auto.
        replace a with (- - a) at 2 by lia. rewrite Z.rem_opp_l by auto.
        rewrite <- (Z.rem_abs_r (- a) b) by auto.
        rewrite Z.rem_mod_nonneg by lia. pose proof (Z.mod_le (- a) (Z.abs b)). lia. }
      lia.
  - rewrite Z.rem_mod_nonneg by lia. pose proof (Z.mod_pos_bound a b). lia.
Qed.

Lemma rem_exact t a b :
  in_range t a -> in_range t b -> b <> 0 -> Rem t a b = Ret (Z.rem a b).
Proof.
  intros Ha Hb H. unfold Rem. destruct (Z.eqb_spec b 0); [lia|].
  rewrite wrap_id; auto. now apply rem_in_range.
Qed.

Lemma div_no_overflow t a b :
  in_range t a -> in_range t b -> b <> 0 -> in_range t (Z.quot a b) -> Div t a b = Ret (Z.quot a b).
Proof.
  intros. unfold Div. destruct (Z.eqb_spec b 0); [lia|]. now rewrite wrap_id.
Qed.

Lemma quot_overflow_iff t a b :
  in_range t a -> in_range t b -> b <> 0 ->
  (~ in_range t (Z.quot a b) <-> signed t = true /\ a = lowest t /\ b = -1).
Proof.
  intros Ha Hb H0. split; intros HH.
  - destruct (signed t) eqn:Hs.
    + destruct (Z.eq_dec a (lowest t)), (Z.eq_dec b (-1)); auto;
        exfalso; apply HH; apply quot_in_range; auto; rewrite Hs; tauto.
    + exfalso. apply HH. apply quot_in_range; auto. rewrite Hs. intros [? _]. discriminate.
  - destruct HH as (Hs & -> & ->). bounds t Hs. change (-1) with (- (1)).
    rewrite Z.quot_opp_r, Z.quot_1_r by lia. unfold in_range. lia.
Qed.

Lemma checked_div_exact t a b :
  in_range t a -> in_range t b ->
  (b = 0 -> CheckedDiv t a b = Ret None) /\
  (b <> 0 -> exists r, CheckedDiv t a b = Ret r /\ exact t (Z.quot a b) r).
Proof.
  intros Ha Hb. unfold CheckedDiv. split.
  - intros ->. unfold HasOverflow_Div. cbn. destruct (signed t); reflexivity.
  - intros H0. pose proof (quot_overflow_iff t a b Ha Hb H0) as HQ.
    destruct (signed t) eqn:Hs.
    + unfold HasOverflow_Div. rewrite MIN_lowest.
      destruct (Z.eqb_spec b 0); [lia|].
      destruct (Z.eqb_spec a (lowest t)), (Z.eqb_spec b (-1)); cbn [andb];
      try (exists None; split; [reflexivity|]; split; auto; intros HR; exfalso; destruct HQ as [_ HQ];
           apply HQ; auto; fail);
      (assert (in_range t (Z.quot a b)) as HR by
          (destruct (in_range_dec t (Z.quot a b)) as [?|HC]; auto; apply HQ in HC; tauto));
      rewrite div_no_overflow by auto; cbn [bind];
      eexists; (split; [reflexivity|]); split; tauto.
    + destruct (Z.eqb_spec b 0); [lia|].
      assert (in_range t (Z.quot a b)) as HR.
      { destruct (in_range_dec t (Z.quot a b)) as [?|HC]; auto. apply HQ in HC. destruct HC; discriminate. }
      rewrite div_no_overflow by auto; cbn [bind].
      eexists; (split; [reflexivity|]); split; tauto.
Qed.

Lemma saturating_div_clamps t a b :
  in_range t a -> in_range t b ->
  (b <> 0 -> SaturatingDiv t a b = Ret (clamp t (Z.quot a b))) /\
  (b = 0 -> SaturatingDiv t a b =
            Ret (if signed t then (if a <? 0 then lowest t else highest t) else 0)).
Proof.
  intros Ha Hb. unfold SaturatingDiv. split.
  - intros H0. pose proof (quot_overflow_iff t a b Ha Hb H0) as HQ.
    unfold HasOverflow_Div. rewrite MIN_lowest, MAX_highest.
    destruct (Z.eqb_spec b 0); [lia|].
    destruct (signed t) eqn:Hs.
    + destruct (Z.eqb_spec a (lowest t)), (Z.eqb_spec b (-1)); cbn [andb].
      * subst. f_equal. unfold clamp. bounds t Hs. change (-1) with (- (1)).
        rewrite Z.quot_opp_r, Z.quot_1_r by lia. lia.
      * assert (in_range t (Z.quot a b)) as HR by
          (destruct (in_range_dec t (Z.quot a b)) as [?|HC]; auto; apply HQ in HC; tauto).
        rewrite div_no_overflow by auto. f_equal. unfold clamp, in_range in *. lia.
      * assert (in_range t (Z.quot a b)) as HR by
          (destruct (in_range_dec t (Z.quot a b)) as [?|HC]; auto; apply HQ in HC; tauto).
        rewrite div_no_overflow by auto. f_equal. unfold clamp, in_range in *. lia.
      * assert (in_range t (Z.quot a b)) as HR by
          (destruct (in_range_dec t (Z.quot a b)) as [?|HC]; auto; apply HQ in HC; tauto).
        rewrite div_no_overflow by auto. f_equal. unfold clamp, in_range in *. lia.
    + assert (in_range t (Z.quot a b)) as HR.
      { destruct (in_range_dec t (Z.quot a b)) as [?|HC]; auto. apply HQ in HC. destruct HC; discriminate. }
      rewrite div_no_overflow by auto. f_equal. unfold clamp, in_range in *. lia.
  - intros ->. unfold HasOverflow_Div. cbn [Z.eqb]. rewrite MIN_lowest, MAX_highest.
    change (0 =? -1) with false. rewrite andb_false_r. destruct (signed t), (a <? 0); reflexivity.
Qed.

(** *** Checked remainder *)
Lemma checked_rem_char t a b :
  in_range t a -> in_range t b ->
  CheckedRem t a b =
    Ret (if b =? 0 then None
         else if (a <? Z.rem a b) || (b <? Z.rem a b) then None else Some (Z.rem a b)).
Proof.
  intros Ha Hb. unfold CheckedRem. destruct (Z.eqb_spec b 0); auto.
  rewrite rem_exact by auto. cbn [bind]. destruct (_ || _); reflexivity.
Qed.

Lemma checked_rem_nonneg t a b :
  in_range t a -> in_range t b -> 0 <= a -> 0 < b -> CheckedRem t a b = Ret (Some (Z.rem a b)).
Proof.
  intros Ha Hb H1 H2. rewrite checked_rem_char by auto.
  destruct (Z.eqb_spec b 0); [lia|].
  rewrite Z.rem_mod_nonneg by lia. pose proof (Z.mod_pos_bound a b H2). pose proof (Z.mod_le a b H1 H2).
  destruct (Z.ltb_spec a (a mod b)), (Z.ltb_spec b (a mod b)); cbn [orb]; try lia. reflexivity.
Qed.

(** *** Abs, AbsDiff, Pow *)
Lemma abs_correct t a :
  signed t = true -> in_range t a ->
  Abs t a = if a =? lowest t then lowest t else Z.abs a.
Proof.
  intros Hs Ha. bounds t Hs. unfold Abs, in_range in *.
  destruct (Z.ltb_spec a 0), (Z.eqb_spec a (lowest t)); try lia.
  - apply wrap_unique. split. unfold in_range; lia. exists 1. lia.
  - rewrite wrap_id by (unfold in_range; lia). lia.
Qed.

Lemma unsigned_of_bounds t :
  lowest (unsigned_of t) = 0 /\ highest (unsigned_of t) = modulus t - 1 /\
  modulus (unsigned_of t) = modulus t.
Proof. destruct t; repeat split. Qed.

Lemma wrap_unsigned_of t z : wrap (unsigned_of t) (wrap t z) = wrap (unsigned_of t) z.
Proof.
  destruct (wrap_cong t z) as [k E]. rewrite E at 2.
  destruct (unsigned_of_bounds t) as (_ & _ & <-). now rewrite wrap_add_mult.
Qed.

Lemma absdiff_exact t a b :
  in_range t a -> in_range t b -> AbsDiff t a b = Z.abs (a - b) /\ in_range (unsigned_of t) (Z.abs (a - b)).
Proof.
  intros Ha Hb. unfold AbsDiff, in_range in *.
  destruct (unsigned_of_bounds t) as (H1 & H2 & H3). pose proof (highest_eq t).
  split.
  - destruct (Z.ltb_spec b a); rewrite wrap_unsigned_of, wrap_id by (unfold in_range; lia); lia.
  - lia.
Qed.

Lemma pow_go_correct n : forall t a e,
  0 <= e < 2 ^ Z.of_nat n -> in_range t a ->
  exists r, pow_go (S n) t a e = Ret r /\ wraps_to t (a ^ e) r.
Proof.
  induction n; intros t a e He Ha.
  - assert (e = 0) by (cbn in He; lia). subst. exists 1. split; [reflexivity|].
    split. destruct t; unfold in_range; cbn; lia. exists 0. rewrite Z.pow_0_r. lia.
  - cbn [pow_go]. destruct (Z.eqb_spec e 0).
    { subst. exists 1. split; [reflexivity|]. split. destruct t; unfold in_range; cbn; lia. exists 0. rewrite Z.pow_0_r. lia. }
    destruct (Z.eqb_spec e 1).
    { subst. exists a. split; [reflexivity|]. split; auto. exists 0. rewrite Z.pow_1_r. lia. }
    assert (0 <= e / 2 < 2 ^ Z.of_nat n) as He2.
    { rewrite Nat2Z.inj_succ, Z.pow_succ_r in He by lia. split.
      apply Z.div_pos; lia. apply Z.div_lt_upper_bound; lia. }
    destruct (IHn t (wrap t (a * a)) (e / 2) He2 (wrap_range t (a * a))) as (r & Er & Hr).
    cbn [pow_go] in Er. rewrite Er.
    assert (wrap t (wrap t (a * a) ^ (e / 2)) = wrap t ((a * a) ^ (e / 2))) as HP.
    { destruct He2 as [He2 _]. revert He2. generalize (e / 2) as k. clear.
      intros k Hk. pattern k. apply natlike_ind; auto.
      intros x Hx IH. rewrite !Z.pow_succ_r by auto.
      rewrite wrap_mul_l. rewrite <- wrap_mul_r, IH, wrap_mul_r. reflexivity. }
    apply wrap_unique in Hr. rewrite HP in Hr.
    assert (a ^ e = a ^ (e mod 2) * (a * a) ^ (e / 2)) as HE.
    { rewrite <- Z.pow_2_r, <- Z.pow_mul_r, <- Z.pow_add_r; try lia.
      - f_equal. rewrite (Z.div_mod e 2) at 1 by lia. lia.
      - apply Z.mod_pos_bound; lia. }
    pose proof (Z.mod_pos_bound e 2 ltac:(lia)).
    destruct (Z.eqb_spec (e mod 2) 0).
    + exists r. split; [reflexivity|]. rewrite HE, e0, Z.pow_0_r, Z.mul_1_l, <- Hr. apply wrap_wraps.
    + exists (wrap t (a * r)). split; [reflexivity|].
      assert (e mod 2 = 1) as E1 by lia. rewrite HE, E1, Z.pow_1_r.
      rewrite <- Hr, wrap_mul_r. apply wrap_wraps.
Qed.

Lemma pow_correct t a e :
  in_range t a -> in_range U32 e -> exists r, Pow t a e = Ret r /\ wraps_to t (a ^ e) r.
Proof.
  intros Ha He. apply (pow_go_correct 32); auto. unfold in_range in He; cbn in He. cbn; lia.
Qed.

(** *** Shifts *)
Lemma shl_char t a b :
  in_range t a ->
  (a < 0 -> Shl t a b = Panic) /\
  (0 <= a -> exists r, Shl t a b = Ret r /\ wraps_to t (a * 2 ^ a) r).
Proof.
  intros Ha. unfold Shl, go_shl. split; intros H.
  - destruct (Z.ltb_spec a 0); [reflexivity|lia].
  - destruct (Z.ltb_spec a 0); [lia|].
    destruct (Z.leb_spec (width t) a).
    + exists 0. split; [reflexivity|]. split. destruct t; unfold in_range; cbn; lia.
      exists (a * 2 ^ (a - width t)). rewrite modulus_width.
      rewrite Z.add_0_l, <- Z.mul_assoc, <- Z.pow_add_r.
      f_equal. f_equal. lia. destruct t; cbn in *; lia. destruct t; cbn in *; lia.
    + eexists; split; [reflexivity|apply wrap_wraps].
Qed.

Lemma shr_char t a b :
  in_range t a ->
  (a < 0 -> Shr t a b = Panic) /\
  (0 <= a -> Shr t a b = Ret (a / 2 ^ a)).
Proof.
  intros Ha. unfold Shr, go_shr. split; intros H.
  - destruct (Z.ltb_spec a 0); [reflexivity|lia].
  - destruct (Z.ltb_spec a 0); [lia|].
    destruct (Z.leb_spec (width t) a); [|reflexivity].
    f_equal. symmetry. apply Z.div_small. split; [lia|]. apply Z.pow_gt_lin_r; lia.
Qed.
