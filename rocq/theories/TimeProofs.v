(** TimeProofs.v -- proofs about Duration and Sleep. *)
From Verif Require Import Base IntModel IntSpec IntProofs DecimalModel DecimalSpec DecimalProofs
  Int128Model Int128Spec Int128Proofs TimeModel TimeSpec.
Local Open Scope Z_scope.
Local Open Scope bool_scope.

Ltac consts := unfold NANOS_PER_SEC, NANOS_PER_MILLI, NANOS_PER_MICRO, MILLIS_PER_SEC, MICROS_PER_SEC in *.

Lemma U64_range x : in_range U64 x <-> 0 <= x < 2 ^ 64.
Proof. unfold in_range; cbn [lowest highest]. lia. Qed.
Lemma U32_range x : in_range U32 x <-> 0 <= x < 2 ^ 32.
Proof. unfold in_range; cbn [lowest highest]. lia. Qed.

Lemma DurationNew_spec secs nanos : in_range U64 secs -> in_range U32 nanos ->
  DurationNew secs nanos =
    if secs + nanos / 10 ^ 9 <? 2 ^ 64
    then Ret (mkD (secs + nanos / 10 ^ 9) (nanos mod 10 ^ 9)) else Panic.
Proof.
  rewrite U64_range, U32_range. intros Hs Hn. unfold DurationNew. consts.
  rewrite Z.quot_div_nonneg, Z.rem_mod_nonneg by lia. change (10 ^ 9) with 1000000000.
  assert (0 <= nanos / 1000000000 <= nanos).
  { split. apply Z.div_pos; lia. apply Z.div_le_upper_bound; lia. }
  rewrite (wrap_id U64) by (apply U64_range; lia).
  pose proof (checked_add_exact U64 secs (nanos / 1000000000)
    ltac:(apply U64_range; lia) ltac:(apply U64_range; lia)) as HC. unfold exact in HC.
  set (z := secs + nanos / 1000000000) in *.
  destruct (Z.ltb_spec z (2 ^ 64)).
  - destruct HC as [HC _]. rewrite HC by (apply U64_range; lia). reflexivity.
  - destruct HC as [_ HC]. rewrite HC by (rewrite U64_range; lia). reflexivity.
Qed.

(** The sub-unit constructors never panic and give the exact total. *)
Lemma from_unit secs nanos : 0 <= secs < 2 ^ 64 -> 0 <= nanos < 10 ^ 9 ->
  DurationNew secs nanos = Ret (mkD secs nanos).
Proof.
  intros Hs Hn. rewrite DurationNew_spec by (rewrite ?U64_range, ?U32_range; lia).
  rewrite Z.div_small, Z.mod_small, Z.add_0_r by lia. destruct (Z.ltb_spec secs (2 ^ 64)); [reflexivity|lia].
Qed.

Lemma split_unit x u p : 0 <= x < 2 ^ 64 -> 0 < u -> 0 < p -> u * p = 10 ^ 9 ->
  DurationNew (Z.quot x u) (wrap U32 (wrap U32 (Z.rem x u) * p)) = Ret (mkD (x / u) (x mod u * p)) /\
  x / u * 10 ^ 9 + x mod u * p = x * p /\ 0 <= x / u < 2 ^ 64 /\ 0 <= x mod u * p < 10 ^ 9.
Proof.
  intros Hx Hu Hp E. rewrite Z.quot_div_nonneg, Z.rem_mod_nonneg by lia.
  pose proof (Z.mod_pos_bound x u ltac:(lia)). pose proof (Z.div_mod x u ltac:(lia)).
  assert (0 <= x / u <= x). { split. apply Z.div_pos; lia. apply Z.div_le_upper_bound; nia. }
  assert (0 <= x mod u * p < 10 ^ 9) by nia.
  change (10 ^ 9) with 1000000000 in *.
  rewrite (wrap_id U32 (x mod u)) by (apply U32_range; nia).
  rewrite (wrap_id U32 (x mod u * p)) by (apply U32_range; lia).
  split; [apply from_unit; lia|]. split; [nia|]. lia.
Qed.

Lemma from_millis x : in_range U64 x -> exists d, DurationFromMillis x = Ret d /\ dvalid d /\ total d = x * 10 ^ 6.
Proof.
  rewrite U64_range. intros H. unfold DurationFromMillis. consts.
  destruct (split_unit x 1000 1000000 H) as (E & T & R1 & R2); try lia.
  eexists; split; [exact E|]. split; [split; auto|]. exact T.
Qed.
Lemma from_micros x : in_range U64 x -> exists d, DurationFromMicros x = Ret d /\ dvalid d /\ total d = x * 10 ^ 3.
Proof.
  rewrite U64_range. intros H. unfold DurationFromMicros. consts.
  destruct (split_unit x 1000000 1000 H) as (E & T & R1 & R2); try lia.
  eexists; split; [exact E|]. split; [split; auto|]. exact T.
Qed.
Lemma from_nanos x : in_range U64 x -> exists d, DurationFromNanos x = Ret d /\ dvalid d /\ total d = x.
Proof.
  rewrite U64_range. intros H. unfold DurationFromNanos. consts.
  destruct (split_unit x 1000000000 1 H) as (E & T & R1 & R2); try lia.
  rewrite !Z.mul_1_r, wrap_mod in *.
  eexists; split; [exact E|]. split; [split; auto|]. exact T.
Qed.
Lemma from_secs x : in_range U64 x -> exists d, DurationFromSecs x = Ret d /\ dvalid d /\ total d = x * 10 ^ 9.
Proof.
  rewrite U64_range. intros H. unfold DurationFromSecs.
  rewrite from_unit by lia. eexists; split; [reflexivity|].
  unfold dvalid, total; cbn [seconds nanoseconds]. lia.
Qed.

(** Accessors *)
Lemma u128_lin s m q : 0 <= s < 2 ^ 64 -> 0 <= m < 2 ^ 32 -> 0 <= q < 2 ^ 32 ->
  let r := U128_Add (U128_Mul (U128_FromU64 s) (U128_FromU64 m)) (U128_FromU64 q) in
  uvalid r /\ uval r = s * m + q.
Proof.
  intros Hs Hm Hq r.
  assert (forall x, 0 <= x < 2 ^ 64 -> uvalid (U128_FromU64 x) /\ uval (U128_FromU64 x) = x) as F.
  { intros x Hx. unfold U128_FromU64, uvalid, uval; cbn [uhigh ulow]. lia. }
  destruct (F s Hs) as [V1 E1], (F m ltac:(lia)) as [V2 E2], (F q ltac:(lia)) as [V3 E3].
  destruct (U128_Mul_spec _ _ V1 V2) as [VM [k EM]].
  pose proof (U128_Add_spec _ _ VM V3) as HA.
  assert (is_u128 r (s * m + q)) as HR.
  { eapply is_u128_cong; [exact HA|]. exists k. rewrite E3. rewrite <- E1, <- E2, EM at 1. lia. }
  split; [apply HR|]. apply is_u128_unique; auto.
  change (2 ^ 128) with (2 ^ 64 * 2 ^ 64). change (2 ^ 32) with 4294967296 in *. norm. nia.
Qed.

Lemma floor_unit s n u p : 0 <= n -> 0 < u -> u * p = 10 ^ 9 -> (s * 10 ^ 9 + n) / u = s * p + n / u.
Proof.
  intros Hn Hu E. rewrite <- E. replace (s * (u * p) + n) with (n + (s * p) * u) by ring.
  rewrite Z.div_add by lia. lia.
Qed.

Lemma as_unit d u p : dvalid d -> 0 < u -> 0 <= p < 2 ^ 32 -> u * p = 10 ^ 9 ->
  let r := U128_Add (U128_Mul (U128_FromU64 (seconds d)) (U128_FromU64 p)) (U128_FromU64 (Z.quot (nanoseconds d) u)) in
  uvalid r /\ uval r = total d / u.
Proof.
  intros [Hs Hn] Hu Hp E. rewrite Z.quot_div_nonneg by lia.
  assert (0 <= nanoseconds d / u <= nanoseconds d).
  { split. apply Z.div_pos; lia. apply Z.div_le_upper_bound; nia. }
  change (10 ^ 9) with 1000000000 in *.
  destruct (u128_lin (seconds d) p (nanoseconds d / u)) as [V EV]; try lia.
  cbv zeta. split; auto. rewrite EV. unfold total. symmetry. apply floor_unit; lia.
Qed.

Lemma AsMillis_spec d : dvalid d -> uvalid (AsMillis d) /\ uval (AsMillis d) = total d / 10 ^ 6.
Proof. intros H. exact (as_unit d 1000000 1000 H ltac:(lia) ltac:(lia) ltac:(reflexivity)). Qed.
Lemma AsMicros_spec d : dvalid d -> uvalid (AsMicros d) /\ uval (AsMicros d) = total d / 10 ^ 3.
Proof. intros H. exact (as_unit d 1000 1000000 H ltac:(lia) ltac:(lia) ltac:(reflexivity)). Qed.
Lemma AsNanos_spec d : dvalid d -> uvalid (AsNanos d) /\ uval (AsNanos d) = total d.
Proof.
  intros [Hs Hn]. unfold AsNanos. consts. change (10 ^ 9) with 1000000000 in *.
  destruct (u128_lin (seconds d) 1000000000 (nanoseconds d)) as [V EV]; try lia. auto.
Qed.

(** *** Sleep *)
Lemma leadingInt_stop x r : (forall c r', r = c :: r' -> is_digit c = false) -> leadingInt x r = Some (x, r).
Proof. intros H. destruct r as [|c r]; [reflexivity|]. cbn [leadingInt]. now rewrite (H c r eq_refl). Qed.

Lemma fold_ge ds : forall x, Forall digit_char ds -> 0 <= x ->
  x <= fold_left (fun acc c => 10 * acc + (c - 48)) ds x.
Proof.
  induction ds as [|c ds IH]; intros x Hd Hx; cbn [fold_left]; [lia|].
  inversion Hd as [|? ? Hc Hd']; subst. unfold digit_char in Hc.
  specialize (IH (10 * x + (c - 48)) Hd' ltac:(lia)). lia.
Qed.

Lemma leadingInt_digits ds : forall x r, Forall digit_char ds -> 0 <= x <= 2 ^ 63 ->
  (forall c r', r = c :: r' -> is_digit c = false) ->
  leadingInt x (ds ++ r) =
    let v := fold_left (fun acc c => 10 * acc + (c - 48)) ds x in
    if 2 ^ 63 <? v then None else Some (v, r).
Proof.
  induction ds as [|c ds IH]; intros x r Hd Hx Hr; cbn [app fold_left].
  - rewrite leadingInt_stop by auto. cbv zeta. destruct (Z.ltb_spec (2 ^ 63) x); [lia|reflexivity].
  - inversion Hd as [|? ? Hc Hd']; subst. cbn [leadingInt].
    assert (is_digit c = true) as -> by (now apply is_digit_spec).
    unfold digit_char in Hc. cbv zeta.
    pose proof (fold_ge ds (10 * x + (c - 48)) Hd' ltac:(lia)) as HG.
    set (v := fold_left _ ds (10 * x + (c - 48))) in *.
    change (2 ^ 63 / 10) with 922337203685477580. norm.
    destruct (Z.ltb_spec 922337203685477580 x).
    + destruct (Z.ltb_spec 9223372036854775808 v); [reflexivity|lia].
    + replace (x * 10 + (c - 48)) with (10 * x + (c - 48)) by lia.
      destruct (Z.ltb_spec 9223372036854775808 (10 * x + (c - 48))).
      * destruct (Z.ltb_spec 9223372036854775808 v); [reflexivity|lia].
      * rewrite IH by (auto; norm; lia). reflexivity.
Qed.

Lemma Itoa_nonneg n : 0 <= n -> Itoa n = digits n.
Proof. intros H. unfold Itoa. destruct (Z.ltb_spec n 0); [lia|reflexivity]. Qed.

Lemma Sleep_spec d : 0 <= seconds d < 2 ^ 64 -> 0 <= nanoseconds d < 2 ^ 32 ->
  Sleep d = if total d <=? 2 ^ 63 - 1 then Ret (total d) else Panic.
Proof.
  intros Hs Hn. unfold Sleep, duration_string. rewrite !Itoa_nonneg by lia.
  destruct (digits_spec (seconds d) ltac:(lia)) as (N1 & D1 & _ & V1).
  destruct (digits_spec (nanoseconds d) ltac:(lia)) as (N2 & D2 & _ & V2).
  unfold total. unfold value_of in V1, V2.
  set (s := seconds d) in *. set (n := nanoseconds d) in *.
  set (s1 := digits s) in *. set (s2 := digits n) in *. clearbody s1 s2.
  change ([115] ++ s2 ++ [110; 115]) with (115 :: s2 ++ [110; 115]).
  unfold ParseDuration.
  assert (s1 ++ 115 :: s2 ++ [110; 115] <> []) as NE by (destruct s1; discriminate).
  destruct (s1 ++ 115 :: s2 ++ [110; 115]) as [|c0 t0] eqn:ET; [contradiction|].
  rewrite <- ET at 1.
  assert (bytes_eqb (s1 ++ 115 :: s2 ++ [110; 115]) [48] = false) as ->.
  { unfold bytes_eqb. destruct (list_eq_dec Z.eq_dec _ _) as [E|]; auto. exfalso.
    destruct s1 as [|a [|b s1]]; cbn in E; [contradiction|discriminate|discriminate]. }
  (* first component *)
  assert (is_digit c0 = true) as HC0.
  { destruct s1 as [|a s1]; [contradiction|]. injection ET as <- _. inversion D1; subst. now apply is_digit_spec. }
  cbn [parse_duration_go]. rewrite HC0. cbn [negb].
  pose proof (leadingInt_digits s1 0 (115 :: s2 ++ [110; 115]) D1 ltac:(lia)) as L1.
  rewrite ET in L1. rewrite L1 by (intros c r' E; injection E as <- _; reflexivity). clear L1.
  cbv zeta. rewrite V1.
  assert (exists b s2', s2 = b :: s2' /\ is_digit b = true) as (b & s2' & E2 & Hb).
  { destruct s2 as [|b s2']; [contradiction|]. exists b, s2'. split; auto. inversion D2; subst. now apply is_digit_spec. }
  destruct (Z.ltb_spec (2 ^ 63) s) as [Hbig|Hbig].
  { cbn [of_option]. destruct (Z.leb_spec (s * 10 ^ 9 + n) (2 ^ 63 - 1)); [|reflexivity].
    change (10 ^ 9) with 1000000000 in *. lia. }
  rewrite E2 at 1. cbn [take_unit app].
  change (is_digit 115 || (115 =? 46)) with false. cbv iota. rewrite Hb. cbn [orb].
  change (unit_ns [115]) with (Some 1000000000). cbv iota.
  change (2 ^ 63 / 1000000000) with 9223372036.
  destruct (Z.ltb_spec 9223372036 s).
  { cbn [of_option]. destruct (Z.leb_spec (s * 10 ^ 9 + n) (2 ^ 63 - 1)); [|reflexivity].
    change (10 ^ 9) with 1000000000 in *. norm. lia. }
  rewrite Z.add_0_l. destruct (Z.ltb_spec (2 ^ 63) (s * 1000000000)).
  { norm. lia. }
  (* second component *)
  assert (length (c0 :: t0) = S (length t0)) as -> by reflexivity.
  assert (exists k, length t0 = S (S k)) as (k & EK).
  { assert (length (c0 :: t0) >= 4)%nat as HL.
    { rewrite <- ET. rewrite !app_length. cbn [length]. rewrite app_length. cbn [length].
      destruct s1; [contradiction|]. cbn [length]. lia. }
    cbn [length] in HL. exists (length t0 - 2)%nat. lia. }
  rewrite EK. change (b :: s2' ++ [110; 115]) with ((b :: s2') ++ [110; 115]).
  rewrite <- E2.
  cbn [parse_duration_go].
  rewrite E2 at 1. cbn [app]. rewrite Hb. cbn [negb].
  rewrite (leadingInt_digits s2 0 [110; 115] D2 ltac:(lia)) by (intros c r' E; injection E as <- _; reflexivity).
  cbv zeta. rewrite V2. change (2 ^ 32) with 4294967296 in *.
  destruct (Z.ltb_spec (2 ^ 63) n); [norm; lia|].
  change (take_unit [110; 115]) with ([110; 115], @nil Z). cbv iota beta.
  change (unit_ns [110; 115]) with (Some 1). cbv iota.
  rewrite Z.div_1_r, Z.mul_1_r.
  destruct (Z.ltb_spec (2 ^ 63) n); [norm; lia|].
  change (10 ^ 9) with 1000000000.
  destruct (Z.ltb_spec (2 ^ 63) (s * 1000000000 + n)).
  { cbn [of_option]. destruct (Z.leb_spec (s * 1000000000 + n) (2 ^ 63 - 1)); [lia|reflexivity]. }
  destruct (Z.ltb_spec (2 ^ 63 - 1) (s * 1000000000 + n)), (Z.leb_spec (s * 1000000000 + n) (2 ^ 63 - 1));
    try lia; reflexivity.
Qed.
