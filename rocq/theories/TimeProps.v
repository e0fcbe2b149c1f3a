(** TimeProps.v -- theorems C22-C24 (Duration and Sleep).  [total d] is the length
    of [d] in nanoseconds, [dvalid d] its field ranges (TimeSpec). *)
From Coq Require Import ZArith Lia.
From Verif Require Import Base IntModel IntSpec IntProofs Int128Model Int128Spec TimeModel TimeSpec TimeProofs.
Local Open Scope Z_scope.

(** C22: construction loses no time. *)
Theorem C22_duration_new : forall secs nanos, in_range U64 secs -> in_range U32 nanos ->
  (secs * 10 ^ 9 + nanos < 2 ^ 64 * 10 ^ 9 ->
     exists d, DurationNew secs nanos = Ret d /\ dvalid d /\ total d = secs * 10 ^ 9 + nanos) /\
  (2 ^ 64 * 10 ^ 9 <= secs * 10 ^ 9 + nanos -> DurationNew secs nanos = Panic).
Proof.
  intros secs nanos Hs Hn. rewrite DurationNew_spec by auto.
  unfold in_range in *; cbn [lowest highest] in *. change (10 ^ 9) with 1000000000.
  pose proof (Z.div_mod nanos 1000000000 ltac:(lia)). pose proof (Z.mod_pos_bound nanos 1000000000 ltac:(lia)).
  assert (0 <= nanos / 1000000000) by (apply Z.div_pos; lia).
  split; intros Hb.
  - destruct (Z.ltb_spec (secs + nanos / 1000000000) (2 ^ 64)).
    + eexists; split; [reflexivity|]. unfold dvalid, total; cbn [seconds nanoseconds].
      change (10 ^ 9) with 1000000000. lia.
    + change (2 ^ 64) with 18446744073709551616 in *. lia.
  - destruct (Z.ltb_spec (secs + nanos / 1000000000) (2 ^ 64)); [|reflexivity].
    change (2 ^ 64) with 18446744073709551616 in *. lia.
Qed.
Print Assumptions C22_duration_new.
Theorem C22_duration_from_units : forall x, in_range U64 x ->
  (exists d, DurationFromSecs x = Ret d /\ dvalid d /\ total d = x * 10 ^ 9) /\
  (exists d, DurationFromMillis x = Ret d /\ dvalid d /\ total d = x * 10 ^ 6) /\
  (exists d, DurationFromMicros x = Ret d /\ dvalid d /\ total d = x * 10 ^ 3) /\
  (exists d, DurationFromNanos x = Ret d /\ dvalid d /\ total d = x).
Proof.
  intros x H. split; [|split; [|split]]; [now apply from_secs|now apply from_millis|now apply from_micros|now apply from_nanos].
Qed.
Print Assumptions C22_duration_from_units.
Example C22_nonvacuous :
  DurationNew 3 4000000007 = Ret (mkD 7 7) /\ DurationNew (2 ^ 64 - 1) 1000000000 = Panic /\
  DurationFromMillis 4007 = Ret (mkD 4 7000000) /\ DurationFromMicros 1000001 = Ret (mkD 1 1000) /\
  DurationFromNanos (2 ^ 64 - 1) = Ret (mkD 18446744073 709551615).
Proof. repeat split; vm_compute; reflexivity. Qed.

(** C23: accessors. *)
Theorem C23_duration_totals : forall d, dvalid d ->
  AsSecs d = total d / 10 ^ 9 /\
  (uvalid (AsMillis d) /\ uval (AsMillis d) = total d / 10 ^ 6) /\
  (uvalid (AsMicros d) /\ uval (AsMicros d) = total d / 10 ^ 3) /\
  (uvalid (AsNanos d) /\ uval (AsNanos d) = total d).
Proof.
  intros d H. split; [|split; [|split]]; [|now apply AsMillis_spec|now apply AsMicros_spec|now apply AsNanos_spec].
  destruct H as [Hs Hn]. unfold AsSecs, total. change (10 ^ 9) with 1000000000 in *.
  apply Z.div_unique with (nanoseconds d); lia.
Qed.
Print Assumptions C23_duration_totals.
Theorem C23_duration_subsec : forall d, dvalid d ->
  SubsecMillis d = (total d mod 10 ^ 9) / 10 ^ 6 /\ SubsecMicros d = (total d mod 10 ^ 9) / 10 ^ 3 /\
  SubsecNanos d = total d mod 10 ^ 9 /\ (IsZero d = true <-> total d = 0).
Proof.
  intros d [Hs Hn]. change (10 ^ 9) with 1000000000 in *.
  assert (total d mod 1000000000 = nanoseconds d) as ->.
  { unfold total. change (10 ^ 9) with 1000000000. rewrite Z.add_comm, Z.mod_add by lia. apply Z.mod_small; lia. }
  unfold SubsecMillis, SubsecMicros, SubsecNanos, IsZero, total. consts.
  rewrite !Z.quot_div_nonneg by lia. repeat (split; [reflexivity|]).
  rewrite Bool.andb_true_iff, !Z.eqb_eq. lia.
Qed.
Print Assumptions C23_duration_subsec.
Example C23_nonvacuous :
  dvalid (mkD (2 ^ 64 - 1) 999999999) /\ uval (AsNanos (mkD (2 ^ 64 - 1) 999999999)) = 2 ^ 64 * 10 ^ 9 - 1 /\
  SubsecMillis (mkD 1 234567890) = 234 /\ uval (AsMicros (mkD 1 234567890)) = 1234567.
Proof. split; [unfold dvalid; cbn; lia|]. repeat split; vm_compute; reflexivity. Qed.

(** C24: the number of nanoseconds passed to the runtime's sleep. *)
Theorem C24_sleep_exact : forall d, dvalid d ->
  Sleep d = if total d <=? 2 ^ 63 - 1 then Ret (total d) else Panic.
Proof. intros d [Hs Hn]. apply Sleep_spec; auto. change (10 ^ 9) with 1000000000 in *. lia. Qed.
Print Assumptions C24_sleep_exact.
Theorem C24_sleep_never_short : forall d ns, dvalid d -> Sleep d = Ret ns -> ns = total d.
Proof.
  intros d ns H E. rewrite C24_sleep_exact in E by auto.
  destruct (total d <=? 2 ^ 63 - 1); [injection E as <-; reflexivity|discriminate].
Qed.
Print Assumptions C24_sleep_never_short.
Example C24_nonvacuous :
  Sleep (mkD 5 20) = Ret 5000000020 /\ Sleep (mkD 0 0) = Ret 0 /\
  Sleep (mkD 9223372036 854775807) = Ret (2 ^ 63 - 1) /\ Sleep (mkD 9223372036 854775808) = Panic.
Proof. repeat split; vm_compute; reflexivity. Qed.
