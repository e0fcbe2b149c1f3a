(** FloatUniqueProofs.v -- rounding has one result; what rounds to a number is an
    interval; rounding of fractions. *)
From Coq Require Import ZArith QArith Qabs Qpower Lqa Lia Bool Floats.SpecFloat.
From Verif Require Import FloatSpec FloatCoreProofs FloatRoundProofs FloatOpsProofs.
Local Open Scope Q_scope.

Lemma half_power prec : (1 < prec -> 2 ^ prec = 2 * 2 ^ (prec - 1))%Z.
Proof. intros H. rewrite <- Z.pow_succ_r by lia. f_equal. lia. Qed.
Lemma half_power_pos prec : (1 < prec -> 0 < 2 ^ (prec - 1))%Z. Proof. intros H. apply Z.pow_pos_nonneg; lia. Qed.

Section Format.
  Variable prec emax : Z.
  Hypothesis Hprec : (1 < prec)%Z.
  Hypothesis Hemax : (prec < emax)%Z.
  Let emin := emin prec emax.
  Let valid := valid_binary prec emax.

  Lemma rounds_finite v r : finite r -> rounds_to prec emax v r <->
    valid r = true /\ Qabs v < limit prec emax /\
    forall y, valid y = true -> finite y ->
      Qabs (v - value r) <= Qabs (v - value y) /\ (Qabs (v - value r) == Qabs (v - value y) -> value y == value r \/ even_digit r).
  Proof. intros F. unfold rounds_to. destruct r; try contradiction; reflexivity. Qed.
  Lemma rounds_opp v r : rounds_to prec emax v r -> rounds_to prec emax (- v) (SFopp r).
  Proof.
    intros R. destruct r as [s|s| |s m e].
    - apply rounds_finite in R; [|exact I]. apply rounds_finite; [exact I|]. destruct R as (V & L & R).
      split; [reflexivity|]. split; [rewrite Qabs_opp; exact L|]. intros y Vy Fy.
      specialize (R (SFopp y) ltac:(unfold valid; rewrite opp_valid; exact Vy) ltac:(apply opp_finite; exact Fy)).
      cbn [value SFopp even_digit] in *. rewrite !opp_value in R.
      assert (E1 : Qabs (- v - 0) == Qabs (v - 0)) by (rewrite <- Qabs_opp; apply Qabs_wd; ring).
      assert (E2 : Qabs (- v - value y) == Qabs (v - - value y)) by (rewrite <- Qabs_opp; apply Qabs_wd; ring).
      rewrite E1, E2. split; [apply R|]. intros _. right. exact I.
    - destruct R as [_ R]. split; [reflexivity|]. cbn [SFopp]. destruct s; cbn [negb]; lra.
    - destruct R as [_ []].
    - apply rounds_finite in R; [|exact I]. apply rounds_finite; [exact I|]. destruct R as (V & L & R).
      split; [exact V|]. split; [rewrite Qabs_opp; exact L|]. intros y Vy Fy.
      specialize (R (SFopp y) ltac:(unfold valid; rewrite opp_valid; exact Vy) ltac:(apply opp_finite; exact Fy)).
      rewrite opp_value in R. set (x := S754_finite s m e) in *.
      assert (E1 : Qabs (- v - value (SFopp x)) == Qabs (v - value x)) by (rewrite opp_value, <- Qabs_opp; apply Qabs_wd; ring).
      assert (E2 : Qabs (- v - value y) == Qabs (v - - value y)) by (rewrite <- Qabs_opp; apply Qabs_wd; ring).
      rewrite E1, E2, opp_value. destruct R as [R1 R2]. split; [exact R1|]. intros T. destruct (R2 T) as [K|K]; [left; lra|right; exact K].
  Qed.

  (** The next number after one with an even digit has an odd one. *)
  Lemma next_above m e y : (emin <= e)%Z -> (emin < e -> 2 ^ (prec - 1) <= m)%Z -> (0 <= m)%Z -> magnitude prec emax y ->
    inject_Z m * 2 ^ e < y -> inject_Z (m + 1) * 2 ^ e <= y.
  Proof.
    intros Ge Hm M0 (m' & e' & E & B & G) L. rewrite E in *. 
    destruct (Z.le_gt_cases e e') as [H|H].
    - rewrite (pow2_shift e e' H) in *. rewrite Qmult_assoc, <- inject_Z_mult in *. apply scale_lt_inv in L.
      apply scale_le. lia.
    - exfalso. specialize (Hm ltac:(unfold emin; lia)). pose proof (half_power prec Hprec) as H0.
      assert (K : (m' <= 2 ^ prec)%Z) by lia. apply (scale_le _ _ e') in K.
      pose proof (pow2_mono e' (e - 1) ltac:(lia)) as K2. rewrite pow2_half in K2.
      apply (scale_le _ _ e) in Hm. rewrite H0, inject_Z_mult in K. change (inject_Z 2) with 2 in K.
      assert (0 < inject_Z (2 ^ (prec - 1))) by (change 0 with (inject_Z 0); apply inj_lt, (half_power_pos prec Hprec)). nra.
  Qed.
  Lemma value_magnitude x : valid x = true -> finite x -> negative x = false ->
    exists m e, value x == inject_Z m * 2 ^ e /\ (0 <= m < 2 ^ prec)%Z /\ (emin <= e <= emax - prec)%Z /\ (emin < e -> 2 ^ (prec - 1) <= m)%Z /\
      (even_digit x -> Z.even m = true) /\ (0 < m -> exists p, m = Zpos p /\ x = S754_finite false p e)%Z.
  Proof.
    destruct x as [s|s| |s m e]; cbn [finite negative]; intros V F N; try contradiction; subst.
    - exists 0%Z, emin. split; [reflexivity|]. pose proof (half_power_pos prec Hprec). pose proof (half_power prec Hprec).
      split; [lia|]. split; [unfold emin, SpecFloat.emin; lia|]. split; [lia|]. split; [reflexivity|lia].
    - unfold valid in V. cbn [valid_binary] in V. apply (bounded_spec prec emax Hprec) in V. destruct V as (A & B & C).
      exists (Zpos m), e. split; [reflexivity|]. split; [lia|]. split; [exact A|]. split; [exact C|]. split; [intros H; exact H|].
      intros _. exists m. auto.
  Qed.
  Lemma not_both_even v r r' : rounds_to prec emax v r -> rounds_to prec emax v r' -> finite r -> finite r' ->
    negative r = false -> negative r' = false -> ~ value r < value r'.
  Proof.
    intros R R' F F' N N' L.
    apply rounds_finite in R, R'; try assumption. destruct R as (V & Lv & R), R' as (V' & _ & R').
    destruct (R r' V' F') as [A1 A2], (R' r V F) as [B1 B2].
    assert (T : Qabs (v - value r) == Qabs (v - value r')) by lra.
    destruct (A2 T) as [K|E]; [lra|]. destruct (B2 ltac:(lra)) as [K|E']; [lra|].
    assert (MID : 2 * v == value r + value r').
    { revert T. apply Qabs_case; intros H1; apply Qabs_case; intros H2 T; lra. }
    destruct (value_magnitude r V F N) as (m & e & Er & B & Ge & Hm & Ev & _).
    destruct (value_magnitude r' V' F' N') as (m' & e' & Er' & B' & Ge' & Hm' & Ev' & P').
    specialize (Ev E). specialize (Ev' E').
    assert (M1 : (m + 1 < 2 ^ prec)%Z).
    { destruct (Z.eq_dec (m + 1) (2 ^ prec)) as [Q|Q]; [exfalso|lia].
      assert (W : Z.even (m + 1) = true) by (rewrite Q, (half_power prec Hprec); apply Z.even_mul). rewrite Z.even_add, Ev in W. discriminate. }
    assert (Mg : magnitude prec emax (value r')) by (exists m', e'; split; [exact Er'|]; split; [exact B'|apply Ge']).
    pose proof (next_above m e _ (proj1 Ge) Hm (proj1 B) Mg ltac:(rewrite <- Er; exact L)) as NX.
    destruct (m + 1)%Z as [|c|c] eqn:C; [lia| |lia].
    assert (Vc : valid (S754_finite false c e) = true).
    { unfold valid. cbn [valid_binary]. apply (bounded_spec prec emax Hprec). split; [exact Ge|]. split; [lia|]. intros H. specialize (Hm H). lia. }
    assert (VAL : value (S754_finite false c e) == value r + 2 ^ e).
    { cbn [value]. rewrite <- C, inject_Z_plus, Er. change (inject_Z 1) with 1. ring. }
    pose proof (pow2_pos e) as P0.
    destruct (Qlt_le_dec (value (S754_finite false c e)) (value r')) as [G|G].
    - destruct (R _ Vc I) as [K _]. revert K T. apply Qabs_case; intros; revert K; apply Qabs_case; intros; revert T; apply Qabs_case; intros; lra.
    - assert (Q : value (S754_finite false c e) == value r') by (cbn [value] in *; lra).
      assert (X : S754_finite false c e = r') by (apply (valid_inj prec emax Hprec); auto; exact I).
      subst r'. cbn [even_digit] in E'. rewrite <- C, Z.even_add, Ev in E'. discriminate.
  Qed.
  (** Two results of rounding differ at most in the sign of a zero. *)
  Theorem rounds_unique v r r' : rounds_to prec emax v r -> rounds_to prec emax v r' -> negative r = negative r' -> r = r'.
  Proof.
    assert (FF : forall v r r', rounds_to prec emax v r -> rounds_to prec emax v r' -> finite r -> finite r' -> negative r = false -> negative r' = false -> r = r').
    { clear v r r'. intros v r r' R R' F F' N N'. apply (valid_inj prec emax Hprec); auto; [apply R|apply R'| |congruence].
      destruct (Q_dec (value r) (value r')) as [[L|L]|L]; [exfalso|exfalso|exact L].
      - eapply (not_both_even v r r'); eauto.
      - eapply (not_both_even v r' r); eauto. }
    assert (FI : forall v r s, rounds_to prec emax v r -> finite r -> rounds_to prec emax v (S754_infinity s) -> False).
    { clear v r r'. intros v r s R F [_ R']. apply rounds_finite in R; [|exact F]. destruct R as (_ & L & _).
      revert L. apply Qabs_case; intros H L; destruct s; lra. }
    intros R R' N.
    assert (D : finite r \/ r = S754_infinity (negative r)) by (destruct r; cbn; auto; destruct R as [_ []]).
    assert (D' : finite r' \/ r' = S754_infinity (negative r')) by (destruct r'; cbn; auto; destruct R' as [_ []]).
    destruct D as [F|F], D' as [F'|F'].
    - destruct (negative r) eqn:E.
      + assert (X : SFopp r = SFopp r').
        { apply (FF (- v)); [apply rounds_opp, R|apply rounds_opp, R'|apply opp_finite, F|apply opp_finite, F'| |].
          - destruct r; cbn in *; subst; try reflexivity; contradiction.
          - destruct r'; cbn in *; subst; try reflexivity; contradiction. }
        destruct r, r'; cbn in X; try contradiction; try congruence; injection X; intros; subst; f_equal; destruct s, s0; cbn in *; congruence.
      + apply (FF v); auto.
    - exfalso. rewrite F' in R'. exact (FI v r _ R F R').
    - exfalso. rewrite F in R. exact (FI v r' _ R' F' R).
    - congruence.
  Qed.
  (** What rounds to a number is an interval around it. *)
  Lemma rounds_between v w x : rounds_to prec emax v x -> finite x -> (v <= w <= value x \/ value x <= w <= v) -> rounds_to prec emax w x.
  Proof.
    intros R F B. apply rounds_finite in R; [|exact F]. apply rounds_finite; [exact F|]. destruct R as (V & L & R).
    pose proof (valid_limit prec emax Hprec x V F) as LX. split; [exact V|]. split.
    - revert L LX. apply Qabs_case; intros; revert LX; apply Qabs_case; intros; apply Qabs_case; intros; lra.
    - intros y Vy Fy. destruct (R y Vy Fy) as [R1 R2]. clear R.
      assert (K : value y == value x \/ ~ value y == value x) by (destruct (Qeq_dec (value y) (value x)); auto).
      destruct K as [K|K]; [split; [rewrite K; apply Qle_refl|left; exact K]|].
      destruct (Qlt_le_dec v (value x)) as [C|C].
      + assert (B' : v <= w <= value x) by (destruct B; lra). clear B.
        assert (E : Qabs (v - value x) == value x - v) by (rewrite Qabs_neg; lra).
        assert (E' : Qabs (w - value x) == value x - w) by (rewrite Qabs_neg; lra). rewrite E in R1, R2. rewrite E'.
        destruct (Qlt_le_dec (value x) (value y)) as [G|G].
        * assert (Y : Qabs (w - value y) == value y - w) by (rewrite Qabs_neg; lra). rewrite Y. split; [lra|intros; lra].
        * assert (Y : value y <= v) by (revert R1; apply Qabs_case; intros; lra).
          assert (Y1 : Qabs (v - value y) == v - value y) by (rewrite Qabs_pos; lra).
          assert (Y2 : Qabs (w - value y) == w - value y) by (rewrite Qabs_pos; lra).
          rewrite Y1 in R1, R2. rewrite Y2. split; [lra|]. intros T. apply R2. lra.
      + assert (B' : value x <= w <= v) by (destruct B; lra). clear B.
        assert (E : Qabs (v - value x) == v - value x) by (rewrite Qabs_pos; lra).
        assert (E' : Qabs (w - value x) == w - value x) by (rewrite Qabs_pos; lra). rewrite E in R1, R2. rewrite E'.
        destruct (Qlt_le_dec (value y) (value x)) as [G|G].
        * assert (Y : Qabs (w - value y) == w - value y) by (rewrite Qabs_pos; lra). rewrite Y. split; [lra|intros; lra].
        * assert (Y : v <= value y) by (revert R1; apply Qabs_case; intros; lra).
          assert (Y1 : Qabs (v - value y) == value y - v) by (rewrite Qabs_neg; lra).
          assert (Y2 : Qabs (w - value y) == value y - w) by (rewrite Qabs_neg; lra).
          rewrite Y1 in R1, R2. rewrite Y2. split; [lra|]. intros T. apply R2. lra.
  Qed.
End Format.
