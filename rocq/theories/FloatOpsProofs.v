(** FloatOpsProofs.v -- conversion, addition, subtraction, multiplication and division
    of SpecFloat are correctly rounded. *)
From Coq Require Import ZArith QArith Qabs Qpower Lqa Lia Bool Floats.SpecFloat.
From Verif Require Import FloatSpec FloatCoreProofs FloatRoundProofs.
Local Open Scope Q_scope.

Lemma inj_opp_if (s : bool) p e : inject_Z (if s then Zneg p else Zpos p) * 2 ^ e == (if s then - (inject_Z (Zpos p) * 2 ^ e) else inject_Z (Zpos p) * 2 ^ e).
Proof. destruct s; [|reflexivity]. change (Zneg p) with (- Zpos p)%Z. rewrite inject_Z_opp. ring. Qed.
Lemma pos_scale p e : 0 < inject_Z (Zpos p) * 2 ^ e.
Proof. apply Qmult_lt_0_compat; [reflexivity|apply pow2_pos]. Qed.
Lemma exact_between v m e : v == inject_Z m * 2 ^ e -> between (dy (fun q => v ?= q)) m e loc_Exact.
Proof. intros E. cbn [between]. unfold dy. apply Qeq_alt. exact E. Qed.
Lemma shift_pos_spec d m : Zpos (shift_pos d m) = (Zpos m * 2 ^ Zpos d)%Z.
Proof. rewrite shift_pos_correct, Zpower_pos_nat, Zpower_nat_Z, positive_nat_Z. ring. Qed.
Lemma digits2_shift m d : Zpos (digits2_pos (shift_pos d m)) = (Zpos (digits2_pos m) + Zpos d)%Z.
Proof.
  apply digits2_unique. rewrite shift_pos_spec. pose proof (digits2_bounds m) as B.
  replace (Zpos (digits2_pos m) + Zpos d - 1)%Z with (Zpos (digits2_pos m) - 1 + Zpos d)%Z by lia.
  rewrite !Z.pow_add_r by lia. assert (0 < 2 ^ Zpos d)%Z by (apply Z.pow_pos_nonneg; lia). nia.
Qed.

Lemma shl_align_spec m e e' m1 e1 : shl_align m e e' = (m1, e1) ->
  inject_Z (Zpos m1) * 2 ^ e1 == inject_Z (Zpos m) * 2 ^ e /\ (e1 = Z.min e e')%Z /\ (Zpos (digits2_pos m1) + e1 = Zpos (digits2_pos m) + e)%Z.
Proof.
  unfold shl_align. destruct (e' - e)%Z as [|p|p] eqn:D; intros E; injection E as <- <-.
  - split; [reflexivity|]. lia.
  - split; [reflexivity|]. lia.
  - rewrite shift_pos_spec, digits2_shift. split; [|lia].
    rewrite (pow2_shift e' e) by lia. replace (e - e')%Z with (Zpos p) by lia. rewrite inject_Z_mult. ring.
Qed.

Section Format.
  Variable prec emax : Z.
  Hypothesis Hprec : (1 < prec)%Z.
  Hypothesis Hemax : (prec < emax)%Z.
  Let emin := emin prec emax.
  Let valid := valid_binary prec emax.

  Lemma PQ : 1 <= inject_Z (2 ^ prec).
  Proof. change 1 with (inject_Z (2 ^ 0)). apply inj_le. apply Z.pow_le_mono_r; lia. Qed.
  Lemma limit_pos : 0 < limit prec emax.
  Proof. unfold limit. pose proof PQ. apply Qmult_lt_0_compat; [lra|apply pow2_pos]. Qed.
  Lemma valid_limit x : valid x = true -> finite x -> Qabs (value x) < limit prec emax.
  Proof.
    destruct x as [s|s| |s m e]; cbn [finite value]; intros V F; try contradiction.
    - exact limit_pos.
    - unfold valid in V. cbn [valid_binary] in V. apply (bounded_spec prec emax Hprec) in V. destruct V as ([A A'] & B & _).
      assert (E : Qabs (inject_Z (if s then Zneg m else Zpos m) * 2 ^ e) == inject_Z (Zpos m) * 2 ^ e).
      { rewrite inj_opp_if. pose proof (pos_scale m e). destruct s; [rewrite Qabs_opp|]; apply Qabs_pos; lra. }
      rewrite E. unfold limit. pose proof (pow2_mono e (emax - prec) A') as M. pose proof (pow2_pos e) as P.
      assert (K : inject_Z (Zpos m) + 1 <= inject_Z (2 ^ prec)) by (change 1 with (inject_Z 1); rewrite <- inject_Z_plus; apply inj_le; lia).
      assert (0 < inject_Z (Zpos m)) by reflexivity. nra.
  Qed.
  Lemma rounds_exact v r : valid r = true -> finite r -> v == value r -> rounds_to prec emax v r.
  Proof.
    intros V F E. pose proof (valid_limit r V F) as L. split; [exact V|].
    assert (K : Qabs v < limit prec emax /\
         forall y, valid_binary prec emax y = true -> finite y ->
           Qabs (v - value r) <= Qabs (v - value y) /\
           (Qabs (v - value r) == Qabs (v - value y) -> value y == value r \/ even_digit r)).
    { assert (Z : Qabs (v - value r) == 0).
      { setoid_replace (v - value r) with 0 by lra. reflexivity. }
      split; [rewrite E; exact L|]. intros y _ _. rewrite Z. split; [apply Qabs_nonneg|]. intros Q. left.
      symmetry in Q. assert (v - value y == 0) by (revert Q; apply Qabs_case; intros; lra). lra. }
    destruct r; try contradiction; exact K.
  Qed.
  (** A number of the format rounds to itself. *)
  Lemma rounds_representable v r z : rounds_to prec emax v r -> valid z = true -> finite z -> value z == v -> finite r /\ value r == v.
  Proof.
    intros [V R] Vz Fz E. pose proof (valid_limit z Vz Fz) as L. rewrite E in L.
    assert (K : Qabs (v - value r) <= Qabs (v - value z) -> value r == v).
    { intros H. assert (A : Qabs (v - value z) == 0) by (setoid_replace (v - value z) with 0 by lra; reflexivity). rewrite A in H.
      pose proof (Qabs_nonneg (v - value r)). assert (Q : Qabs (v - value r) == 0) by lra.
      assert (v - value r == 0) by (revert Q; apply Qabs_case; intros; lra). lra. }
    destruct r as [s|s| |s m e]; [split; [exact I|]|exfalso|contradiction|split; [exact I|]].
    - apply K. apply R; assumption.
    - pose proof (Qle_Qabs v). pose proof (Qle_Qabs (- v)) as H0. rewrite Qabs_opp in H0. destruct s; lra.
    - apply K. apply R; assumption.
  Qed.
  Lemma valid_inj_pos m e m' e' : bounded prec emax m e = true -> bounded prec emax m' e' = true ->
    inject_Z (Zpos m) * 2 ^ e == inject_Z (Zpos m') * 2 ^ e' -> m = m' /\ e = e'.
  Proof.
    assert (W : forall m e m' e', bounded prec emax m e = true -> bounded prec emax m' e' = true ->
      inject_Z (Zpos m) * 2 ^ e == inject_Z (Zpos m') * 2 ^ e' -> (e <= e')%Z -> m = m' /\ e = e').
    { clear m e m' e'. intros m e m' e' V V' E L.
      apply (bounded_spec prec emax Hprec) in V, V'. destruct V as (A & B & C), V' as (A' & B' & C').
      rewrite (pow2_shift e e' L), Qmult_assoc, <- inject_Z_mult in E.
      assert (E' : (Zpos m = Zpos m' * 2 ^ (e' - e))%Z).
      { destruct (Z.lt_trichotomy (Zpos m) (Zpos m' * 2 ^ (e' - e))) as [K|[K|K]]; [exfalso|exact K|exfalso];
          apply (scale_lt _ _ e) in K; lra. }
      destruct (Z.eq_dec e e') as [->|N].
      - rewrite Z.sub_diag, Z.pow_0_r, Z.mul_1_r in E'. split; [congruence|reflexivity].
      - exfalso. specialize (C' ltac:(lia)). assert (P : (2 ^ prec = 2 * 2 ^ (prec - 1))%Z) by (rewrite <- Z.pow_succ_r by lia; f_equal; lia).
        assert (2 ^ 1 <= 2 ^ (e' - e))%Z by (apply Z.pow_le_mono_r; lia). change (2 ^ 1)%Z with 2%Z in *. nia. }
    intros V V' E. destruct (Z.le_ge_cases e e') as [L|L]; [apply W; assumption|].
    destruct (W m' e' m e V' V ltac:(symmetry; exact E) L). auto.
  Qed.
  (** A finite number is determined by its value and its sign bit. *)
  Lemma valid_inj x y : valid x = true -> valid y = true -> finite x -> finite y -> value x == value y -> negative x = negative y -> x = y.
  Proof.
    destruct x as [s|s| |s m e], y as [s'|s'| |s' m' e']; cbn [finite value negative]; intros V V' F F' E S; try contradiction; subst.
    - reflexivity.
    - exfalso. rewrite inj_opp_if in E. pose proof (pos_scale m' e'). destruct s'; lra.
    - exfalso. rewrite inj_opp_if in E. pose proof (pos_scale m e). destruct s'; lra.
    - rewrite !inj_opp_if in E. destruct (valid_inj_pos m e m' e' V V') as [-> ->]; [destruct s'; lra|reflexivity].
  Qed.

  (** *** [binary_round] *)
  Lemma round_ok s m e : rounds_to prec emax (value (S754_finite s m e)) (binary_round prec emax s m e) /\
    negative (binary_round prec emax s m e) = s.
  Proof.
    unfold binary_round. destruct (shl_align m e (fexp prec emax (Zpos (digits2_pos m) + e))) as [m1 e1] eqn:A.
    destruct (shl_align_spec _ _ _ _ _ A) as (V & E & D).
    pose proof (round_rational prec emax Hprec Hemax s (inject_Z (Zpos m) * 2 ^ e) (Zpos m1) e1 loc_Exact (pos_scale m e)
      ltac:(lia) (exact_between _ _ _ ltac:(symmetry; exact V))) as R.
    cbn [Zdigits2] in R. specialize (R ltac:(rewrite D; lia)).
    split; [|apply R]. destruct R as [R _]. cbn [value].
    assert (Q : forall v w r, v == w -> rounds_to prec emax v r -> rounds_to prec emax w r).
    { clear. intros v w r E [V R]. split; [exact V|]. destruct r; [..|].
      - destruct R as [R1 R2]. split; [rewrite <- E; exact R1|]. intros y Vy Fy. rewrite <- E. apply R2; assumption.
      - destruct s; rewrite <- E; exact R.
      - exact R.
      - destruct R as [R1 R2]. split; [rewrite <- E; exact R1|]. intros y Vy Fy. rewrite <- E. apply R2; assumption. }
    eapply Q; [|exact R]. rewrite inj_opp_if. reflexivity.
  Qed.
  Lemma rounds_eq v w r : v == w -> rounds_to prec emax v r -> rounds_to prec emax w r.
  Proof.
    intros E [V R]. split; [exact V|]. destruct r; [..|].
    - destruct R as [R1 R2]. split; [rewrite <- E; exact R1|]. intros y Vy Fy. rewrite <- E. apply R2; assumption.
    - destruct s; rewrite <- E; exact R.
    - exact R.
    - destruct R as [R1 R2]. split; [rewrite <- E; exact R1|]. intros y Vy Fy. rewrite <- E. apply R2; assumption.
  Qed.
  Lemma normalize_ok z e sz : z <> 0%Z ->
    rounds_to prec emax (inject_Z z * 2 ^ e) (binary_normalize prec emax z e sz) /\
    negative (binary_normalize prec emax z e sz) = (z <? 0)%Z.
  Proof.
    intros N. destruct z as [|p|p]; [congruence|..]; cbn [binary_normalize].
    - destruct (round_ok false p e) as [R S]. split; [exact R|exact S].
    - destruct (round_ok true p e) as [R S]. split; [exact R|exact S].
  Qed.

  (** *** Addition and subtraction *)
  Lemma cond_value (s : bool) p e : inject_Z (cond_Zopp s (Zpos p)) * 2 ^ e == value (S754_finite s p e).
  Proof. cbn [value]. destruct s; reflexivity. Qed.
  Lemma aligned s m e ez : (ez <= e)%Z -> inject_Z (cond_Zopp s (Zpos (fst (shl_align m e ez)))) * 2 ^ ez == value (S754_finite s m e).
  Proof.
    intros L. destruct (shl_align m e ez) as [m1 e1] eqn:A. cbn [fst]. destruct (shl_align_spec _ _ _ _ _ A) as (V & E & _).
    replace e1 with ez in V by lia. rewrite cond_value. cbn [value]. rewrite !inj_opp_if. destruct s; rewrite V; reflexivity.
  Qed.
  (** The sign of an exact sum: that of its value; zero is positive unless both are negative. *)
  Definition sum_sign (v : Q) (sx sy : bool) (r : spec_float) : Prop :=
    negative r = true <-> v < 0 \/ (v == 0 /\ sx = true /\ sy = true).
  Lemma sign_scale z e : (inject_Z z * 2 ^ e < 0 <-> (z < 0)%Z) /\ (inject_Z z * 2 ^ e == 0 <-> z = 0%Z).
  Proof.
    pose proof (pow2_pos e) as P. assert (Z0 : inject_Z 0 * 2 ^ e == 0) by (change (inject_Z 0) with 0; ring).
    destruct (Z.lt_trichotomy z 0) as [L|[->|L]].
    - pose proof (scale_lt _ _ e L) as K. split; split; intros; try lia; try lra.
    - split; split; intros; try lia; try lra.
    - pose proof (scale_lt _ _ e L) as K. split; split; intros; try lia; try lra.
  Qed.
  Lemma value_sign s m e : value (S754_finite s m e) < 0 <-> s = true.
  Proof. cbn [value]. rewrite inj_opp_if. pose proof (pos_scale m e). destruct s; split; intros; try reflexivity; try discriminate; lra. Qed.
  Lemma value_nonzero s m e : ~ value (S754_finite s m e) == 0.
  Proof. cbn [value]. rewrite inj_opp_if. pose proof (pos_scale m e). destruct s; lra. Qed.
  Lemma opp_value x : value (SFopp x) == - value x.
  Proof. destruct x as [s|s| |s m e]; cbn [SFopp value]; try reflexivity. rewrite !inj_opp_if. destruct s; cbn [negb]; ring. Qed.

  Theorem add_ok x y : valid x = true -> valid y = true -> finite x -> finite y ->
    rounds_to prec emax (value x + value y) (SFadd prec emax x y) /\
    sum_sign (value x + value y) (negative x) (negative y) (SFadd prec emax x y).
  Proof.
    intros Vx Vy Fx Fy. unfold sum_sign. destruct x as [sx|sx| |sx mx ex], y as [sy|sy| |sy my ey]; try contradiction; cbn [SFadd].
    - cbn [value negative]. split.
      + destruct (Bool.eqb sx sy); apply rounds_exact; try reflexivity; exact I.
      + destruct sx, sy; cbn [Bool.eqb negative]; split; intros; try discriminate; try reflexivity; try (right; repeat split; reflexivity);
          destruct H as [H|(_ & H1 & H2)]; try discriminate; lra.
    - cbn [negative]. split; [apply rounds_exact; [exact Vy|exact I|cbn [value]; ring]|].
      set (v := value (S754_finite sy my ey)). change (value (S754_zero sx)) with 0.
      pose proof (value_sign sy my ey) as K. fold v in K. rewrite <- K. split; [intros; left; lra|].
      intros [H|(H0 & H1 & H2)]; [lra|assumption].
    - cbn [negative]. split; [apply rounds_exact; [exact Vx|exact I|cbn [value]; ring]|].
      set (v := value (S754_finite sx mx ex)). change (value (S754_zero sy)) with 0.
      pose proof (value_sign sx mx ex) as K. fold v in K. rewrite <- K. split; [intros; left; lra|].
      intros [H|(H0 & H1 & H2)]; [lra|assumption].
    - set (ez := Z.min ex ey). pose proof (aligned sx mx ex ez ltac:(lia)) as A1. pose proof (aligned sy my ey ez ltac:(lia)) as A2.
      set (a := cond_Zopp sx (Zpos (fst (shl_align mx ex ez)))) in *. set (b := cond_Zopp sy (Zpos (fst (shl_align my ey ez)))) in *.
      assert (E : value (S754_finite sx mx ex) + value (S754_finite sy my ey) == inject_Z (a + b) * 2 ^ ez) by (rewrite inject_Z_plus, <- A1, <- A2; ring).
      destruct (sign_scale (a + b) ez) as [S1 S2]. cbn [negative].
      assert (NN : ~ (sx = true /\ sy = true /\ (a + b = 0)%Z)).
      { intros (-> & -> & H). unfold a, b in H. cbn [cond_Zopp] in H. lia. }
      destruct (Z.eq_dec (a + b) 0) as [ZZ|NZ].
      + rewrite ZZ in *. cbn [binary_normalize negative]. split.
        * apply rounds_exact; [reflexivity|exact I|]. rewrite E. cbn [value]. apply S2. reflexivity.
        * rewrite E. split; [discriminate|]. intros [H|(H & H1 & H2)]; [apply S1, Z.lt_irrefl in H; contradiction|]. exfalso. apply NN. auto.
      + destruct (normalize_ok (a + b) ez false NZ) as [R S]. split; [eapply rounds_eq; [|exact R]; symmetry; exact E|].
        rewrite S, E, S1, S2, Z.ltb_lt. split; [auto|]. intros [H|(H & _)]; [exact H|contradiction].
  Qed.
  Lemma opp_valid x : valid (SFopp x) = valid x. Proof. destruct x; reflexivity. Qed.
  Lemma opp_finite x : finite (SFopp x) <-> finite x. Proof. destruct x; reflexivity. Qed.
  Lemma sub_opp x y : SFsub prec emax x y = SFadd prec emax x (SFopp y).
  Proof.
    destruct x as [sx|sx| |sx mx ex], y as [sy|sy| |sy my ey]; cbn [SFsub SFadd SFopp]; try reflexivity.
    set (ez := Z.min ex ey). f_equal. unfold Z.sub. f_equal. destruct sy; cbn [negb cond_Zopp]; rewrite ?Z.opp_involutive; reflexivity.
  Qed.
  Theorem sub_ok x y : valid x = true -> valid y = true -> finite x -> finite y ->
    rounds_to prec emax (value x - value y) (SFsub prec emax x y) /\
    sum_sign (value x - value y) (negative x) (negb (negative y)) (SFsub prec emax x y).
  Proof.
    intros Vx Vy Fx Fy. rewrite sub_opp.
    destruct (add_ok x (SFopp y) Vx ltac:(rewrite opp_valid; exact Vy) Fx ltac:(rewrite opp_finite; exact Fy)) as [R S].
    split; [eapply rounds_eq; [|exact R]; rewrite opp_value; ring|].
    assert (N : negative (SFopp y) = negb (negative y)) by (destruct y; try contradiction; reflexivity). rewrite N in S.
    unfold sum_sign in *. rewrite S, opp_value. reflexivity.
  Qed.

  (** *** Multiplication *)
  Lemma bounded_digits m e : bounded prec emax m e = true ->
    (emin <= e)%Z /\ (e = emin \/ Zpos (digits2_pos m) = prec)%Z /\ (1 <= Zpos (digits2_pos m))%Z.
  Proof.
    intros V. apply (bounded_spec prec emax Hprec) in V. destruct V as ([A _] & B & C). split; [exact A|]. split; [|lia].
    destruct (Z.eq_dec e emin) as [E|N]; [left; exact E|right]. apply digits2_unique. split; [apply C; unfold emin in *; lia|exact B].
  Qed.
  Lemma digits2_mul a b : (Zpos (digits2_pos a) + Zpos (digits2_pos b) - 1 <= Zpos (digits2_pos (a * b)))%Z.
  Proof.
    pose proof (digits2_bounds a) as A. pose proof (digits2_bounds b) as B. pose proof (digits2_bounds (a * b)) as AB.
    rewrite Pos2Z.inj_mul in AB. set (da := Zpos (digits2_pos a)) in *. set (db := Zpos (digits2_pos b)) in *. set (d := Zpos (digits2_pos (a * b))) in *.
    assert (0 < da /\ 0 < db /\ 0 < d)%Z by lia.
    assert (K : (2 ^ (da + db - 2) < 2 ^ d)%Z).
    { replace (da + db - 2)%Z with ((da - 1) + (db - 1))%Z by lia. rewrite Z.pow_add_r by lia.
      assert (0 < 2 ^ (da - 1))%Z by (apply Z.pow_pos_nonneg; lia). assert (0 < 2 ^ (db - 1))%Z by (apply Z.pow_pos_nonneg; lia). nia. }
    apply Z.pow_lt_mono_r_iff in K; lia.
  Qed.
  Theorem mul_ok x y : valid x = true -> valid y = true -> finite x -> finite y ->
    rounds_to prec emax (value x * value y) (SFmul prec emax x y) /\
    negative (SFmul prec emax x y) = xorb (negative x) (negative y).
  Proof.
    intros Vx Vy Fx Fy. destruct x as [sx|sx| |sx mx ex], y as [sy|sy| |sy my ey]; try contradiction; cbn [SFmul negative].
    1-3: split; [apply rounds_exact; [reflexivity|exact I|cbn [value]; ring]|reflexivity].
    destruct (bounded_digits mx ex Vx) as (A1 & A2 & A3), (bounded_digits my ey Vy) as (B1 & B2 & B3).
    pose proof (digits2_mul mx my) as DM.
    pose proof (round_rational prec emax Hprec Hemax (xorb sx sy) (inject_Z (Zpos (mx * my)) * 2 ^ (ex + ey)) (Zpos (mx * my)) (ex + ey) loc_Exact
      (pos_scale _ _) ltac:(lia) (exact_between _ _ _ ltac:(reflexivity))) as R.
    cbn [Zdigits2] in R. unfold fexp in R. fold emin in R.
    assert (E0 : (emin < 0)%Z) by (unfold emin, SpecFloat.emin; lia). specialize (R ltac:(lia)).
    split; [|apply R]. destruct R as [R _]. eapply rounds_eq; [|exact R].
    cbn [value]. rewrite !inj_opp_if. rewrite Pos2Z.inj_mul. destruct sx, sy; cbn [xorb]; rewrite inject_Z_mult, pow2_add; ring.
  Qed.

  (** *** Division *)
  Lemma location_ok v q r n e : (0 < n)%Z -> (0 <= r < n)%Z -> v * inject_Z n == inject_Z (q * n + r) * 2 ^ e ->
    between (dy (fun p => v ?= p)) q e (new_location n r).
  Proof.
    intros Hn Hr E. pose proof (pow2_pos e) as P. rewrite inject_Z_plus, inject_Z_mult in E.
    assert (N0 : 0 < inject_Z n) by (change 0 with (inject_Z 0); apply inj_lt; lia).
    assert (N1 : inject_Z r < inject_Z n) by (apply inj_lt; lia).
    assert (G : forall p, (v ?= p * 2 ^ e) = ((inject_Z q * inject_Z n + inject_Z r) ?= p * inject_Z n)).
    { intros p. destruct (Qcompare_spec (inject_Z q * inject_Z n + inject_Z r) (p * inject_Z n)) as [H|H|H].
      - apply Qeq_alt. assert (v * inject_Z n == p * 2 ^ e * inject_Z n) by (rewrite E, H; ring).
        apply (Qmult_inj_r v (p * 2 ^ e) (inject_Z n)); [lra|assumption].
      - apply (proj1 (Qlt_alt _ _)). apply (Qmult_lt_r v (p * 2 ^ e) (inject_Z n) N0). nra.
      - apply (proj1 (Qgt_alt _ _)). apply (Qmult_lt_r (p * 2 ^ e) v (inject_Z n) N0). nra. }
    assert (C1 : dy (fun p => v ?= p) q e = (r ?= 0)%Z).
    { unfold dy. rewrite G. destruct (Z.compare_spec r 0) as [H|H|H].
      - subst. apply Qeq_alt. change (inject_Z 0) with 0. ring.
      - lia.
      - apply (proj1 (Qgt_alt _ _)). apply inj_lt in H. change (inject_Z 0) with 0 in H. lra. }
    assert (C2 : dy (fun p => v ?= p) (q + 1) e = Lt).
    { unfold dy. rewrite G. apply (proj1 (Qlt_alt _ _)). rewrite inject_Z_plus. change (inject_Z 1) with 1. lra. }
    assert (C3 : dy (fun p => v ?= p) (2 * q + 1) (e - 1) = (2 * r ?= n)%Z).
    { unfold dy. assert (H0 : inject_Z (2 * q + 1) * 2 ^ (e - 1) == (inject_Z q + (1 # 2)) * 2 ^ e).
      { rewrite pow2_half, inject_Z_plus, inject_Z_mult. change (inject_Z 2) with 2. change (inject_Z 1) with 1. ring. }
      rewrite H0, G. destruct (Z.compare_spec (2 * r) n) as [H|H|H].
      - apply Qeq_alt. rewrite <- H, inject_Z_mult. change (inject_Z 2) with 2. ring.
      - apply inj_lt in H. rewrite inject_Z_mult in H. change (inject_Z 2) with 2 in H. apply (proj1 (Qlt_alt _ _)). lra.
      - apply inj_lt in H. rewrite inject_Z_mult in H. change (inject_Z 2) with 2 in H. apply (proj1 (Qgt_alt _ _)). lra. }
    assert (NL : new_location n r = if Zeq_bool r 0 then loc_Exact else loc_Inexact (2 * r ?= n)%Z).
    { unfold new_location, new_location_even, new_location_odd. destruct (Z.even n) eqn:EV; [reflexivity|].
      destruct (Zeq_bool r 0); [reflexivity|]. f_equal.
      assert (2 * r <> n)%Z by (intros <-; rewrite Z.even_mul in EV; discriminate). symmetry.
      destruct (Z.compare_spec (2 * r + 1) n); [apply Z.compare_lt_iff|apply Z.compare_lt_iff|apply Z.compare_gt_iff]; lia. }
    rewrite NL. destruct (Zeq_bool r 0) eqn:R0; cbn [between].
    - apply Zeq_bool_eq in R0. rewrite C1, R0. reflexivity.
    - apply Zeq_bool_neq in R0. assert (K : (r ?= 0)%Z = Gt) by (apply Z.compare_gt_iff; lia). rewrite K in C1.
      split; [exact C1|]. split; [exact C2|exact C3].
  Qed.
  Lemma div_core_ok m1 e1 m2 e2 q e' l : SFdiv_core_binary prec emax (Zpos m1) e1 (Zpos m2) e2 = (q, e', l) ->
    let v := (inject_Z (Zpos m1) * 2 ^ e1) / (inject_Z (Zpos m2) * 2 ^ e2) in
    0 < v /\ (0 <= q)%Z /\ between (dy (fun p => v ?= p)) q e' l /\ (e' <= fexp prec emax (Zdigits2 q + e'))%Z.
  Proof.
    unfold SFdiv_core_binary. cbn [Zdigits2].
    set (d1 := Zpos (digits2_pos m1)). set (d2 := Zpos (digits2_pos m2)).
    set (ee := Z.min (fexp prec emax (d1 + e1 - (d2 + e2))) (e1 - e2)). set (s := (e1 - e2 - ee)%Z).
    assert (S0 : (0 <= s)%Z) by (unfold s, ee; lia).
    assert (M : match s with Z0 => Zpos m1 | Zpos _ => Z.shiftl (Zpos m1) s | Zneg _ => 0%Z end = (Zpos m1 * 2 ^ s)%Z).
    { destruct s as [|p|p] eqn:Es; [lia| |lia]. apply Z.shiftl_mul_pow2. lia. }
    rewrite M. pose proof (Z_div_mod (Zpos m1 * 2 ^ s) (Zpos m2) ltac:(lia)) as DM.
    destruct (Z.div_eucl (Zpos m1 * 2 ^ s) (Zpos m2)) as [q0 r0]. destruct DM as [DM1 DM2].
    intros E. injection E as <- <- <-. cbv zeta.
    pose proof (pos_scale m1 e1) as P1. pose proof (pos_scale m2 e2) as P2.
    set (v := inject_Z (Zpos m1) * 2 ^ e1 / (inject_Z (Zpos m2) * 2 ^ e2)).
    assert (V0 : 0 < v) by (apply Qlt_shift_div_l; lra).
    assert (PS : (0 < 2 ^ s)%Z) by (apply Z.pow_pos_nonneg; lia).
    assert (Q0 : (0 <= q0)%Z) by nia.
    split; [exact V0|]. split; [exact Q0|]. split.
    - apply location_ok; [lia|lia|]. replace (q0 * Zpos m2 + r0)%Z with (Zpos m1 * 2 ^ s)%Z by lia.
      assert (VE : v * (inject_Z (Zpos m2) * 2 ^ e2) == inject_Z (Zpos m1) * 2 ^ e1).
      { unfold v. field. split; [apply Qnot_eq_sym, Qlt_not_eq, pow2_pos|discriminate]. }
      apply (Qmult_inj_r _ _ (2 ^ e2)); [apply Qnot_eq_sym, Qlt_not_eq, pow2_pos|].
      rewrite <- Qmult_assoc, VE, inject_Z_mult, <- pow2_Z by exact S0.
      replace e1 with (s + ee + e2)%Z at 1 by (unfold s; lia). rewrite !pow2_add. ring.
    - pose proof (digits2_bounds m1) as B1. pose proof (digits2_bounds m2) as B2. fold d1 in B1. fold d2 in B2.
      assert (D0 : (0 < d1 /\ 0 < d2)%Z) by (unfold d1, d2; lia).
      assert (K : (d1 + s <= d2 + Zdigits2 q0)%Z).
      { (* m1 2^s < (q0+1) m2 <= 2^(digits q0) 2^d2 *)
        assert (H : (Zpos m1 * 2 ^ s < (q0 + 1) * Zpos m2)%Z) by nia.
        assert (U : (q0 + 1 <= 2 ^ Zdigits2 q0 /\ 0 <= Zdigits2 q0)%Z).
        { destruct q0 as [|p|p]; [cbn [Zdigits2]; change (2 ^ 0)%Z with 1%Z; lia| |lia]. cbn [Zdigits2]. pose proof (digits2_bounds p). lia. }
        assert (H2 : (2 ^ (d1 - 1 + s) < 2 ^ (Zdigits2 q0 + d2))%Z).
        { rewrite !Z.pow_add_r by lia. assert (0 < 2 ^ d2)%Z by (apply Z.pow_pos_nonneg; lia). nia. }
        apply Z.pow_lt_mono_r_iff in H2; lia. }
      unfold fexp in *. unfold s in K. unfold ee in *. lia.
  Qed.
  Theorem div_ok x y : valid x = true -> valid y = true -> finite x -> finite y -> ~ value y == 0 ->
    rounds_to prec emax (value x / value y) (SFdiv prec emax x y) /\
    negative (SFdiv prec emax x y) = xorb (negative x) (negative y).
  Proof.
    intros Vx Vy Fx Fy NZ. destruct y as [sy|sy| |sy my ey]; try contradiction; [cbn [value] in NZ; lra|].
    destruct x as [sx|sx| |sx mx ex]; try contradiction; cbn [SFdiv negative].
    - split; [apply rounds_exact; [reflexivity|exact I|]|reflexivity].
      set (w := value (S754_finite sy my ey)) in *. change (value (S754_zero (xorb sx sy))) with 0. change (value (S754_zero sx)) with 0. field. exact NZ.
    - destruct (SFdiv_core_binary prec emax (Zpos mx) ex (Zpos my) ey) as [[q e'] l] eqn:C.
      destruct (div_core_ok _ _ _ _ _ _ _ C) as (V0 & Q0 & B & L).
      destruct (round_rational prec emax Hprec Hemax (xorb sx sy) _ q e' l V0 Q0 B L) as [R S].
      split; [|exact S]. eapply rounds_eq; [|exact R]. cbn [value]. rewrite !inj_opp_if.
      pose proof (pos_scale my ey) as P. set (a := inject_Z (Zpos mx) * 2 ^ ex) in *. set (b := inject_Z (Zpos my) * 2 ^ ey) in *.
      destruct sx, sy; cbn [xorb]; field; lra.
  Qed.
End Format.
