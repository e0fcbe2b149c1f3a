(** ComplexProofs.v -- division of complex numbers: accuracy. *)
From Coq Require Import ZArith QArith Qabs Qpower Lia Lqa Bool Floats.SpecFloat.
From Verif Require Import FloatSpec FloatCoreProofs FloatRoundProofs FloatOpsProofs FloatModel FloatProofs CmpSpec CmpProofs.
From Verif Require Import ComplexModel ComplexSpec ComplexErrorProofs.
Local Open Scope Q_scope.

(** *** Ranges *)
Definition within (l h : Z) (v : Q) : Prop := v == 0 \/ 2 ^ l <= Qabs v <= 2 ^ h.
Lemma within_eq l h v w : v == w -> within l h v -> within l h w.
Proof. unfold within. intros E. rewrite E. auto. Qed.
Lemma within_le l h v : within l h v -> Qabs v <= 2 ^ h.
Proof. intros [E|[_ H]]; [rewrite E; apply Qlt_le_weak, pow2_pos|exact H]. Qed.
Lemma within_mono l h l' h' v : (l' <= l)%Z -> (h <= h')%Z -> within l h v -> within l' h' v.
Proof. intros L H [E|[A B]]; [left; exact E|right]. split; [eapply Qle_trans; [apply pow2_mono, L|exact A]|eapply Qle_trans; [exact B|apply pow2_mono, H]]. Qed.
Lemma within_mul l h l' h' v w : within l h v -> within l' h' w -> within (l + l') (h + h') (v * w).
Proof.
  intros [E|[A B]] [E'|[A' B']]; try (left; rewrite ?E, ?E'; ring). right. rewrite Qabs_Qmult, !pow2_add.
  pose proof (pow2_pos l). pose proof (pow2_pos l').
  split; apply Qmult_le_compat_nonneg; split; try assumption; try lra.
Qed.
Lemma within_inv l h v : ~ v == 0 -> within l h v -> within (- h) (- l) (/ v).
Proof.
  intros N [E|[A B]]; [tauto|right]. rewrite Qabs_Qinv. pose proof (pow2_pos l). pose proof (pow2_pos h).
  assert (I : forall k, 2 ^ (- k) == / 2 ^ k) by (intros k; apply Qpower_opp). rewrite !I.
  split.
  - apply (Qmult_le_r _ _ (2 ^ h * Qabs v)); [apply Qmult_lt_0_compat; lra|].
    setoid_replace (/ 2 ^ h * (2 ^ h * Qabs v)) with (Qabs v) by (field; lra). setoid_replace (/ Qabs v * (2 ^ h * Qabs v)) with (2 ^ h) by (field; lra). exact B.
  - apply (Qmult_le_r _ _ (2 ^ l * Qabs v)); [apply Qmult_lt_0_compat; lra|].
    setoid_replace (/ 2 ^ l * (2 ^ l * Qabs v)) with (Qabs v) by (field; lra). setoid_replace (/ Qabs v * (2 ^ l * Qabs v)) with (2 ^ l) by (field; lra). exact A.
Qed.
Lemma within_rel l h v w : within l h v -> rel ulp v w -> within (l - 1) (h + 1) w.
Proof.
  intros [E|[A B]] R.
  - left. unfold rel in R. assert (Z : ulp * Qabs v == 0) by (rewrite E; reflexivity). rewrite Z, E in R. apply Qabs_Qle_condition in R. lra.
  - right. pose proof (rel_abs _ _ _ R) as [C D]. rewrite pow2_half, pow2_double. pose proof (Qabs_nonneg v).
    assert (ulp <= 1 # 2) by discriminate. set (u := ulp) in *. clearbody u. pose proof (pow2_pos l). nra.
Qed.
Lemma moderate_within x : moderate x -> finite x /\ within (-300) 300 (value x).
Proof. intros H. exact H. Qed.

Lemma scaled_value x : is_F64 x -> finite x -> value x == inject_Z (scaled x) * 2 ^ (-1074).
Proof.
  destruct x as [s|s| |s m e]; cbn [finite value scaled]; intros V F; try contradiction.
  - reflexivity.
  - unfold is_F64 in V. cbn [valid_binary] in V. apply (bounded_spec 53 1024 ltac:(lia)) in V. destruct V as ([A _] & _). change (SpecFloat.emin 53 1024) with (-1074)%Z in A.
    rewrite (pow2_shift (-1074) e A). rewrite Qmult_assoc, <- inject_Z_mult. replace (e - -1074)%Z with (e + 1074)%Z by lia.
    apply Qmult_comp; [|reflexivity]. destruct s; [|rewrite Z.mul_1_l; reflexivity].
    replace (-1 * Zpos m * 2 ^ (e + 1074))%Z with (Zneg m * 2 ^ (e + 1074))%Z by lia. reflexivity.
Qed.
Lemma abs_value x : finite x -> value (SFabs x) == Qabs (value x).
Proof.
  destruct x as [s|s| |s m e]; cbn [finite value SFabs]; intros F; try contradiction; [reflexivity|].
  rewrite inj_opp_if, signed_abs by (apply Qlt_le_weak, pos_scale). reflexivity.
Qed.
Lemma abs_valid x : is_F64 x -> is_F64 (SFabs x). Proof. destruct x; intros V; exact V. Qed.
Lemma abs_finite x : finite x -> finite (SFabs x). Proof. destruct x; intros V; exact V. Qed.
Lemma leb_value x y : is_F64 x -> is_F64 y -> finite x -> finite y -> SFleb x y = true <-> value x <= value y.
Proof.
  intros Vx Vy Fx Fy. unfold SFleb.
  rewrite (SFcompare_scaled 53 1024 x y); [|right; split; reflexivity|split; [exact Vx|destruct x; try contradiction; reflexivity]|split; [exact Vy|destruct y; try contradiction; reflexivity]].
  rewrite (scaled_value x Vx Fx), (scaled_value y Vy Fy). destruct (Z.compare_spec (scaled x) (scaled y)) as [E|E|E].
  - split; [intros _; rewrite E; apply Qle_refl|reflexivity].
  - split; [intros _; apply scale_le; lia|reflexivity].
  - split; [discriminate|]. intros H. apply (scale_lt _ _ (-1074)) in E. lra.
Qed.
Lemma larger c d : is_F64 c -> is_F64 d -> finite c -> finite d -> SFleb (SFabs d) (SFabs c) = true <-> Qabs (value d) <= Qabs (value c).
Proof.
  intros Vc Vd Fc Fd. rewrite leb_value by (try apply abs_valid; try apply abs_finite; assumption). rewrite !abs_value by assumption. reflexivity.
Qed.

Lemma sq z : 0 <= z * z. Proof. nra. Qed.
Lemma sq_abs z : z * z == Qabs z * Qabs z. Proof. rewrite <- Qabs_Qmult. symmetry. apply Qabs_pos, sq. Qed.
Lemma cauchy A B x y : (A * x + B * y) * (A * x + B * y) <= square_abs A B * square_abs x y.
Proof. unfold square_abs. pose proof (sq (A * y - B * x)). lra. Qed.
Lemma half_cauchy A B x y : (B * y) * (B * y) <= square_abs A B * square_abs x y.
Proof.
  unfold square_abs. pose proof (sq (A * x)). pose proof (sq (A * y)). pose proof (sq (B * x)). lra.
Qed.
Lemma sum_zero A B : square_abs A B <= 0 -> A == 0 /\ B == 0.
Proof.
  unfold square_abs. intros H. pose proof (sq A). pose proof (sq B). assert (EA : A * A == 0) by lra. assert (EB : B * B == 0) by lra.
  apply Qmult_integral in EA. apply Qmult_integral in EB. tauto.
Qed.

(** *** One part of the quotient *)
Section Part.
  Variable c d : spec_float.
  Hypothesis Vc : is_F64 c. Hypothesis Vd : is_F64 d.
  Hypothesis Fc : finite c. Hypothesis Fd : finite d.
  Hypothesis Wc : within (-300) 300 (value c). Hypothesis Wd : within (-300) 300 (value d).
  Hypothesis C0 : ~ value c == 0.
  Hypothesis CD : Qabs (value d) <= Qabs (value c).
  Let ratio := div d c.
  Let denom := add c (mul ratio d).
  Let r := value d / value c.

  Lemma r_small : Qabs r <= 1.
  Proof.
    unfold r, Qdiv. rewrite Qabs_Qmult, Qabs_Qinv. assert (0 < Qabs (value c)) by (qabs; lra).
    apply (Qmult_le_r _ _ (Qabs (value c))); [assumption|]. rewrite <- Qmult_assoc, (Qmult_comm (/ _)), Qmult_inv_r by lra. lra.
  Qed.
  Lemma r_c : r * value c == value d. Proof. unfold r. field. exact C0. Qed.
  Lemma ratio_ok : finite ratio /\ is_F64 ratio /\ rel ulp r (value ratio).
  Proof.
    destruct (div_ok 53 1024 ltac:(lia) ltac:(lia) d c Vd Vc Fd Fc C0) as [R _].
    apply rounds_rel; [exact R|]. apply (within_mono (-600) 600); try lia.
    apply (within_eq _ _ (value d * / value c)); [reflexivity|]. apply (within_mul (-300) 300 (-300) 300); [exact Wd|].
    apply (within_inv (-300) 300); assumption.
  Qed.
  Lemma r_within : within (-600) 0 r.
  Proof.
    assert (W : within (-600) 600 r) by (apply (within_mul (-300) 300 (-300) 300); [exact Wd|apply (within_inv (-300) 300); assumption]).
    destruct W as [E|[A _]]; [left; exact E|right]. split; [exact A|exact r_small].
  Qed.
  Lemma ratio_within : within (-601) 1 (value ratio).
  Proof. apply (within_rel (-600) 0 r); [exact r_within|apply ratio_ok]. Qed.
  Lemma denom_ok : exists ph, rel ulp (value ratio * value d) ph /\ rel ulp (value c + ph) (value denom) /\ finite denom /\ is_F64 denom /\
    within (-301) 303 (value denom) /\ ~ value denom == 0.
  Proof.
    destruct ratio_ok as (F1 & V1 & R1).
    destruct (mul_ok 53 1024 ltac:(lia) ltac:(lia) ratio d V1 Vd F1 Fd) as [RP _]. fold mul in RP.
    assert (WP : within (-901) 301 (value ratio * value d)) by (apply (within_mul (-601) 1 (-300) 300); [exact ratio_within|exact Wd]).
    destruct (rounds_rel _ _ RP) as (F2 & V2 & R2); [apply (within_mono (-901) 301); try lia; exact WP|].
    destruct (add_ok 53 1024 ltac:(lia) ltac:(lia) c (mul ratio d) Vc V2 Fc F2) as [RD _]. fold add in RD. fold denom in RD.
    set (ph := value (mul ratio d)) in *. set (rh := value ratio) in *.
    (* the product is on the side of c *)
    assert (SG : 0 <= value c * ph).
    { assert (S1 : 0 <= value c * (r * value d)) by (rewrite <- r_c; setoid_replace (value c * (r * (r * value c))) with ((r * value c) * (r * value c)) by ring; nra).
      assert (R3 : rel (ulp + ulp + ulp * ulp) (r * value d) ph) by (apply (rel_trans ulp ulp _ (rh * value d)); try discriminate; [apply rel_mult, R1|exact R2]).
      unfold rel in R3. assert (Q : ulp + ulp + ulp * ulp <= 1) by discriminate. set (k := ulp + ulp + ulp * ulp) in *. clearbody k. set (y := r * value d) in *. clearbody y ph.
      assert (R4 : Qabs (ph - y) <= Qabs y) by (pose proof (Qabs_nonneg y); nra). clear - S1 R4. set (x := value c) in *. clearbody x.
      destruct (Q_dec y 0) as [[L|L]|L].
      - assert (ph <= 0) by (qabs; lra). assert (x <= 0) by (destruct (Qlt_le_dec 0 x); [nra|assumption]). nra.
      - assert (0 <= ph) by (qabs; lra). assert (0 <= x) by (destruct (Qlt_le_dec x 0); [nra|assumption]). nra.
      - assert (E : ph == 0) by (qabs; lra). rewrite E. lra. }
    assert (PW : Qabs ph <= 2 ^ 302).
    { destruct (within_rel _ _ _ _ WP R2) as [E|[_ H]]; [rewrite E; discriminate|exact H]. }
    assert (WD : within (-300) 302 (value c + ph)).
    { right. destruct Wc as [E|[A B]]; [tauto|].
      assert (G : Qabs (value c) <= Qabs (value c + ph)) by (clear - SG; qabs; nra).
      pose proof (Qabs_triangle (value c) ph) as T. split; [lra|].
      assert (Qabs (value c) <= 2 ^ 301) by (eapply Qle_trans; [exact B|discriminate]).
      assert (Qabs ph <= 2 ^ 301 ).
      { destruct WP as [E|[_ H']].
        - unfold rel in R2. rewrite E in R2. change (ulp * Qabs 0) with (ulp * 0) in R2. rewrite Qmult_0_r in R2. apply Qabs_Qle_condition in R2.
          assert (ph == 0) by lra. rewrite H0. discriminate.
        - apply rel_abs in R2. destruct R2 as [_ R2]. eapply Qle_trans; [exact R2|].
          assert (Q : Qabs (rh * value d) <= 2 ^ 300 * (1 + ulp)).
          { rewrite Qabs_Qmult. apply rel_abs in R1. destruct R1 as [_ R1]. pose proof r_small. pose proof (within_le _ _ _ Wd).
            apply Qle_trans with ((1 + ulp) * 2 ^ 300); [|rewrite Qmult_comm; apply Qle_refl].
            apply Qmult_le_compat_nonneg; split; try apply Qabs_nonneg; try assumption. assert (0 <= ulp) by discriminate. set (u := ulp) in *. clearbody u. fold rh in R1. nra. }
          apply Qle_trans with ((1 + ulp) * (2 ^ 300 * (1 + ulp))); [apply Qmult_le_l; [reflexivity|exact Q]|discriminate]. }
      apply Qle_trans with (2 ^ 301 + 2 ^ 301); [lra|discriminate]. }
    destruct (rounds_rel _ _ RD) as (F3 & V3 & R3); [apply (within_mono (-300) 302); try lia; exact WD|].
    exists ph. split; [exact R2|]. split; [exact R3|]. split; [exact F3|]. split; [exact V3|].
    split; [apply (within_rel (-300) 302 (value c + ph)); assumption|].
    destruct WD as [E|[A B]].
    - exfalso. assert (value c * value c <= 0) by (assert (E' : value c == - ph) by lra; rewrite E' at 1; lra). nra.
    - apply rel_abs in R3. destruct R3 as [R3 _]. intros E. rewrite E in R3. assert (0 < 2 ^ (-300)) by reflexivity.
      assert (ulp <= 1 # 2) by discriminate. set (u := ulp) in *. clearbody u. change (Qabs 0) with 0 in R3. nra.
  Qed.

  Variable A B : Q.
  Hypothesis WA : within (-300) 300 A. Hypothesis WB : within (-300) 300 B.
  Variable qh : Q.
  Hypothesis Q1 : rel ulp (B * value ratio) qh.
  Variable num : spec_float.
  Hypothesis NUM : rounds_to 53 1024 (A + qh) num.

  Lemma part_ok : finite (div num denom) /\
    forall M, bounds_quotient A B (value c) (value d) M ->
    Qabs (value (div num denom) - real_part A B (value c) (value d) / square_abs (value c) (value d)) <= (1 # 2 ^ 50) * M.
  Proof.
    destruct denom_ok as (ph & R2 & R3 & FD & VD & WD & D0). destruct ratio_ok as (F1 & V1 & R1).
    assert (WQ : within (-902) 302 qh).
    { apply (within_rel (-901) 301 (B * value ratio)); [|exact Q1]. apply (within_mul (-300) 300 (-601) 1); [exact WB|exact ratio_within]. }
    assert (NA : Qabs (A + qh) <= 2 ^ 303).
    { pose proof (within_le _ _ _ WQ). pose proof (within_le _ _ _ WA). pose proof (Qabs_triangle A qh).
      apply Qle_trans with (2 ^ 300 + 2 ^ 302); [lra|discriminate]. }
    assert (NB : Qabs (A + qh) <= 2 ^ 1000) by (eapply Qle_trans; [exact NA|discriminate]).
    destruct (rounds_small _ _ NUM NB) as (FN & VN & _). pose proof (rounds_abs _ _ NUM NB) as EN.
    assert (NC : Qabs (value num) <= 2 ^ 305).
    { pose proof (Qabs_triangle (A + qh) (value num - (A + qh))) as T. setoid_replace (A + qh + (value num - (A + qh))) with (value num) in T by ring.
      apply Qle_trans with (2 ^ 303 + (1 * 2 ^ 303 + 2 ^ (-1074))); [|discriminate].
      assert (ulp * Qabs (A + qh) <= 1 * 2 ^ 303) by (apply Qmult_le_compat_nonneg; split; try apply Qabs_nonneg; try assumption; discriminate). lra. }
    destruct (div_ok 53 1024 ltac:(lia) ltac:(lia) num denom VN VD FN FD D0) as [RE _]. fold div in RE.
    assert (EB : Qabs (value num / value denom) <= 2 ^ 1000).
    { unfold Qdiv. rewrite Qabs_Qmult. pose proof (within_le _ _ _ (within_inv _ _ _ D0 WD)) as I.
      apply Qle_trans with (2 ^ 305 * 2 ^ 301); [|discriminate]. apply Qmult_le_compat_nonneg; split; try apply Qabs_nonneg; assumption. }
    destruct (rounds_small _ _ RE EB) as (FE & _ & _). split; [exact FE|]. intros M [M0 BM]. pose proof (rounds_abs _ _ RE EB) as EE.
    assert (SQ : (value c + r * value d) * value c == square_abs (value c) (value d)) by (unfold square_abs; rewrite <- r_c; ring).
    assert (P0 : 0 < square_abs (value c) (value d)).
    { unfold square_abs. assert (~ value c * value c == 0) by (intros K; apply Qmult_integral in K; tauto). nra. }
    assert (D1 : ~ value c + r * value d == 0) by (intros E; rewrite E in SQ; lra).
    assert (QE : real_part A B (value c) (value d) / square_abs (value c) (value d) == (A + B * r) / (value c + r * value d)).
    { rewrite <- SQ. unfold real_part. rewrite <- r_c at 1. field. split; [exact D1|exact C0]. }
    rewrite QE.
    (* the bounds *)
    set (x := value c) in *. set (y := value d) in *. set (D := x + r * y) in *.
    assert (CX : Qabs (D * x) == square_abs x y) by (rewrite SQ; apply Qabs_pos; lra).
    assert (X0 : 0 < Qabs x) by (qabs; lra).
    assert (BN : Qabs (A + B * r) <= M * Qabs D).
    { apply (Qmult_le_r _ _ (Qabs x) X0). rewrite <- Qmult_assoc, <- !Qabs_Qmult, CX.
      apply abs_le_of_square; [apply Qmult_le_0_compat; lra|].
      assert (RX : r * x == y) by exact r_c.
      setoid_replace ((A + B * r) * x) with (A * x + B * y) by (rewrite <- RX; ring).
      apply Qle_trans with (square_abs A B * square_abs x y).
      - apply cauchy.
      - setoid_replace (M * square_abs x y * (M * square_abs x y)) with ((M * M * square_abs x y) * square_abs x y) by ring.
        apply Qmult_le_compat_r; [exact BM|lra]. }
    assert (BB : Qabs (B * r) <= M * Qabs D).
    { apply (Qmult_le_r _ _ (Qabs x) X0). rewrite <- Qmult_assoc, <- !Qabs_Qmult, CX.
      apply abs_le_of_square; [apply Qmult_le_0_compat; lra|].
      assert (RX : r * x == y) by exact r_c.
      setoid_replace (B * r * x) with (B * y) by (rewrite <- RX; ring).
      apply Qle_trans with (square_abs A B * square_abs x y).
      - apply half_cauchy.
      - setoid_replace (M * square_abs x y * (M * square_abs x y)) with ((M * M * square_abs x y) * square_abs x y) by ring.
        apply Qmult_le_compat_r; [exact BM|lra]. }
    assert (DX : Qabs x <= Qabs D).
    { apply (Qmult_le_r _ _ (Qabs x) X0). rewrite <- !Qabs_Qmult, CX. unfold square_abs. rewrite Qabs_pos by apply sq. pose proof (sq y). lra. }
    destruct (Qlt_le_dec 0 (square_abs A B)) as [NZ|ZZ].
    - assert (MB : 2 ^ (-302) <= M * Qabs x).
      { destruct (Qlt_le_dec (M * Qabs x) (2 ^ (-302))) as [L|L]; [exfalso|exact L].
        assert (G : 2 ^ (-600) <= square_abs A B).
        { assert (K : forall v, within (-300) 300 v -> ~ v == 0 -> 2 ^ (-600) <= v * v).
          { intros v [E|[K _]] N; [tauto|]. setoid_replace (2 ^ (-600)) with (2 ^ (-300) * 2 ^ (-300)) by reflexivity.
            rewrite (sq_abs v).
            apply Qmult_le_compat_nonneg; split; try assumption; discriminate. }
          unfold square_abs in *. destruct (Qeq_dec A 0) as [EA|NA']; [destruct (Qeq_dec B 0) as [EB'|NB']|].
          - exfalso. rewrite EA, EB' in NZ. discriminate NZ.
          - specialize (K B WB NB'). pose proof (sq A). lra.
          - specialize (K A WA NA'). pose proof (sq B). lra. }
        assert (H2 : square_abs x y <= 2 * (Qabs x * Qabs x)).
        { unfold square_abs. rewrite (sq_abs x), (sq_abs y).
          assert (Qabs y * Qabs y <= Qabs x * Qabs x) by (apply Qmult_le_compat_nonneg; split; try apply Qabs_nonneg; assumption). lra. }
        assert (H3 : M * M * square_abs x y <= 2 * ((M * Qabs x) * (M * Qabs x))).
        { setoid_replace (2 * ((M * Qabs x) * (M * Qabs x))) with ((M * M) * (2 * (Qabs x * Qabs x))) by ring.
          rewrite !(Qmult_comm (M * M)). apply Qmult_le_compat_r; [exact H2|apply sq]. }
        assert (H4 : (M * Qabs x) * (M * Qabs x) <= 2 ^ (-302) * 2 ^ (-302)).
        { assert (0 <= M * Qabs x) by (apply Qmult_le_0_compat; lra). apply Qmult_le_compat_nonneg; split; lra. }
        assert (2 ^ (-600) <= 2 * (2 ^ (-302) * 2 ^ (-302))) by lra. vm_compute in H. congruence. }
      apply (smith_error A B x y r M (value ratio) ph (value denom) qh (value num) (value (div num denom)) (2 ^ (-1074)) (2 ^ (-1074))); try assumption.
      + exact r_c.
      + apply Qle_trans with (tiny * 2 ^ (-302)); [discriminate|]. apply Qmult_le_l; [reflexivity|].
        eapply Qle_trans; [exact MB|]. rewrite !(Qmult_comm M). apply Qmult_le_compat_r; assumption.
      + apply Qle_trans with (tiny * 2 ^ (-603)); [discriminate|]. apply Qmult_le_l; [reflexivity|].
        destruct (Qlt_le_dec M (2 ^ (-603))) as [L|L]; [exfalso|exact L].
        pose proof (within_le _ _ _ Wc) as K. fold x in K.
        assert (M * Qabs x <= 2 ^ (-603) * 2 ^ 300) by (apply Qmult_le_compat_nonneg; split; lra).
        assert (H2 : 2 ^ (-302) <= 2 ^ (-603) * 2 ^ 300) by lra. vm_compute in H2. congruence.
    - destruct (sum_zero A B ZZ) as [EA EB0].
      assert (Q0 : qh == 0).
      { unfold rel in Q1. setoid_replace (B * value ratio) with 0 in Q1 by (rewrite EB0; ring). change (ulp * Qabs 0) with (ulp * 0) in Q1. rewrite Qmult_0_r in Q1.
        apply Qabs_Qle_condition in Q1. lra. }
      destruct (rounds_zero _ _ NUM) as [_ N0]; [lra|]. destruct (rounds_zero _ _ RE) as [_ E0]; [rewrite N0; unfold Qdiv; ring|].
      rewrite E0, EA, EB0. setoid_replace (0 - (0 + 0 * r) / D) with 0 by (field; exact D1). change (Qabs 0) with 0.
      apply Qmult_le_0_compat; [discriminate|exact M0].
  Qed.
End Part.

(** *** The quotient *)
Lemma finite_not_nan x : finite x -> isNaN x = false. Proof. destruct x; try contradiction; reflexivity. Qed.
Lemma within_opp l h v : within l h v -> within l h (- v).
Proof. intros [E|H]; [left; rewrite E; reflexivity|right; rewrite Qabs_opp; exact H]. Qed.
Lemma rel_opp al x y : rel al x y -> rel al (- x) (- y).
Proof. unfold rel. intros H. setoid_replace (- y - - x) with (- (y - x)) by ring. rewrite !Qabs_opp. exact H. Qed.
Lemma bounds_swap a b c d M : bounds_quotient a b c d M -> bounds_quotient b a d c M.
Proof. unfold bounds_quotient, square_abs. intros [A B]. split; [exact A|]. rewrite (Qplus_comm (b * b)), (Qplus_comm (d * d)). exact B. Qed.
Lemma bounds_turn a b c d M : bounds_quotient a b c d M -> bounds_quotient b (- a) c d M.
Proof. unfold bounds_quotient, square_abs. intros [A B]. split; [exact A|]. setoid_replace (b * b + - a * - a) with (a * a + b * b) by ring. exact B. Qed.
Lemma no_correction a b c d : finite (fst (smith a b c d)) -> finite (snd (smith a b c d)) -> complex128div (a, b) (c, d) = smith a b c d.
Proof.
  intros F1 F2. unfold complex128div. destruct (smith a b c d) as [e f]. cbn [fst snd] in *. rewrite (finite_not_nan e F1), (finite_not_nan f F2). reflexivity.
Qed.
Lemma abs_pos_of x : ~ x == 0 -> 0 < Qabs x.
Proof. intros H. qabs; lra. Qed.

Section Quotient.
  Variable a b c d : spec_float.
  Hypothesis Va : is_F64 a. Hypothesis Vb : is_F64 b. Hypothesis Vc : is_F64 c. Hypothesis Vd : is_F64 d.
  Hypothesis Ma : moderate a. Hypothesis Mb : moderate b. Hypothesis Mc : moderate c. Hypothesis Md : moderate d.
  Hypothesis NZ : nonzero c \/ nonzero d.

  Lemma product x y : is_F64 x -> is_F64 y -> finite x -> finite y -> within (-300) 300 (value x) -> within (-601) 1 (value y) ->
    finite (mul x y) /\ is_F64 (mul x y) /\ rel ulp (value x * value y) (value (mul x y)).
  Proof.
    intros Vx Vy Fx Fy Wx Wy. destruct (mul_ok 53 1024 ltac:(lia) ltac:(lia) x y Vx Vy Fx Fy) as [R _].
    apply rounds_rel; [exact R|]. apply (within_mono (-901) 301); try lia. apply (within_mul (-300) 300 (-601) 1); assumption.
  Qed.
  Theorem quotient_near : near_quotient (1 # 2 ^ 50) (value a) (value b) (value c) (value d)
    (fst (complex128div (a, b) (c, d))) (snd (complex128div (a, b) (c, d))).
  Proof.
    destruct Ma as [Fa Wa], Mb as [Fb Wb], Mc as [Fc Wc], Md as [Fd Wd].
    assert (K : finite (fst (smith a b c d)) /\ finite (snd (smith a b c d)) /\
      forall M, bounds_quotient (value a) (value b) (value c) (value d) M ->
      Qabs (value (fst (smith a b c d)) - real_part (value a) (value b) (value c) (value d) / square_abs (value c) (value d)) <= (1 # 2 ^ 50) * M /\
      Qabs (value (snd (smith a b c d)) - imaginary_part (value a) (value b) (value c) (value d) / square_abs (value c) (value d)) <= (1 # 2 ^ 50) * M).
    { unfold smith. destruct (SFleb (SFabs d) (SFabs c)) eqn:L; cbn [fst snd].
      - apply (larger c d Vc Vd Fc Fd) in L.
        assert (C0 : ~ value c == 0).
        { intros E. destruct NZ as [N|N]; [exact (N E)|]. apply N. rewrite E in L. apply Qabs_Qle_condition in L. change (Qabs 0) with 0 in L. lra. }
        destruct (ratio_ok c d Vc Vd Fc Fd Wc Wd C0) as (F1 & V1 & _). pose proof (ratio_within c d Vc Vd Fc Fd Wc Wd C0 L) as W1.
        destruct (product b _ Vb V1 Fb F1 Wb W1) as (F2 & V2 & R2). destruct (product a _ Va V1 Fa F1 Wa W1) as (F3 & V3 & R3).
        destruct (add_ok 53 1024 ltac:(lia) ltac:(lia) a _ Va V2 Fa F2) as [N1 _]. fold add in N1.
        destruct (sub_ok 53 1024 ltac:(lia) ltac:(lia) b _ Vb V3 Fb F3) as [N2 _]. fold sub in N2.
        destruct (part_ok c d Vc Vd Fc Fd Wc Wd C0 L (value a) (value b) Wa Wb _ R2 _ N1) as [FE PE].
        assert (R3' : rel ulp (- value a * value (div d c)) (- value (mul a (div d c)))).
        { apply rel_opp in R3. apply (rel_eq _ (- (value a * value (div d c)))); [ring|exact R3]. }
        destruct (part_ok c d Vc Vd Fc Fd Wc Wd C0 L (value b) (- value a) Wb (within_opp _ _ _ Wa) _ R3' _ N2) as [FF PF].
        split; [exact FE|]. split; [exact FF|]. intros M B. split; [apply PE, B|].
        specialize (PF M (bounds_turn _ _ _ _ _ B)).
        setoid_replace (imaginary_part (value a) (value b) (value c) (value d)) with (real_part (value b) (- value a) (value c) (value d)) by (unfold imaginary_part, real_part; ring).
        exact PF.
      - assert (L' : Qabs (value c) <= Qabs (value d)).
        { destruct (Qlt_le_dec (Qabs (value d)) (Qabs (value c))) as [G|G]; [|exact G]. assert (T : Qabs (value d) <= Qabs (value c)) by lra.
          apply (larger c d Vc Vd Fc Fd) in T. congruence. }
        assert (D0 : ~ value d == 0).
        { intros E. assert (T : Qabs (value d) <= Qabs (value c)) by (rewrite E; apply Qabs_nonneg). apply (larger c d Vc Vd Fc Fd) in T. congruence. }
        clear L. rename L' into L.
        destruct (ratio_ok d c Vd Vc Fd Fc Wd Wc D0) as (F1 & V1 & _). pose proof (ratio_within d c Vd Vc Fd Fc Wd Wc D0 L) as W1.
        destruct (product b _ Vb V1 Fb F1 Wb W1) as (F2 & V2 & R2). destruct (product a _ Va V1 Fa F1 Wa W1) as (F3 & V3 & R3).
        destruct (add_ok 53 1024 ltac:(lia) ltac:(lia) _ b V3 Vb F3 Fb) as [N1 _]. fold add in N1.
        destruct (sub_ok 53 1024 ltac:(lia) ltac:(lia) _ a V2 Va F2 Fa) as [N2 _]. fold sub in N2.
        apply (rounds_eq 53 1024 _ (value b + value (mul a (div c d)))) in N1; [|ring].
        apply (rounds_eq 53 1024 _ (- value a + value (mul b (div c d)))) in N2; [|ring].
        destruct (part_ok d c Vd Vc Fd Fc Wd Wc D0 L (value b) (value a) Wb Wa _ R3 _ N1) as [FE PE].
        destruct (part_ok d c Vd Vc Fd Fc Wd Wc D0 L (- value a) (value b) (within_opp _ _ _ Wa) Wb _ R2 _ N2) as [FF PF].
        split; [exact FE|]. split; [exact FF|]. intros M B.
        assert (SQ : square_abs (value d) (value c) == square_abs (value c) (value d)) by (unfold square_abs; ring).
        split.
        + specialize (PE M (bounds_swap _ _ _ _ _ B)). rewrite SQ in PE.
          setoid_replace (real_part (value a) (value b) (value c) (value d)) with (real_part (value b) (value a) (value d) (value c)) by (unfold real_part; ring). exact PE.
        + specialize (PF M (bounds_swap _ _ _ _ _ (bounds_turn _ _ _ _ _ B))). rewrite SQ in PF.
          setoid_replace (imaginary_part (value a) (value b) (value c) (value d)) with (real_part (- value a) (value b) (value d) (value c)) by (unfold imaginary_part, real_part; ring). exact PF. }
    destruct K as (K1 & K2 & K3). rewrite (no_correction a b c d K1 K2). split; [exact K1|]. split; [exact K2|exact K3].
  Qed.
End Quotient.
