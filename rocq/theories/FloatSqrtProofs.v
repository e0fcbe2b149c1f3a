(** FloatSqrtProofs.v -- SpecFloat's square root is correctly rounded, also when a
    single-precision number is rooted in double precision and rounded once more. *)
From Coq Require Import ZArith QArith Qabs Qpower Lqa Lia Bool Floats.SpecFloat.
From Verif Require Import FloatSpec FloatCoreProofs FloatRoundProofs FloatOpsProofs.
Local Open Scope Q_scope.

Lemma sqrt_of_pos w q : 0 <= q -> sqrt_of w q = (w ?= q * q).
Proof. intros H. unfold sqrt_of. destruct (Qlt_le_dec q 0); [lra|reflexivity]. Qed.

Lemma scale_square z f : (inject_Z z * 2 ^ f) * (inject_Z z * 2 ^ f) == inject_Z (z * z) * 2 ^ (2 * f).
Proof. rewrite inject_Z_mult. replace (2 * f)%Z with (f + f)%Z by lia. rewrite pow2_add. ring. Qed.
Lemma compare_scale a b f : (inject_Z a * 2 ^ f ?= inject_Z b * 2 ^ f) = (a ?= b)%Z.
Proof.
  destruct (Z.compare_spec a b) as [H|H|H].
  - subst. apply Qeq_alt. reflexivity.
  - apply (proj1 (Qlt_alt _ _)), scale_lt, H.
  - apply (proj1 (Qgt_alt _ _)), scale_lt, H.
Qed.
Lemma scale_nonneg z f : (0 <= z)%Z -> 0 <= inject_Z z * 2 ^ f.
Proof. intros H. apply (scale_le _ _ f) in H. change (inject_Z 0) with 0 in H. lra. Qed.

Section Format.
  Variable prec emax : Z.
  Hypothesis Hprec : (1 < prec)%Z.
  Hypothesis Hemax : (prec < emax)%Z.
  Let emin := emin prec emax.
  Let valid := valid_binary prec emax.

  Lemma sqrt_core_ok m e q e' l : SFsqrt_core_binary prec emax (Zpos m) e = (q, e', l) ->
    (0 <= q)%Z /\ between (dy (sqrt_of (inject_Z (Zpos m) * 2 ^ e))) q e' l /\ (e' <= fexp prec emax (Zdigits2 q + e'))%Z.
  Proof.
    unfold SFsqrt_core_binary. cbn [Zdigits2]. set (d := Zpos (digits2_pos m)). rewrite !Z.div2_div.
    set (ee := Z.min (fexp prec emax ((d + e + 1) / 2)) (e / 2)). set (s := (e - 2 * ee)%Z).
    assert (S0 : (0 <= s)%Z) by (unfold s, ee; pose proof (Z.mul_div_le e 2); lia).
    assert (M : match s with Z0 => Zpos m | Zpos _ => Z.shiftl (Zpos m) s | Zneg _ => 0%Z end = (Zpos m * 2 ^ s)%Z).
    { destruct s as [|p|p] eqn:Es; [lia| |lia]. apply Z.shiftl_mul_pow2. lia. }
    rewrite M. assert (PS : (0 < 2 ^ s)%Z) by (apply Z.pow_pos_nonneg; lia).
    pose proof (Z.sqrtrem_spec (Zpos m * 2 ^ s) ltac:(nia)) as SR.
    destruct (Z.sqrtrem (Zpos m * 2 ^ s)) as [q0 r0]. destruct SR as [SR1 SR2].
    intros E. injection E as <- <- <-.
    assert (Q0 : (0 <= q0)%Z) by nia. split; [exact Q0|].
    set (w := inject_Z (Zpos m) * 2 ^ e).
    assert (W : w == inject_Z (q0 * q0 + r0) * 2 ^ (2 * ee)).
    { unfold w. rewrite <- SR1, inject_Z_mult, <- (pow2_Z s) by exact S0. rewrite <- Qmult_assoc, <- pow2_add.
      replace (s + 2 * ee)%Z with e by (unfold s; lia). reflexivity. }
    assert (G : forall z f, (0 <= z)%Z -> (f <= ee)%Z -> dy (sqrt_of w) z f = ((q0 * q0 + r0) * 2 ^ (2 * (ee - f)) ?= z * z)%Z).
    { intros z f Hz Hf. unfold dy. rewrite sqrt_of_pos by (apply scale_nonneg; exact Hz). rewrite scale_square, W.
      rewrite (pow2_shift (2 * f) (2 * ee)) by lia. rewrite Qmult_assoc, <- inject_Z_mult.
      replace (2 * ee - 2 * f)%Z with (2 * (ee - f))%Z by lia. apply compare_scale. }
    split.
    - assert (G1 : forall z, (0 <= z)%Z -> dy (sqrt_of w) z ee = (q0 * q0 + r0 ?= z * z)%Z).
      { intros z Hz. rewrite G by lia. replace (2 * (ee - ee))%Z with 0%Z by lia. rewrite Z.pow_0_r, Z.mul_1_r. reflexivity. }
      assert (G2 : dy (sqrt_of w) (2 * q0 + 1) (ee - 1) = ((q0 * q0 + r0) * 4 ?= (2 * q0 + 1) * (2 * q0 + 1))%Z).
      { rewrite G by lia. replace (2 * (ee - (ee - 1)))%Z with 2%Z by lia. reflexivity. }
      destruct (Zeq_bool r0 0) eqn:R0; cbn [between].
      + apply Zeq_bool_eq in R0. rewrite G1 by lia. apply Z.compare_eq_iff. lia.
      + apply Zeq_bool_neq in R0. rewrite !G1, G2 by lia. split; [apply Z.compare_gt_iff; lia|]. split; [apply Z.compare_lt_iff; nia|].
        destruct (Z.leb_spec r0 q0); [apply Z.compare_lt_iff; nia|apply Z.compare_gt_iff; nia].
    - pose proof (digits2_bounds m) as B. fold d in B. assert (D0 : (0 < d)%Z) by (unfold d; lia).
      set (k := ((d + s + 1) / 2)%Z).
      assert (K : (2 * k <= d + s + 1)%Z) by (unfold k; apply Z.mul_div_le; lia).
      assert (K0 : (1 <= k)%Z) by (unfold k; apply Z.div_le_lower_bound; lia).
      assert (KE : ((d + e + 1) / 2 = k + ee)%Z).
      { unfold k. replace (d + e + 1)%Z with (d + s + 1 + ee * 2)%Z by (unfold s; lia). apply Z.div_add. lia. }
      assert (L : (2 ^ (k - 1) * 2 ^ (k - 1) <= Zpos m * 2 ^ s)%Z).
      { rewrite <- Z.pow_add_r by lia. apply Z.le_trans with (2 ^ (d - 1 + s))%Z; [apply Z.pow_le_mono_r; lia|].
        rewrite Z.pow_add_r by lia. nia. }
      assert (P : (0 < 2 ^ (k - 1))%Z) by (apply Z.pow_pos_nonneg; lia).
      assert (Q1 : (2 ^ (k - 1) <= q0)%Z) by nia.
      assert (K1 : (k <= Zdigits2 q0)%Z).
      { destruct q0 as [|p|p]; [lia| |lia]. cbn [Zdigits2]. pose proof (digits2_bounds p) as Bp.
        assert (H : (2 ^ (k - 1) < 2 ^ Zpos (digits2_pos p))%Z) by lia. apply Z.pow_lt_mono_r_iff in H; lia. }
      assert (H : (ee <= fexp prec emax (k + ee))%Z) by (rewrite <- KE; unfold ee; lia).
      unfold fexp in *. lia.
  Qed.

  (** From the cut to the specification. *)
  Lemma nearest_sqrt w p e : 0 < w -> nearest_pair prec emax (dy (sqrt_of w)) (Zpos p) e -> (e <= emax - prec)%Z ->
    sqrt_rounds_to prec emax w (S754_finite false p e).
  Proof.
    intros W N L. pose proof N as N0. destruct N as (Ge & Bm & Hn & _). pose proof (sqrt_cut w W) as D.
    split; [apply result_valid; try assumption; lia|]. split; [exact I|]. split; [reflexivity|].
    intros y Vy Fy Ny. cbv zeta.
    assert (Y0 : 0 <= value y).
    { destruct y as [s|s| |s m' e']; cbn [value negative] in *; try lra; subst. apply scale_nonneg. lia. }
    pose proof (valid_magnitude prec emax Hprec y Vy Fy) as My.
    assert (My' : magnitude prec emax (value y)).
    { destruct My as (a & b & Ey & Q). exists a, b. split; [|exact Q]. rewrite <- Ey. symmetry. apply Qabs_pos, Y0. }
    set (r := inject_Z (Zpos p) * 2 ^ e). change (value (S754_finite false p e)) with r. pose proof (pos_scale p e) as P0. fold r in P0.
    assert (Q1 : forall q, 0 <= q -> sqrt_of w q = (w ?= q * q)) by (intros; apply sqrt_of_pos; assumption).
    split; intros H.
    - destruct (side_above prec emax Hprec (sqrt_of w) D (Zpos p) e N0 (value y) My' H) as [A1 A2]. fold r in A1, A2.
      rewrite Q1 in A1, A2 by lra. cbn [even_digit].
      destruct (Qcompare_spec w ((r + value y) * (1 # 2) * ((r + value y) * (1 # 2)))) as [K|K|K]; [|split; [lra|intros; lra]|congruence].
      split; [lra|auto].
    - destruct (side_below prec emax Hprec (sqrt_of w) D (Zpos p) e N0 (value y) My' H) as [A1 A2]. fold r in A1, A2.
      rewrite Q1 in A1, A2 by lra. cbn [even_digit].
      destruct (Qcompare_spec w ((r + value y) * (1 # 2) * ((r + value y) * (1 # 2)))) as [K|K|K]; [|congruence|split; [lra|intros; lra]].
      split; [lra|auto].
  Qed.
  Lemma limit_large : 1 < limit prec emax.
  Proof.
    unfold limit. assert (A : 2 <= inject_Z (2 ^ prec)).
    { change 2 with (inject_Z (2 ^ 1)). apply inj_le. apply Z.pow_le_mono_r; lia. }
    assert (B : 1 <= 2 ^ (emax - prec)) by (change 1 with (2 ^ 0); apply pow2_mono; lia). nra.
  Qed.
  (** The pair that the square root computes. *)
  Lemma sqrt_pair m e : bounded prec emax m e = true ->
    exists p e', nearest_pair prec emax (dy (sqrt_of (inject_Z (Zpos m) * 2 ^ e))) (Zpos p) e' /\ (e' <= emax - prec)%Z /\
      SFsqrt prec emax (S754_finite false m e) = S754_finite false p e'.
  Proof.
    intros V. cbn [SFsqrt]. destruct (SFsqrt_core_binary prec emax (Zpos m) e) as [[q e1] l] eqn:C.
    destruct (sqrt_core_ok _ _ _ _ _ C) as (Q0 & B & L). set (w := inject_Z (Zpos m) * 2 ^ e) in *.
    assert (W : 0 < w) by apply pos_scale. pose proof (sqrt_cut w W) as D.
    destruct (round_aux prec emax Hprec (dy (sqrt_of w)) (qcut_cut _ D) q e1 l Q0 B L false) as (p & e' & N & R).
    pose proof N as N0. destruct N as (Ge & Bm & Hn & N1 & N2 & _).
    assert (LE : (e' <= emax - prec)%Z).
    { destruct (Z.le_gt_cases e' (emax - prec)) as [|G]; [assumption|exfalso].
      pose proof (too_large prec emax Hprec Hemax (sqrt_of w) D p e' N0 G) as T.
      pose proof (valid_limit prec emax Hprec (S754_finite false m e) V I) as VL. cbn [value] in VL. fold w in VL.
      rewrite Qabs_pos in VL by lra. pose proof limit_large as LL. rewrite sqrt_of_pos in T by lra.
      apply T. apply (proj1 (Qlt_alt _ _)). nra. }
    destruct p as [|p|p]; [exfalso| |lia].
    - (* the root of a number of the format is above half the smallest one *)
      pose proof (qcut_cut _ D) as CC.
      apply (bounded_spec prec emax Hprec) in V. destruct V as ([A _] & _ & _).
      destruct (Z.eq_dec e' emin) as [Ee|Ne]; [|specialize (Hn ltac:(unfold emin in *; lia)); assert (0 < 2 ^ (prec - 1))%Z by (apply Z.pow_pos_nonneg; lia); lia].
      apply N2. unfold dy. rewrite sqrt_of_pos by (apply scale_nonneg; lia). rewrite scale_square. apply (proj1 (Qgt_alt _ _)).
      change ((2 * 0 + 1) * (2 * 0 + 1))%Z with 1%Z. change (inject_Z 1) with 1.
      assert (K : 2 ^ (2 * (e' - 1)) <= 2 ^ (e - 1)) by (apply pow2_mono; subst e'; unfold emin, SpecFloat.emin in *; lia).
      rewrite pow2_half in K. pose proof (pow2_pos e).
      assert (1 <= inject_Z (Zpos m)) by (change 1 with (inject_Z 1); apply inj_le; lia). unfold w. nra.
    - exists p, e'. split; [exact N0|]. split; [exact LE|]. rewrite R. apply Z.leb_le in LE. rewrite LE. reflexivity.
  Qed.
  Theorem sqrt_ok m e : bounded prec emax m e = true ->
    sqrt_rounds_to prec emax (value (S754_finite false m e)) (SFsqrt prec emax (S754_finite false m e)).
  Proof. intros V. destruct (sqrt_pair m e V) as (p & e' & N & L & ->). apply nearest_sqrt; [apply pos_scale|exact N|exact L]. Qed.
End Format.

(** *** Rooting in double precision, rounding to single precision *)
Lemma round_pair prec emax (Hprec : (1 < prec)%Z) s m e :
  exists p e', nearest_pair prec emax (dy (fun q => inject_Z (Zpos m) * 2 ^ e ?= q)) p e' /\
    binary_round prec emax s m e =
      match p with
      | Z0 => S754_zero s
      | Zpos p => if Zle_bool e' (emax - prec) then S754_finite s p e' else S754_infinity s
      | _ => S754_nan
      end.
Proof.
  unfold binary_round. destruct (shl_align m e (fexp prec emax (Zpos (digits2_pos m) + e))) as [m1 e1] eqn:A.
  destruct (shl_align_spec _ _ _ _ _ A) as (V & E & D).
  apply (round_aux prec emax Hprec (dy (fun q => inject_Z (Zpos m) * 2 ^ e ?= q)) (qcut_cut _ (rational_cut _)) (Zpos m1) e1 loc_Exact).
  - lia.
  - apply exact_between. symmetry. exact V.
  - cbn [Zdigits2]. rewrite D. lia.
Qed.

Section Twice.
  Variable w : Q.
  Variable W f : Z.
  Hypothesis Hw : w == inject_Z W * 2 ^ f.
  Hypothesis HW : (0 < W < 2 ^ 24)%Z.
  Hypothesis Hf : (-149 <= f)%Z.
  Variable P E : Z.
  Hypothesis N : nearest_pair 53 1024 (dy (sqrt_of w)) P E.
  Let v := inject_Z P * 2 ^ E.

  Lemma w_pos : 0 < w.
  Proof. rewrite Hw. assert (0 < W)%Z as H by lia. apply (scale_lt _ _ f) in H. change (inject_Z 0) with 0 in H. lra. Qed.
  Let D := sqrt_cut w w_pos.

  Lemma magnitude53 n j : (0 <= n < 2 ^ 53)%Z -> (-1074 <= j)%Z -> magnitude 53 1024 (inject_Z n * 2 ^ j).
  Proof. intros A B. exists n, j. split; [reflexivity|]. split; [exact A|exact B]. Qed.
  Lemma square_compare n j z : (0 <= n)%Z -> z == inject_Z n * 2 ^ j -> sqrt_of w z = (w ?= inject_Z (n * n) * 2 ^ (2 * j)).
  Proof. intros A B. rewrite (q_eq _ D _ _ B), sqrt_of_pos by (apply scale_nonneg; exact A). rewrite scale_square. reflexivity. Qed.

  (** A number of 25 binary digits is not hit by accident. *)
  Lemma no_false_tie n j : (2 ^ 24 - 1 <= n < 2 ^ 25)%Z -> (-1047 <= j)%Z -> v == inject_Z n * 2 ^ j -> sqrt_of w (inject_Z n * 2 ^ j) = Eq.
  Proof.
    intros Bn Bj Ev.
    assert (PJ : forall z, inject_Z z * 2 ^ j == inject_Z (z * 2 ^ 27) * 2 ^ (j - 27)).
    { intros z. rewrite (pow2_shift (j - 27) j) by lia. replace (j - (j - 27))%Z with 27%Z by lia. rewrite inject_Z_mult. ring. }
    assert (MID : forall z, (inject_Z n * 2 ^ j + inject_Z (n * 2 ^ 27 + z) * 2 ^ (j - 27)) * (1 # 2) == inject_Z (n * 2 ^ 28 + z) * 2 ^ (j - 28)).
    { intros z. rewrite PJ. replace (j - 28)%Z with (j - 27 - 1)%Z by lia. rewrite (pow2_half (j - 27)).
      replace (n * 2 ^ 28 + z)%Z with (n * 2 ^ 27 + (n * 2 ^ 27 + z))%Z by lia. rewrite (inject_Z_plus (n * 2 ^ 27) (n * 2 ^ 27 + z)). ring. }
    assert (UP : w <= inject_Z ((n * 2 ^ 28 + 1) * (n * 2 ^ 28 + 1)) * 2 ^ (2 * (j - 28))).
    { destruct (side_above 53 1024 ltac:(lia) (sqrt_of w) D P E N (inject_Z (n * 2 ^ 27 + 1) * 2 ^ (j - 27))) as [K _].
      - apply magnitude53; lia.
      - fold v. rewrite Ev, PJ. apply scale_lt. lia.
      - fold v in K. rewrite (q_eq _ D _ ((inject_Z n * 2 ^ j + inject_Z (n * 2 ^ 27 + 1) * 2 ^ (j - 27)) * (1 # 2))) in K by (rewrite Ev; reflexivity).
        rewrite (square_compare (n * 2 ^ 28 + 1) (j - 28) _ ltac:(lia) (MID 1%Z)) in K.
        destruct (Qcompare_spec w (inject_Z ((n * 2 ^ 28 + 1) * (n * 2 ^ 28 + 1)) * 2 ^ (2 * (j - 28)))); [lra|lra|congruence]. }
    assert (DN : inject_Z ((n * 2 ^ 28 - 1) * (n * 2 ^ 28 - 1)) * 2 ^ (2 * (j - 28)) <= w).
    { destruct (side_below 53 1024 ltac:(lia) (sqrt_of w) D P E N (inject_Z (n * 2 ^ 27 + -1) * 2 ^ (j - 27))) as [K _].
      - apply magnitude53; lia.
      - fold v. rewrite Ev, PJ. apply scale_lt. lia.
      - fold v in K. rewrite (q_eq _ D _ ((inject_Z n * 2 ^ j + inject_Z (n * 2 ^ 27 + -1) * 2 ^ (j - 27)) * (1 # 2))) in K by (rewrite Ev; reflexivity).
        rewrite (square_compare (n * 2 ^ 28 - 1) (j - 28) _ ltac:(lia) (MID (-1)%Z)) in K.
        destruct (Qcompare_spec w (inject_Z ((n * 2 ^ 28 - 1) * (n * 2 ^ 28 - 1)) * 2 ^ (2 * (j - 28)))); [lra|congruence|lra]. }
    rewrite (square_compare n j _ ltac:(lia) (Qeq_refl _)).
    (* the exponent of w is at least 2 j *)
    assert (F : (2 * j <= f)%Z).
    { destruct (Z.le_gt_cases (2 * j) f) as [|G]; [assumption|exfalso].
      assert (K1 : w <= inject_Z (2 ^ 80) * 2 ^ (2 * (j - 28))).
      { rewrite Hw. assert (K : (W <= 2 ^ 24)%Z) by lia. apply (scale_le _ _ f) in K.
        pose proof (pow2_mono f (2 * (j - 28) + 56) ltac:(lia)) as K2. rewrite (pow2_add (2 * (j - 28)) 56) in K2.
        rewrite (pow2_Z 56) in K2 by lia. replace (2 ^ 80)%Z with (2 ^ 24 * 2 ^ 56)%Z by reflexivity. rewrite inject_Z_mult.
        assert (0 < inject_Z (2 ^ 24)) by reflexivity. nra. }
      assert (K2 : (2 ^ 80 < (n * 2 ^ 28 - 1) * (n * 2 ^ 28 - 1))%Z) by nia. apply (scale_lt _ _ (2 * (j - 28))) in K2. lra. }
    assert (EW : w == inject_Z (W * 2 ^ (f - 2 * j) * 2 ^ 56) * 2 ^ (2 * (j - 28))).
    { rewrite Hw, (pow2_shift (2 * (j - 28)) f) by lia. replace (f - 2 * (j - 28))%Z with (f - 2 * j + 56)%Z by lia.
      rewrite Z.pow_add_r by lia. rewrite Qmult_assoc, <- inject_Z_mult, Z.mul_assoc. reflexivity. }
    set (A := (W * 2 ^ (f - 2 * j))%Z) in *. clearbody A. rewrite EW in UP, DN.
    assert (U' : (A * 2 ^ 56 <= (n * 2 ^ 28 + 1) * (n * 2 ^ 28 + 1))%Z).
    { destruct (Z.le_gt_cases (A * 2 ^ 56) ((n * 2 ^ 28 + 1) * (n * 2 ^ 28 + 1))) as [|G]; [assumption|]. apply (scale_lt _ _ (2 * (j - 28))) in G. lra. }
    assert (D' : ((n * 2 ^ 28 - 1) * (n * 2 ^ 28 - 1) <= A * 2 ^ 56)%Z).
    { destruct (Z.le_gt_cases ((n * 2 ^ 28 - 1) * (n * 2 ^ 28 - 1)) (A * 2 ^ 56)) as [|G]; [assumption|]. apply (scale_lt _ _ (2 * (j - 28))) in G. lra. }
    assert (EA : A = (n * n)%Z) by nia.
    apply Qeq_alt. rewrite EW, EA. rewrite (pow2_shift (2 * (j - 28)) (2 * j)) by lia. replace (2 * j - 2 * (j - 28))%Z with 56%Z by lia.
    rewrite (inject_Z_mult (n * n)). ring.
  Qed.
  (** So the root and its double-precision value compare alike with such numbers. *)
  Lemma same_side n j : (2 ^ 24 - 1 <= n < 2 ^ 25)%Z -> (-1047 <= j)%Z -> dy (fun q => v ?= q) n j = dy (sqrt_of w) n j.
  Proof.
    intros Bn Bj. unfold dy. set (M := inject_Z n * 2 ^ j).
    assert (MM : magnitude 53 1024 M) by (apply magnitude53; lia).
    destruct (Qcompare_spec v M) as [K|K|K].
    - symmetry. apply no_false_tie; assumption.
    - symmetry. destruct (side_above 53 1024 ltac:(lia) (sqrt_of w) D P E N M MM K) as [H _].
      apply (q_up _ D ((v + M) * (1 # 2))); [lra|exact H].
    - symmetry. destruct (side_below 53 1024 ltac:(lia) (sqrt_of w) D P E N M MM K) as [H _].
      apply (q_down _ D _ ((v + M) * (1 # 2))); [lra|exact H].
  Qed.
  Lemma twice_pair m e : nearest_pair 24 128 (dy (fun q => v ?= q)) m e -> nearest_pair 24 128 (dy (sqrt_of w)) m e /\ (2 ^ 23 <= m)%Z.
  Proof.
    intros (Ge & Bm & Hn & N1 & N2 & N3 & N4 & N5).
    change (SpecFloat.emin 24 128) with (-149)%Z in *. change (24 - 1)%Z with 23%Z in *.
    assert (G : (-149 < e)%Z).
    { destruct (Z.eq_dec e (-149)) as [->|]; [exfalso|lia].
      assert (K : v < 2 ^ (-75)).
      { unfold dy in N2. change (-149 - 1)%Z with (-150)%Z in N2.
        assert (K0 : inject_Z (2 * m + 1) * 2 ^ (-150) < inject_Z (2 ^ 25) * 2 ^ (-150)) by (apply scale_lt; lia).
        assert (K1 : inject_Z (2 ^ 25) * 2 ^ (-150) < 2 ^ (-75)) by reflexivity.
        destruct (Qcompare_spec v (inject_Z (2 * m + 1) * 2 ^ (-150))); [lra|lra|congruence]. }
      assert (MM : magnitude 53 1024 (2 ^ (-75))).
      { exists 1%Z, (-75)%Z. split; [change (inject_Z 1) with 1; ring|]. split; [lia|]. change (SpecFloat.emin 53 1024) with (-1074)%Z. lia. }
      destruct (side_above 53 1024 ltac:(lia) (sqrt_of w) D P E N (2 ^ (-75)) MM K) as [H _]. fold v in H.
      assert (T : sqrt_of w (2 ^ (-75)) = Lt) by (apply (q_up _ D ((v + 2 ^ (-75)) * (1 # 2))); [lra|exact H]).
      rewrite sqrt_of_pos in T by (apply Qlt_le_weak, pow2_pos). apply Qlt_alt in T. rewrite <- pow2_add in T. change (-75 + -75)%Z with (-150)%Z in T.
      pose proof (pow2_mono (-149) f Hf) as K2. assert (K3 : (1 <= W)%Z) by lia. apply (scale_le _ _ f) in K3. change (inject_Z 1) with 1 in K3.
      assert (K4 : 2 ^ (-150) < 2 ^ (-149)) by reflexivity. rewrite Hw in T. lra. }
    specialize (Hn G).
    assert (P23 : (2 ^ 24 = 2 * 2 ^ 23)%Z) by reflexivity.
    assert (P25 : (2 ^ 25 = 4 * 2 ^ 23)%Z) by reflexivity.
    rewrite (same_side (2 * m - 1) (e - 1)) in N1, N3 by lia.
    rewrite (same_side (2 * m + 1) (e - 1)) in N2, N4 by lia.
    split; [|exact Hn]. unfold nearest_pair. change (SpecFloat.emin 24 128) with (-149)%Z. change (24 - 1)%Z with 23%Z.
    split; [exact Ge|]. split; [exact Bm|]. split; [intros _; exact Hn|]. split; [exact N1|]. split; [exact N2|]. split; [exact N3|]. split; [exact N4|].
    intros G' Em. rewrite <- same_side by (subst m; lia). apply N5; assumption.
  Qed.
End Twice.

Lemma sqrt_of_eq w w' : w == w' -> forall q, sqrt_of w q = sqrt_of w' q.
Proof. intros E q. unfold sqrt_of. destruct (Qlt_le_dec q 0); [reflexivity|]. rewrite E. reflexivity. Qed.

(** [m * 2^e] of single precision, converted, rooted and converted back. *)
Theorem sqrt_twice m e m' e' : bounded 24 128 m e = true -> bounded 53 1024 m' e' = true ->
  inject_Z (Zpos m') * 2 ^ e' == inject_Z (Zpos m) * 2 ^ e ->
  exists p k p' k', SFsqrt 53 1024 (S754_finite false m' e') = S754_finite false p k /\
    binary_round 24 128 false p k = S754_finite false p' k' /\
    sqrt_rounds_to 24 128 (inject_Z (Zpos m) * 2 ^ e) (S754_finite false p' k').
Proof.
  intros V V' Ev. destruct (sqrt_pair 53 1024 ltac:(lia) ltac:(lia) m' e' V') as (p & k & N & L & R).
  set (w := inject_Z (Zpos m') * 2 ^ e') in *.
  destruct (round_pair 24 128 ltac:(lia) false p k) as (q & f & N2 & R2).
  pose proof V as V0. apply (bounded_spec 24 128 ltac:(lia)) in V0. destruct V0 as ([A _] & B & _).
  change (SpecFloat.emin 24 128) with (-149)%Z in A.
  destruct (twice_pair w (Zpos m) e Ev ltac:(lia) A (Zpos p) k N q f N2) as [N3 Q].
  destruct q as [|q|q]; [lia| |lia].
  assert (W : 0 < w) by apply pos_scale.
  assert (LE : (f <= 128 - 24)%Z).
  { destruct (Z.le_gt_cases f (128 - 24)) as [|G]; [assumption|exfalso].
    pose proof (too_large 24 128 ltac:(lia) ltac:(lia) (sqrt_of w) (sqrt_cut w W) (Zpos q) f N3 G) as T.
    pose proof (valid_limit 24 128 ltac:(lia) (S754_finite false m e) V I) as VL. cbn [value] in VL. rewrite <- Ev in VL.
    rewrite Qabs_pos in VL by lra. pose proof (limit_large 24 128 ltac:(lia) ltac:(lia)) as LL. rewrite sqrt_of_pos in T by lra.
    apply T. apply (proj1 (Qlt_alt _ _)). nra. }
  exists p, k, q, f. split; [exact R|]. split; [rewrite R2; apply Z.leb_le in LE; rewrite LE; reflexivity|].
  pose proof (nearest_sqrt 24 128 ltac:(lia) w q f W N3 LE) as S.
  destruct S as (S1 & S2 & S3 & S4). split; [exact S1|]. split; [exact S2|]. split; [exact S3|].
  intros y Vy Fy Ny. specialize (S4 y Vy Fy Ny). cbv zeta in *. rewrite <- Ev. exact S4.
Qed.
