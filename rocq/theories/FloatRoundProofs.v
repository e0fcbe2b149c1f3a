(** FloatRoundProofs.v -- SpecFloat's rounding meets FloatSpec.v. *)
From Coq Require Import ZArith QArith Qabs Qpower Lqa Lia Bool Floats.SpecFloat.
From Verif Require Import FloatSpec FloatCoreProofs.
Local Open Scope Q_scope.

(** *** Powers of two *)
Lemma two_ne : ~ 2 == 0. Proof. discriminate. Qed.
Lemma pow2_pos e : 0 < 2 ^ e.
Proof. apply Qpower_0_lt. reflexivity. Qed.
Lemma pow2_add a b : 2 ^ (a + b) == 2 ^ a * 2 ^ b.
Proof. apply Qpower_plus. exact two_ne. Qed.
Lemma pow2_Z n : (0 <= n)%Z -> 2 ^ n == inject_Z (2 ^ n).
Proof. intros H. change 2 with (inject_Z 2) at 1. rewrite Zpower_Qpower by exact H. reflexivity. Qed.
Lemma pow2_shift e e' : (e <= e')%Z -> 2 ^ e' == inject_Z (2 ^ (e' - e)) * 2 ^ e.
Proof. intros H. rewrite <- pow2_Z by lia. rewrite <- pow2_add. replace (e' - e + e)%Z with e' by lia. reflexivity. Qed.
Lemma pow2_half e : 2 ^ (e - 1) == (1 # 2) * 2 ^ e.
Proof. rewrite (pow2_shift (e - 1) e) by lia. replace (e - (e - 1))%Z with 1%Z by lia. change (inject_Z (2 ^ 1)) with 2. ring. Qed.
Lemma pow2_double e : 2 ^ (e + 1) == 2 * 2 ^ e.
Proof. rewrite pow2_add. change (2 ^ 1) with 2. ring. Qed.
Lemma pow2_mono a b : (a <= b)%Z -> 2 ^ a <= 2 ^ b.
Proof.
  intros H. rewrite (pow2_shift a b H). rewrite <- (Qmult_1_l (2 ^ a)) at 1. apply Qmult_le_compat_r; [|apply Qlt_le_weak, pow2_pos].
  change 1 with (inject_Z 1). rewrite <- Zle_Qle. apply (Z.pow_le_mono_r 2 0); lia.
Qed.
Lemma inj_lt a b : (a < b)%Z -> inject_Z a < inject_Z b. Proof. rewrite <- Zlt_Qlt. auto. Qed.
Lemma inj_le a b : (a <= b)%Z -> inject_Z a <= inject_Z b. Proof. rewrite <- Zle_Qle. auto. Qed.
Lemma scale_le a b e : (a <= b)%Z -> inject_Z a * 2 ^ e <= inject_Z b * 2 ^ e.
Proof. intros H. apply Qmult_le_compat_r; [apply inj_le, H|apply Qlt_le_weak, pow2_pos]. Qed.
Lemma scale_lt a b e : (a < b)%Z -> inject_Z a * 2 ^ e < inject_Z b * 2 ^ e.
Proof. intros H. apply Qmult_lt_compat_r; [apply pow2_pos|apply inj_lt, H]. Qed.
Lemma scale_lt_inv a b e : inject_Z a * 2 ^ e < inject_Z b * 2 ^ e -> (a < b)%Z.
Proof. intros H. destruct (Z.lt_ge_cases a b) as [|G]; [assumption|]. apply (scale_le _ _ e) in G. lra. Qed.

(** *** Cuts of the rational numbers *)
Record qcut (d : Q -> comparison) : Prop := {
  q_eq : forall p q, p == q -> d p = d q;
  q_up : forall p q, p < q -> d p <> Gt -> d q = Lt;
  q_down : forall p q, p < q -> d q <> Lt -> d p = Gt }.
Definition dy (d : Q -> comparison) (m e : Z) : comparison := d (inject_Z m * 2 ^ e).
Lemma qcut_cut d : qcut d -> cut (dy d).
Proof.
  intros D. constructor; unfold dy.
  - intros m e. apply (q_eq d D). rewrite inject_Z_mult, pow2_double. change (inject_Z 2) with 2. ring.
  - intros m m' e L H. apply (q_up d D (inject_Z m * 2 ^ e)); [apply scale_lt, L|exact H].
  - intros m m' e L H. apply (q_down d D _ (inject_Z m' * 2 ^ e)); [apply scale_lt, L|exact H].
Qed.
Lemma rational_cut v : qcut (fun q => v ?= q).
Proof.
  constructor.
  - intros p q E. rewrite E. reflexivity.
  - intros p q L H. apply (proj1 (Qlt_alt _ _)).
    destruct (Qcompare_spec v p) as [K|K|K]; [lra|lra|congruence].
  - intros p q L H. apply (proj1 (Qgt_alt _ _)). destruct (Qcompare_spec v q) as [K|K|K]; [lra|congruence|lra].
Qed.
Definition sqrt_of (w q : Q) : comparison := if Qlt_le_dec q 0 then Gt else w ?= q * q.
Lemma sqrt_cut w : 0 < w -> qcut (sqrt_of w).
Proof.
  intros W. constructor; unfold sqrt_of.
  - intros p q E. destruct (Qlt_le_dec p 0), (Qlt_le_dec q 0); try lra; try reflexivity. rewrite E. reflexivity.
  - intros p q L H. destruct (Qlt_le_dec p 0); [congruence|]. destruct (Qlt_le_dec q 0); [lra|].
    apply (proj1 (Qlt_alt _ _)). destruct (Qcompare_spec w (p * p)) as [K|K|K]; [nra|nra|congruence].
  - intros p q L H. destruct (Qlt_le_dec p 0); [reflexivity|]. destruct (Qlt_le_dec q 0); [lra|].
    apply (proj1 (Qgt_alt _ _)). destruct (Qcompare_spec w (q * q)) as [K|K|K]; [nra|congruence|nra].
Qed.

Section Format.
  Variable prec emax : Z.
  Hypothesis Hprec : (1 < prec)%Z.
  Hypothesis Hemax : (prec < emax)%Z.
  Let emin := emin prec emax.

  (** The magnitudes of the format. *)
  Definition magnitude (q : Q) : Prop := exists m e, q == inject_Z m * 2 ^ e /\ (0 <= m < 2 ^ prec)%Z /\ (emin <= e)%Z.

  Section Nearest.
    Variable d : Q -> comparison.
    Hypothesis D : qcut d.
    Variable m e : Z.
    Hypothesis N : nearest_pair prec emax (dy d) m e.
    Let r := inject_Z m * 2 ^ e.
    Lemma PP : (2 ^ prec = 2 * 2 ^ (prec - 1))%Z.
    Proof. rewrite <- Z.pow_succ_r by lia. f_equal. lia. Qed.
    Lemma P_pos : (0 < 2 ^ (prec - 1))%Z. Proof. apply Z.pow_pos_nonneg; lia. Qed.
    Lemma P_even : Z.even (2 ^ (prec - 1)) = true.
    Proof. replace (prec - 1)%Z with (Z.succ (prec - 2)) by lia. rewrite Z.pow_succ_r by lia. apply Z.even_mul. Qed.

    Lemma step_above y : magnitude y -> r < y -> r + 2 ^ e <= y.
    Proof.
      intros (m' & e' & E & B & G) L. unfold r in *. rewrite E in *.
      destruct N as (Ge & Bm & Hm & _).
      destruct (Z.le_gt_cases e e') as [H|H].
      - rewrite (pow2_shift e e' H) in *. rewrite Qmult_assoc, <- inject_Z_mult in *. apply scale_lt_inv in L.
        assert (K : (m + 1 <= m' * 2 ^ (e' - e))%Z) by lia. apply (scale_le _ _ e) in K. rewrite inject_Z_plus in K.
        change (inject_Z 1) with 1 in K. lra.
      - exfalso. specialize (Hm ltac:(unfold emin in *; lia)). pose proof PP.
        assert (K : (m' <= 2 ^ prec)%Z) by lia. apply (scale_le _ _ e') in K.
        pose proof (pow2_mono e' (e - 1) ltac:(lia)) as K2. rewrite pow2_half in K2.
        apply (scale_le _ _ e) in Hm. rewrite H0, inject_Z_mult in K. change (inject_Z 2) with 2 in K.
        assert (0 < inject_Z (2 ^ (prec - 1))) by (change 0 with (inject_Z 0); apply inj_lt, P_pos). nra.
    Qed.
    Lemma step_below y : magnitude y -> y < r ->
      y + 2 ^ e <= r \/ (emin < e /\ m = 2 ^ (prec - 1))%Z /\ y + (1 # 2) * 2 ^ e <= r.
    Proof.
      intros (m' & e' & E & B & G) L. unfold r in *. rewrite E in *.
      destruct N as (Ge & Bm & Hm & _).
      destruct (Z.le_gt_cases e e') as [H|H].
      - left. rewrite (pow2_shift e e' H) in *. rewrite Qmult_assoc, <- inject_Z_mult in *. apply scale_lt_inv in L.
        assert (K : (m' * 2 ^ (e' - e) + 1 <= m)%Z) by lia. apply (scale_le _ _ e) in K. rewrite inject_Z_plus in K.
        change (inject_Z 1) with 1 in K. lra.
      - assert (Gt' : (emin < e)%Z) by (unfold emin in *; lia). specialize (Hm Gt'). pose proof PP as PP0.
        assert (K : (m' + 1 <= 2 ^ prec)%Z) by lia. apply (scale_le _ _ e') in K. rewrite inject_Z_plus in K. change (inject_Z 1) with 1 in K.
        rewrite PP0, inject_Z_mult in K. change (inject_Z 2) with 2 in K.
        pose proof (pow2_mono e' (e - 1) ltac:(lia)) as K2. rewrite pow2_half in K2.
        assert (P0 : 1 <= inject_Z (2 ^ (prec - 1))) by (change 1 with (inject_Z 1); apply inj_le; pose proof P_pos; lia).
        assert (K3 : inject_Z m' * 2 ^ e' + (1 # 2) * 2 ^ e <= inject_Z (2 ^ (prec - 1)) * 2 ^ e) by nra.
        destruct (Z.eq_dec m (2 ^ (prec - 1))) as [Em|Nm].
        + right. split; [split; assumption|]. rewrite Em. exact K3.
        + left. assert (K4 : (2 ^ (prec - 1) + 1 <= m)%Z) by lia. apply (scale_le _ _ e) in K4.
          rewrite inject_Z_plus in K4. change (inject_Z 1) with 1 in K4. pose proof (pow2_pos e). lra.
    Qed.
    Lemma half_up : inject_Z (2 * m + 1) * 2 ^ (e - 1) == r + (1 # 2) * 2 ^ e.
    Proof. unfold r. rewrite pow2_half, inject_Z_plus, inject_Z_mult. change (inject_Z 2) with 2. change (inject_Z 1) with 1. ring. Qed.
    Lemma half_down : inject_Z (2 * m - 1) * 2 ^ (e - 1) == r - (1 # 2) * 2 ^ e.
    Proof.
      unfold r. rewrite pow2_half. unfold Z.sub. rewrite inject_Z_plus, inject_Z_mult, inject_Z_opp.
      change (inject_Z 2) with 2. change (inject_Z 1) with 1. ring.
    Qed.
    Lemma quarter_down : inject_Z (4 * m - 1) * 2 ^ (e - 2) == r - (1 # 4) * 2 ^ e.
    Proof.
      unfold r. replace (e - 2)%Z with (e - 1 - 1)%Z by lia. rewrite !pow2_half. unfold Z.sub.
      rewrite inject_Z_plus, inject_Z_mult, inject_Z_opp. change (inject_Z 4) with 4. change (inject_Z 1) with 1. ring.
    Qed.
    (** The number is on [r]'s side of the middle between [r] and any other magnitude. *)
    Lemma side_above y : magnitude y -> r < y ->
      d ((r + y) * (1 # 2)) <> Gt /\ (d ((r + y) * (1 # 2)) = Eq -> Z.even m = true).
    Proof.
      intros M L. pose proof (step_above y M L) as S. pose proof half_up as H.
      destruct N as (_ & _ & _ & _ & N1 & _ & N2 & _). unfold dy in N1, N2. rewrite (q_eq d D _ _ H) in N1, N2.
      destruct (Qeq_dec (r + (1 # 2) * 2 ^ e) ((r + y) * (1 # 2))) as [E|E].
      - rewrite <- (q_eq d D _ _ E). split; assumption.
      - rewrite (q_up d D (r + (1 # 2) * 2 ^ e) ((r + y) * (1 # 2))); [split; discriminate|lra|exact N1].
    Qed.
    Lemma side_below y : magnitude y -> y < r ->
      d ((r + y) * (1 # 2)) <> Lt /\ (d ((r + y) * (1 # 2)) = Eq -> Z.even m = true).
    Proof.
      intros M L. destruct (step_below y M L) as [S|[[G Em] S]].
      - pose proof half_down as H.
        destruct N as (_ & _ & _ & N1 & _ & N2 & _). unfold dy in N1, N2. rewrite (q_eq d D _ _ H) in N1, N2.
        destruct (Qeq_dec (r - (1 # 2) * 2 ^ e) ((r + y) * (1 # 2))) as [E|E].
        + rewrite <- (q_eq d D _ _ E). split; assumption.
        + rewrite (q_down d D ((r + y) * (1 # 2)) (r - (1 # 2) * 2 ^ e)); [split; discriminate|lra|exact N1].
      - split; [|intros _; rewrite Em; apply P_even]. pose proof quarter_down as H.
        destruct N as (_ & _ & _ & _ & _ & _ & _ & N1). specialize (N1 G Em). unfold dy in N1. rewrite (q_eq d D _ _ H) in N1.
        destruct (Qeq_dec (r - (1 # 4) * 2 ^ e) ((r + y) * (1 # 2))) as [E|E].
        + rewrite <- (q_eq d D _ _ E). exact N1.
        + rewrite (q_down d D ((r + y) * (1 # 2)) (r - (1 # 4) * 2 ^ e)); [discriminate|lra|exact N1].
    Qed.
    (** Overflow. *)
    Lemma limit_eq : limit prec emax == inject_Z (2 ^ prec) * 2 ^ (emax - prec) - (1 # 2) * 2 ^ (emax - prec).
    Proof. unfold limit. ring. Qed.
    Lemma too_large : (emax - prec < e)%Z -> d (limit prec emax) <> Lt.
    Proof.
      intros H. destruct N as (_ & Bm & Hm & N1 & _ & _ & _ & N3).
      assert (G : (SpecFloat.emin prec emax < e)%Z) by (unfold SpecFloat.emin; lia).
      specialize (Hm G). specialize (N3 G). pose proof PP as PP0.
      assert (L : limit prec emax == inject_Z (2 ^ (prec - 1)) * 2 ^ (emax - prec + 1) - (1 # 4) * 2 ^ (emax - prec + 1)).
      { rewrite limit_eq, PP0, inject_Z_mult, pow2_double. change (inject_Z 2) with 2. ring. }
      pose proof (pow2_pos (emax - prec + 1)) as PQ.
      pose proof (pow2_mono (emax - prec + 1) e ltac:(lia)) as ME.
      assert (P1 : 2 <= inject_Z (2 ^ (prec - 1))).
      { change 2 with (inject_Z (2 ^ 1)). apply inj_le. apply Z.pow_le_mono_r; lia. }
      destruct (Z.eq_dec m (2 ^ (prec - 1))) as [Em|Nm].
      - specialize (N3 Em). unfold dy in N3. rewrite (q_eq d D _ _ quarter_down) in N3.
        assert (LE : limit prec emax <= r - (1 # 4) * 2 ^ e) by (rewrite L; unfold r; rewrite Em; nra).
        destruct (Qeq_dec (limit prec emax) (r - (1 # 4) * 2 ^ e)) as [E|E]; [rewrite (q_eq d D _ _ E); exact N3|].
        rewrite (q_down d D _ (r - (1 # 4) * 2 ^ e)); [discriminate|lra|exact N3].
      - unfold dy in N1. rewrite (q_eq d D _ _ half_down) in N1.
        assert (K : (2 ^ (prec - 1) + 1 <= m)%Z) by lia. apply (scale_le _ _ e) in K. rewrite inject_Z_plus in K. change (inject_Z 1) with 1 in K.
        rewrite (q_down d D _ (r - (1 # 2) * 2 ^ e)); [discriminate| |exact N1].
        rewrite L. unfold r. nra.
    Qed.
    Lemma not_too_large : (e <= emax - prec)%Z -> d (limit prec emax) = Lt.
    Proof.
      intros H. destruct N as (_ & Bm & _ & _ & N1 & _ & N2 & _). pose proof PP as PP0.
      unfold dy in N1, N2. rewrite (q_eq d D _ _ half_up) in N1, N2.
      pose proof (pow2_mono e (emax - prec) H) as ME. pose proof (pow2_pos e) as PE.
      assert (K : (m + 1 <= 2 ^ prec)%Z) by lia.
      assert (K' : inject_Z m + 1 <= inject_Z (2 ^ prec)) by (change 1 with (inject_Z 1); rewrite <- inject_Z_plus; apply inj_le, K).
      assert (M0 : 0 <= inject_Z m) by (change 0 with (inject_Z 0); apply inj_le; lia).
      assert (LE : r + (1 # 2) * 2 ^ e <= limit prec emax) by (rewrite limit_eq; unfold r; nra).
      destruct (d (r + (1 # 2) * 2 ^ e)) eqn:E; [|..|congruence].
      - assert (V : Z.even m = true) by auto.
        assert (m + 1 < 2 ^ prec)%Z.
        { destruct (Z.eq_dec (m + 1) (2 ^ prec)) as [Q|Q]; [exfalso|lia].
          assert (V' : Z.even (m + 1) = true) by (rewrite Q, PP0; apply Z.even_mul). rewrite Z.even_add, V in V'. discriminate. }
        assert (K2 : inject_Z m + 2 <= inject_Z (2 ^ prec)) by (change 2 with (inject_Z 2); rewrite <- inject_Z_plus; apply inj_le; lia).
        apply (q_up d D (r + (1 # 2) * 2 ^ e)); [|congruence]. rewrite limit_eq. unfold r. nra.
      - destruct (Qeq_dec (r + (1 # 2) * 2 ^ e) (limit prec emax)) as [Q|Q]; [rewrite <- (q_eq d D _ _ Q); exact E|].
        apply (q_up d D (r + (1 # 2) * 2 ^ e)); [lra|congruence].
    Qed.
  End Nearest.

  (** Finite numbers and magnitudes. *)
  Lemma valid_magnitude y : valid_binary prec emax y = true -> finite y -> magnitude (Qabs (value y)).
  Proof.
    destruct y as [s|s| |s m e]; cbn [finite value valid_binary]; intros V F; try contradiction.
    - exists 0%Z, emin. split; [reflexivity|]. split; [pose proof PP; pose proof P_pos; lia|lia].
    - apply (bounded_spec prec emax Hprec) in V. destruct V as ([A _] & B & _).
      exists (Zpos m), e. split; [|split; [lia|exact A]].
      rewrite Qabs_Qmult, (Qabs_pos (2 ^ e)) by (apply Qlt_le_weak, pow2_pos). destruct s; reflexivity.
  Qed.
  Lemma result_valid s m e : (SpecFloat.emin prec emax <= e <= emax - prec)%Z -> (Zpos m < 2 ^ prec)%Z ->
    (SpecFloat.emin prec emax < e -> 2 ^ (prec - 1) <= Zpos m)%Z -> valid_binary prec emax (S754_finite s m e) = true.
  Proof. intros A B E. cbn [valid_binary]. apply (bounded_spec prec emax Hprec). auto. Qed.

  (** Rounding a positive rational number, with a sign. *)
  Theorem round_rational (s : bool) (v : Q) (mx ex : Z) (lx : location) : 0 < v -> (0 <= mx)%Z -> between (dy (fun q => v ?= q)) mx ex lx ->
    (ex <= fexp prec emax (Zdigits2 mx + ex))%Z ->
    rounds_to prec emax (if s then - v else v) (binary_round_aux prec emax s mx ex lx) /\
    negative (binary_round_aux prec emax s mx ex lx) = s.
  Proof.
    intros V Hm B He. set (d := fun q => v ?= q) in *. pose proof (rational_cut v) as D. fold d in D.
    destruct (round_aux prec emax Hprec (dy d) (qcut_cut d D) mx ex lx Hm B He s) as (m & e & N & ->).
    pose proof N as N0. destruct N as (Ge & Bm & Hn & _).
    assert (Q1 : forall q, d q = (v ?= q)) by reflexivity.
    assert (FIN : (e <= emax - prec)%Z -> forall res, finite res -> negative res = s -> value res == (if s then - (inject_Z m * 2 ^ e) else inject_Z m * 2 ^ e) ->
              (Z.even m = true -> even_digit res) -> valid_binary prec emax res = true ->
              rounds_to prec emax (if s then - v else v) res /\ negative res = s).
    { intros L res Fi Ne Va Ev Val. split; [|exact Ne].
      assert (K : Qabs (if s then - v else v) < limit prec emax /\
         forall y, valid_binary prec emax y = true -> finite y ->
           Qabs ((if s then - v else v) - value res) <= Qabs ((if s then - v else v) - value y) /\
           (Qabs ((if s then - v else v) - value res) == Qabs ((if s then - v else v) - value y) -> value y == value res \/ even_digit res)).
      { split.
        - pose proof (not_too_large d D m e N0 L) as K. rewrite Q1 in K. apply Qlt_alt in K.
          assert (Qabs (if s then - v else v) == v) as -> by (destruct s; rewrite ?Qabs_opp; apply Qabs_pos; lra). exact K.
        - intros y Vy Fy. set (r := inject_Z m * 2 ^ e) in *.
          assert (R0 : 0 <= r).
          { unfold r. apply Qmult_le_0_compat; [change 0 with (inject_Z 0); apply inj_le; lia|apply Qlt_le_weak, pow2_pos]. }
          (* reduce to signed comparison with z := +-value y *)
          set (z := if s then - value y else value y).
          assert (E1 : Qabs ((if s then - v else v) - value res) == Qabs (v - r)).
          { rewrite Va. destruct s; [|reflexivity]. rewrite <- Qabs_opp. apply Qabs_wd. ring. }
          assert (E2 : Qabs ((if s then - v else v) - value y) == Qabs (v - z)).
          { unfold z. destruct s; [|reflexivity]. rewrite <- Qabs_opp. apply Qabs_wd. ring. }
          assert (E3 : value y == value res <-> z == r) by (rewrite Va; unfold z; destruct s; split; intros; lra).
          rewrite E1, E2, E3.
          pose proof (valid_magnitude y Vy Fy) as My.
          assert (Mz : 0 <= z -> magnitude z).
          { intros Z0. destruct My as (a & b & Ey & Q). exists a, b. split; [|exact Q]. rewrite <- Ey.
            unfold z in *. destruct s; [rewrite <- Qabs_opp|]; symmetry; apply Qabs_pos; exact Z0. }
          assert (M0 : magnitude 0) by (exists 0%Z, emin; split; [reflexivity|]; split; [pose proof PP; pose proof P_pos; lia|lia]).
          assert (SA : forall y', magnitude y' -> r < y' -> v <= (r + y') * (1 # 2) /\ (v == (r + y') * (1 # 2) -> Z.even m = true)).
          { intros y' M' L'. destruct (side_above d D m e N0 y' M' L') as [A1 A2]. fold r in A1, A2. rewrite Q1 in A1, A2.
            destruct (Qcompare_spec v ((r + y') * (1 # 2))) as [W|W|W]; [split; [lra|auto]|split; [lra|intros; lra]|congruence]. }
          assert (SB : forall y', magnitude y' -> y' < r -> (r + y') * (1 # 2) <= v /\ (v == (r + y') * (1 # 2) -> Z.even m = true)).
          { intros y' M' L'. destruct (side_below d D m e N0 y' M' L') as [A1 A2]. fold r in A1, A2. rewrite Q1 in A1, A2.
            destruct (Qcompare_spec v ((r + y') * (1 # 2))) as [W|W|W]; [split; [lra|auto]|congruence|split; [lra|intros; lra]]. }
          assert (AB : forall a b, (a <= b /\ - b <= a) -> Qabs a <= b) by (intros a b [A1 A2]; apply Qabs_Qle_condition; split; assumption).
          destruct (Qlt_le_dec z 0) as [Zn|Zp].
          + (* negative: 0 is between *)
            assert (Y : Qabs (v - z) == v - z) by (apply Qabs_pos; lra).
            assert (X : Qabs (v - r) <= v /\ Qabs (v - r) < v - z).
            { destruct (Qlt_le_dec 0 r) as [Rp|Rn].
              - destruct (SB 0 M0 Rp) as [W _]. assert (Qabs (v - r) <= v) by (apply AB; split; lra). split; [assumption|lra].
              - assert (r == 0) by lra. assert (Qabs (v - r) == v) as X1 by (rewrite Qabs_pos; lra). rewrite X1. split; lra. }
            rewrite Y. destruct X as [_ X]. split; [lra|intros; lra].
          + specialize (Mz Zp). destruct (Q_dec r z) as [[Lz|Gz]|Ez].
            * destruct (SA z Mz Lz) as [W1 W2].
              assert (Y : Qabs (v - z) == z - v) by (rewrite Qabs_neg; lra). rewrite Y.
              assert (X : Qabs (v - r) <= z - v) by (apply AB; split; lra). split; [exact X|].
              intros T. right. apply Ev, W2.
              destruct (Qlt_le_dec v r); [rewrite Qabs_neg in T; lra|rewrite Qabs_pos in T; lra].
            * destruct (SB z Mz Gz) as [W1 W2].
              assert (Y : Qabs (v - z) == v - z) by (rewrite Qabs_pos; lra). rewrite Y.
              assert (X : Qabs (v - r) <= v - z) by (apply AB; split; lra). split; [exact X|].
              intros T. right. apply Ev, W2.
              destruct (Qlt_le_dec v r); [rewrite Qabs_neg in T; lra|rewrite Qabs_pos in T; lra].
            * rewrite Ez. split; [apply Qle_refl|]. intros _. left. reflexivity. }
      unfold rounds_to. destruct res; try contradiction; split; try exact Val; exact K. }
    destruct m as [|p|p]; [..|lia].
    - assert (L : (e <= emax - prec)%Z).
      { destruct (Z.le_gt_cases e (emax - prec)); [assumption|exfalso].
        specialize (Hn ltac:(unfold SpecFloat.emin; lia)). pose proof P_pos. lia. }
      apply (FIN L); [exact I|reflexivity| |intros _; exact I|reflexivity].
      cbn [value]. change (inject_Z 0) with 0. destruct s; ring.
    - destruct (Z.leb_spec e (emax - prec)) as [L|L].
      + apply (FIN L); [exact I|reflexivity| |intros Ev; exact Ev|apply result_valid; [split; assumption|lia|exact Hn]].
        cbn [value]. destruct s; [|reflexivity]. 
        change (Zneg p) with (- Zpos p)%Z. rewrite inject_Z_opp. ring.
      + split; [|reflexivity]. split; [reflexivity|].
        pose proof (too_large d D (Zpos p) e N0 ltac:(lia)) as K. rewrite Q1 in K.
        destruct (Qcompare_spec v (limit prec emax)) as [W|W|W]; [destruct s; lra|congruence|destruct s; lra].
  Qed.
End Format.
