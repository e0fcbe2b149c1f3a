(** FloatProofs.v -- conversions, integer parts, fractions and roots of F32 and F64. *)
From Coq Require Import ZArith QArith Qabs Qpower Qround Lqa Lia Bool Floats.SpecFloat.
From Verif Require Import FloatSpec FloatModel FloatCoreProofs FloatRoundProofs FloatOpsProofs FloatSqrtProofs.
Local Open Scope Q_scope.

Lemma Qabs_eq0 a : Qabs a == 0 -> a == 0.
Proof. apply Qabs_case; intros; lra. Qed.
Lemma signed_abs (s : bool) a : 0 <= a -> Qabs (if s then - a else a) == a.
Proof. intros H. destruct s; [rewrite Qabs_opp|]; apply Qabs_pos, H. Qed.

Lemma magnitude_eq prec emax a b : a == b -> magnitude prec emax b -> magnitude prec emax a.
Proof. intros E (m & e & H & Q). exists m, e. split; [rewrite E; exact H|exact Q]. Qed.

(** *** Numbers that fit are converted exactly *)
Section Exact.
  Variable prec emax : Z.
  Hypothesis Hprec : (1 < prec)%Z.
  Hypothesis Hemax : (prec < emax)%Z.
  Let valid := valid_binary prec emax.

  Lemma exact_round s m e : magnitude prec emax (inject_Z (Zpos m) * 2 ^ e) -> inject_Z (Zpos m) * 2 ^ e < limit prec emax ->
    let r := binary_round prec emax s m e in
    valid r = true /\ finite r /\ value r == value (S754_finite s m e) /\ negative r = s.
  Proof.
    intros M L. cbv zeta. destruct (round_pair prec emax Hprec s m e) as (p & k & N & R).
    destruct (round_ok prec emax Hprec Hemax s m e) as [[V _] S]. rewrite R in *. clear R.
    set (v := inject_Z (Zpos m) * 2 ^ e) in *. pose proof (rational_cut v) as D. set (d := fun q => v ?= q) in *.
    assert (V0 : 0 < v) by apply pos_scale.
    assert (EQ : inject_Z p * 2 ^ k == v).
    { destruct (Q_dec (inject_Z p * 2 ^ k) v) as [[G|G]|G]; [exfalso|exfalso|exact G].
      - destruct (side_above prec emax Hprec d D p k N v M G) as [K _]. unfold d in K.
        destruct (Qcompare_spec v ((inject_Z p * 2 ^ k + v) * (1 # 2))) as [Q|Q|Q]; [lra|lra|congruence].
      - destruct (side_below prec emax Hprec d D p k N v M G) as [K _]. unfold d in K.
        destruct (Qcompare_spec v ((inject_Z p * 2 ^ k + v) * (1 # 2))) as [Q|Q|Q]; [lra|congruence|lra]. }
    assert (LE : (k <= emax - prec)%Z).
    { destruct (Z.le_gt_cases k (emax - prec)) as [|G]; [assumption|exfalso].
      pose proof (too_large prec emax Hprec Hemax d D p k N G) as K. unfold d in K.
      destruct (Qcompare_spec v (limit prec emax)); [lra|congruence|lra]. }
    destruct p as [|p|p].
    - exfalso. change (inject_Z 0) with 0 in EQ. lra.
    - apply Z.leb_le in LE. rewrite LE in *. split; [exact V|]. split; [exact I|]. split; [|exact S].
      cbn [value]. rewrite !inj_opp_if. fold v. destruct s; rewrite EQ; reflexivity.
    - destruct N as (_ & Bm & _). lia.
  Qed.
  Lemma convert_valid x : valid (convert prec emax x) = true.
  Proof. destruct x; try reflexivity. cbn [convert]. apply (round_ok prec emax Hprec Hemax). Qed.
  Lemma convert_ok x : finite x -> rounds_to prec emax (value x) (convert prec emax x) /\ negative (convert prec emax x) = negative x.
  Proof.
    destruct x as [s|s| |s m e]; intros F; try contradiction; cbn [convert negative].
    - split; [|reflexivity]. apply rounds_exact; [assumption..|reflexivity|exact I|reflexivity].
    - apply (round_ok prec emax Hprec Hemax).
  Qed.
  (** Conversion is exact when the value is one of the format. *)
  Lemma convert_exact x : finite x -> magnitude prec emax (Qabs (value x)) -> Qabs (value x) < limit prec emax ->
    finite (convert prec emax x) /\ value (convert prec emax x) == value x /\ negative (convert prec emax x) = negative x.
  Proof.
    destruct x as [s|s| |s m e]; intros F M L; try contradiction; cbn [convert].
    - split; [exact I|]. split; reflexivity.
    - assert (E : Qabs (value (S754_finite s m e)) == inject_Z (Zpos m) * 2 ^ e).
      { cbn [value]. rewrite inj_opp_if. apply signed_abs, Qlt_le_weak, pos_scale. }
      rewrite E in L. destruct M as (a & b & Ea & Q). rewrite E in Ea.
      destruct (exact_round s m e) as (_ & X & Y & Z0); [exists a, b; auto|exact L|]. auto.
  Qed.
End Exact.

Lemma widen x : is_F32 x -> same_number x (to64 x) /\ is_F64 (to64 x).
Proof.
  intros V. split; [|apply convert_valid; lia].
  destruct x as [s|s| |s m e]; try reflexivity; cbn [same_number].
  - split; [exact I|]. split; reflexivity.
  - apply (convert_exact 53 1024 ltac:(lia) ltac:(lia)); [exact I|..].
    + destruct (valid_magnitude 24 128 ltac:(lia) _ V I) as (a & b & E & A & B). exists a, b. split; [exact E|].
      change (SpecFloat.emin 24 128) with (-149)%Z in B. change (SpecFloat.emin 53 1024) with (-1074)%Z. lia.
    + eapply Qlt_trans; [apply (valid_limit 24 128 ltac:(lia) _ V I)|]. reflexivity.
Qed.
Lemma same_finite x y : same_number x y -> finite x -> finite y /\ value y == value x /\ negative y = negative x.
Proof. destruct x; cbn [same_number finite]; intros H F; try contradiction; exact H. Qed.
Lemma same_special x y : same_number x y -> ~ finite x -> y = x.
Proof. destruct x; cbn [same_number finite]; intros H F; try contradiction; try exact H; exfalso; apply F; exact I. Qed.

(** *** Integer parts *)
Section Integer.
  Variable P : Q -> Z -> Prop.
  Hypothesis P_eq : forall v w n, v == w -> P v n -> P w n.
  Hypothesis P_int : forall k n, P (inject_Z k) n <-> n = k.
  Hypothesis P_near : forall v n, P v n -> Qabs (inject_Z n - v) <= 1.
  Variable pick : bool -> Z -> Z -> Z.
  Hypothesis P_pick : forall (s : bool) m k, (0 < m)%Z -> (0 < k)%Z ->
    (0 <= pick s m (2 ^ k))%Z /\ P (if s then - (inject_Z m * 2 ^ (- k)) else inject_Z m * 2 ^ (- k)) (if s then - pick s m (2 ^ k) else pick s m (2 ^ k)).

  Lemma abs_le a b : (- b <= a <= b) -> Qabs a <= b.
  Proof. intros H. apply Qabs_Qle_condition, H. Qed.
  Lemma near_abs v n : P v n -> Qabs (inject_Z n) <= Qabs v + 1.
  Proof.
    intros H. apply P_near in H. apply Qabs_Qle_condition in H. apply abs_le.
    pose proof (Qle_Qabs v). pose proof (Qle_Qabs (- v)) as H1. rewrite Qabs_opp in H1. lra.
  Qed.

  (** A number of a format is an integer or small. *)
  Lemma integer_or_small prec emax s m e : (1 < prec)%Z -> (prec < emax)%Z -> bounded prec emax m e = true ->
    (exists k, value (S754_finite s m e) == inject_Z k) \/ Qabs (value (S754_finite s m e)) < inject_Z (2 ^ (prec - 1)).
  Proof.
    intros H1 H2 V. apply (bounded_spec prec emax H1) in V. destruct V as (A & B & _).
    destruct (Z.le_gt_cases 0 e) as [L|L].
    - left. exists ((if s then Zneg m else Zpos m) * 2 ^ e)%Z. cbn [value]. rewrite (pow2_Z e L), inject_Z_mult. reflexivity.
    - right. cbn [value]. rewrite inj_opp_if, signed_abs by (apply Qlt_le_weak, pos_scale).
      apply (scale_lt _ _ e) in B. pose proof (pow2_mono e (-1) ltac:(lia)) as M. change (2 ^ (-1)) with (1 # 2) in M.
      assert (PP : (2 ^ prec = 2 * 2 ^ (prec - 1))%Z) by (rewrite <- Z.pow_succ_r by lia; f_equal; lia).
      rewrite PP, inject_Z_mult in B. change (inject_Z 2) with 2 in B.
      assert (0 < inject_Z (2 ^ (prec - 1))) by (change 0 with (inject_Z 0); apply inj_lt; apply Z.pow_pos_nonneg; lia). nra.
  Qed.
  (** So the integers next to it are of the format. *)
  Lemma integer_fits prec emax x n : (1 < prec)%Z -> (prec < emax)%Z -> valid_binary prec emax x = true -> finite x -> P (value x) n ->
    magnitude prec emax (Qabs (inject_Z n)) /\ Qabs (inject_Z n) < limit prec emax.
  Proof.
    intros H1 H2 V F H.
    assert (SMALL : Qabs (value x) < inject_Z (2 ^ (prec - 1)) -> magnitude prec emax (Qabs (inject_Z n)) /\ Qabs (inject_Z n) < limit prec emax).
    { intros S. pose proof (near_abs _ _ H) as K.
      assert (K2 : (Z.abs n <= 2 ^ (prec - 1))%Z).
      { assert (A : inject_Z (Z.abs n) < inject_Z (2 ^ (prec - 1) + 1)).
        { rewrite inject_Z_plus. change (inject_Z 1) with 1. change (inject_Z (Z.abs n)) with (Qabs (inject_Z n)). lra. }
        rewrite <- Zlt_Qlt in A. lia. }
      assert (PP : (2 ^ prec = 2 * 2 ^ (prec - 1))%Z) by (rewrite <- Z.pow_succ_r by lia; f_equal; lia).
      assert (P1 : (0 < 2 ^ (prec - 1))%Z) by (apply Z.pow_pos_nonneg; lia).
      change (Qabs (inject_Z n)) with (inject_Z (Z.abs n)). split.
      - exists (Z.abs n), 0%Z. split; [change (2 ^ 0) with 1; ring|]. split; [lia|]. unfold SpecFloat.emin. lia.
      - unfold limit. apply inj_le in K2. rewrite PP, inject_Z_mult. change (inject_Z 2) with 2.
        assert (1 <= inject_Z (2 ^ (prec - 1))) by (change 1 with (inject_Z 1); apply inj_le; lia).
        assert (2 <= 2 ^ (emax - prec)) by (change 2 with (2 ^ 1) at 1; apply pow2_mono; lia). nra. }
    destruct x as [s|s| |s m e]; try contradiction.
    - apply SMALL. cbn [value]. change 0 with (inject_Z 0). apply inj_lt. apply Z.pow_pos_nonneg; lia.
    - destruct (integer_or_small prec emax s m e H1 H2 V) as [[k E]|S]; [|apply SMALL, S].
      apply (P_eq _ _ _ E) in H. apply P_int in H. subst.
      destruct (valid_magnitude prec emax H1 _ V F) as (a & b & Ea & Q). pose proof (valid_limit prec emax H1 _ V F) as L.
      rewrite E in L, Ea. split; [exists a, b; auto|exact L].
  Qed.

  Lemma part64 x : is_F64 x -> integer_of P x (integer_part pick x) /\ is_F64 (integer_part pick x).
  Proof.
    intros V. destruct x as [s|s| |s m e]; try (split; reflexivity). unfold integer_part.
    destruct (Z.leb_spec 0 e) as [L|L].
    - split; [|exact V]. cbn [integer_of]. split; [exact I|]. split; [reflexivity|].
      exists ((if s then Zneg m else Zpos m) * 2 ^ e)%Z.
      assert (E : value (S754_finite s m e) == inject_Z ((if s then Zneg m else Zpos m) * 2 ^ e)) by (cbn [value]; rewrite (pow2_Z e L), inject_Z_mult; reflexivity).
      split; [exact E|]. apply (P_eq _ _ _ (Qeq_sym _ _ E)). apply P_int. reflexivity.
    - destruct (P_pick s (Zpos m) (- e) ltac:(lia) ltac:(lia)) as [G H]. rewrite Z.opp_involutive in H.
      set (g := pick s (Zpos m) (2 ^ (- e))) in *. clearbody g.
      assert (EV : value (S754_finite s m e) == (if s then - (inject_Z (Zpos m) * 2 ^ e) else inject_Z (Zpos m) * 2 ^ e)) by (cbn [value]; apply inj_opp_if).
      apply (P_eq _ _ _ (Qeq_sym _ _ EV)) in H.
      destruct (integer_fits 53 1024 (S754_finite s m e) _ ltac:(lia) ltac:(lia) V I H) as [M LI].
      destruct g as [|p|p]; [..|lia].
      + split; [|reflexivity]. cbn [integer_of]. split; [exact I|]. split; [reflexivity|]. exists 0%Z.
        split; [reflexivity|]. destruct s; exact H.
      + assert (A : Qabs (inject_Z (if s then - Zpos p else Zpos p)) == inject_Z (Zpos p) * 2 ^ 0).
        { change (2 ^ 0) with 1. destruct s; [rewrite inject_Z_opp, Qabs_opp|]; rewrite Qabs_pos by discriminate; ring. }
        rewrite A in LI. destruct M as (a & b & Ea & Q). rewrite A in Ea.
        destruct (exact_round 53 1024 ltac:(lia) ltac:(lia) s p 0) as (X1 & X2 & X3 & X4); [exists a, b; auto|exact LI|].
        split; [|exact X1]. cbn [integer_of]. split; [exact X2|]. split; [exact X4|].
        exists (if s then - Zpos p else Zpos p)%Z. split; [|exact H]. rewrite X3. cbn [value]. change (2 ^ 0) with 1. destruct s; change (- Zpos p)%Z with (Zneg p); ring.
  Qed.
  Lemma part32 x : is_F32 x -> integer_of P x (to32 (integer_part pick (to64 x))) /\ is_F32 (to32 (integer_part pick (to64 x))).
  Proof.
    intros V. split; [|apply convert_valid; lia]. destruct (widen x V) as [S W]. destruct (part64 _ W) as [R R64].
    destruct x as [s|s| |s m e]; try reflexivity.
    destruct (same_finite _ _ S I) as (F & E & N). cbn [negative] in N.
    set (y := to64 (S754_finite s m e)) in *. clearbody y.
    assert (K : finite (integer_part pick y) /\ negative (integer_part pick y) = s /\ exists n, value (integer_part pick y) == inject_Z n /\ P (value y) n).
    { destruct y as [s'|s'| |s' m' e']; try contradiction.
      - exfalso. symmetry in E. revert E. apply value_nonzero.
      - cbn [integer_of negative] in *. subst. exact R. }
    clear R. destruct K as (F2 & N2 & n & E2 & Pn). apply (P_eq _ _ _ E) in Pn.
    destruct (integer_fits 24 128 (S754_finite s m e) n ltac:(lia) ltac:(lia) V I Pn) as [M L].
    destruct (convert_exact 24 128 ltac:(lia) ltac:(lia) (integer_part pick y) F2) as (X1 & X2 & X3).
    - destruct M as (a & b & Ea & Q). exists a, b. rewrite E2. auto.
    - rewrite E2. exact L.
    - cbn [integer_of]. split; [exact X1|]. split; [rewrite <- N2; exact X3|]. exists n. split; [|exact Pn].
      rewrite <- E2. exact X2.
  Qed.
End Integer.

(** The four relations. *)
Lemma inj_eq a b : inject_Z a == inject_Z b -> a = b.
Proof. intros H. apply (proj1 (inject_Z_injective a b)) in H. exact H. Qed.
Ltac zq H := apply inj_lt in H || apply inj_le in H.
Lemma int_of_lt a b : inject_Z a < inject_Z b + 1 -> (a <= b)%Z.
Proof. intros H. assert (K : inject_Z a < inject_Z (b + 1)) by (rewrite inject_Z_plus; exact H). rewrite <- Zlt_Qlt in K. lia. Qed.
Lemma floor_eq v w n : v == w -> is_floor v n -> is_floor w n. Proof. unfold is_floor. intros E H. rewrite <- E. exact H. Qed.
Lemma ceiling_eq v w n : v == w -> is_ceiling v n -> is_ceiling w n. Proof. unfold is_ceiling. intros E H. rewrite <- E. exact H. Qed.
Lemma truncation_eq v w n : v == w -> is_truncation v n -> is_truncation w n.
Proof. unfold is_truncation, is_floor, is_ceiling. intros E H. rewrite <- E. exact H. Qed.
Lemma nearest_eq v w n : v == w -> is_nearest v n -> is_nearest w n. Proof. unfold is_nearest. intros E H. rewrite <- E. exact H. Qed.
Lemma floor_int k n : is_floor (inject_Z k) n <-> n = k.
Proof.
  unfold is_floor. split; [|intros ->; lra]. intros [A B]. apply int_of_lt in B. rewrite <- Zle_Qle in A. lia.
Qed.
Lemma ceiling_int k n : is_ceiling (inject_Z k) n <-> n = k.
Proof.
  unfold is_ceiling. split; [|intros ->; lra]. intros [A B]. assert (A' : inject_Z n < inject_Z k + 1) by lra.
  apply int_of_lt in A'. rewrite <- Zle_Qle in B. lia.
Qed.
Lemma truncation_int k n : is_truncation (inject_Z k) n <-> n = k.
Proof.
  unfold is_truncation. rewrite floor_int, ceiling_int. split; [|auto]. intros [A B].
  destruct (Qlt_le_dec (inject_Z k) 0); [apply B; lra|auto].
Qed.
Lemma nearest_int k n : is_nearest (inject_Z k) n <-> n = k.
Proof.
  unfold is_nearest. split.
  - intros [A _]. apply Qabs_Qle_condition in A. assert (B : inject_Z k < inject_Z n + 1) by lra. assert (C : inject_Z n < inject_Z k + 1) by lra.
    apply int_of_lt in B, C. lia.
  - intros ->. assert (E : Qabs (inject_Z k - inject_Z k) == 0) by (setoid_replace (inject_Z k - inject_Z k) with 0 by ring; reflexivity).
    rewrite E. split; [discriminate|]. intros H. lra.
Qed.
Lemma floor_near v n : is_floor v n -> Qabs (inject_Z n - v) <= 1.
Proof. intros [A B]. apply Qabs_Qle_condition. lra. Qed.
Lemma ceiling_near v n : is_ceiling v n -> Qabs (inject_Z n - v) <= 1.
Proof. intros [A B]. apply Qabs_Qle_condition. lra. Qed.
Lemma truncation_near v n : is_truncation v n -> Qabs (inject_Z n - v) <= 1.
Proof. intros [A B]. destruct (Qlt_le_dec v 0); [apply ceiling_near, B; lra|apply floor_near, A; assumption]. Qed.
Lemma nearest_near v n : is_nearest v n -> Qabs (inject_Z n - v) <= 1.
Proof. intros [A _]. apply Qabs_Qle_condition in A. apply Qabs_Qle_condition. lra. Qed.

(** The quotients. *)
Lemma quotient m k (E : (0 < k)%Z) : inject_Z m * 2 ^ (- k) * inject_Z (2 ^ k) == inject_Z m.
Proof. rewrite <- pow2_Z by lia. rewrite <- Qmult_assoc, <- pow2_add. replace (- k + k)%Z with 0%Z by lia. change (2 ^ 0) with 1. ring. Qed.
Lemma q_le a m k : (0 < k)%Z -> (a * 2 ^ k <= m)%Z -> inject_Z a <= inject_Z m * 2 ^ (- k).
Proof.
  intros K H. apply inj_le in H. rewrite inject_Z_mult in H. pose proof (quotient m k K) as Q.
  assert (0 < inject_Z (2 ^ k)) by (change 0 with (inject_Z 0); apply inj_lt, Z.pow_pos_nonneg; lia).
  apply (Qmult_le_r _ _ (inject_Z (2 ^ k)) H0). lra.
Qed.
Lemma q_lt a m k : (0 < k)%Z -> (m < a * 2 ^ k)%Z -> inject_Z m * 2 ^ (- k) < inject_Z a.
Proof.
  intros K H. apply inj_lt in H. rewrite inject_Z_mult in H. pose proof (quotient m k K) as Q.
  assert (0 < inject_Z (2 ^ k)) by (change 0 with (inject_Z 0); apply inj_lt, Z.pow_pos_nonneg; lia).
  apply (Qmult_lt_r _ _ (inject_Z (2 ^ k)) H0). lra.
Qed.
Lemma q_le' a m k : (0 < k)%Z -> (m <= a * 2 ^ k)%Z -> inject_Z m * 2 ^ (- k) <= inject_Z a.
Proof.
  intros K H. apply inj_le in H. rewrite inject_Z_mult in H. pose proof (quotient m k K) as Q.
  assert (0 < inject_Z (2 ^ k)) by (change 0 with (inject_Z 0); apply inj_lt, Z.pow_pos_nonneg; lia).
  apply (Qmult_le_r _ _ (inject_Z (2 ^ k)) H0). lra.
Qed.
Lemma q_lt' a m k : (0 < k)%Z -> (a * 2 ^ k < m)%Z -> inject_Z a < inject_Z m * 2 ^ (- k).
Proof.
  intros K H. apply inj_lt in H. rewrite inject_Z_mult in H. pose proof (quotient m k K) as Q.
  assert (0 < inject_Z (2 ^ k)) by (change 0 with (inject_Z 0); apply inj_lt, Z.pow_pos_nonneg; lia).
  apply (Qmult_lt_r _ _ (inject_Z (2 ^ k)) H0). lra.
Qed.
Lemma down_ok m k : (0 < m)%Z -> (0 < k)%Z ->
  (0 <= down m (2 ^ k))%Z /\ inject_Z (down m (2 ^ k)) <= inject_Z m * 2 ^ (- k) < inject_Z (down m (2 ^ k)) + 1.
Proof.
  intros M K. unfold down. assert (P : (0 < 2 ^ k)%Z) by (apply Z.pow_pos_nonneg; lia).
  pose proof (Z.div_mod m (2 ^ k) ltac:(lia)) as D. pose proof (Z.mod_pos_bound m (2 ^ k) P) as B.
  split; [apply Z.div_pos; lia|]. split; [apply q_le; nia|]. change 1 with (inject_Z 1). rewrite <- inject_Z_plus. apply q_lt; nia.
Qed.
Lemma up_ok m k : (0 < m)%Z -> (0 < k)%Z ->
  (0 <= up m (2 ^ k))%Z /\ inject_Z (up m (2 ^ k)) - 1 < inject_Z m * 2 ^ (- k) <= inject_Z (up m (2 ^ k)).
Proof.
  intros M K. unfold up. assert (P : (0 < 2 ^ k)%Z) by (apply Z.pow_pos_nonneg; lia).
  pose proof (Z.div_mod (- m) (2 ^ k) ltac:(lia)) as D. pose proof (Z.mod_pos_bound (- m) (2 ^ k) P) as B.
  split; [nia|]. split; [|apply q_le'; nia].
  set (u := (- (- m / 2 ^ k))%Z). assert (H : inject_Z (u - 1) < inject_Z m * 2 ^ (- k)) by (apply q_lt'; unfold u; nia).
  unfold Z.sub in H. rewrite inject_Z_plus in H. change (inject_Z (- (1))) with (- (1)) in H. lra.
Qed.
Lemma half_ok m k : (0 < m)%Z -> (0 < k)%Z -> let n := ((2 * m + 2 ^ k) / (2 * 2 ^ k))%Z in
  (0 <= n)%Z /\ inject_Z n - (1 # 2) <= inject_Z m * 2 ^ (- k) < inject_Z n + (1 # 2).
Proof.
  intros M K. cbv zeta. assert (P : (0 < 2 ^ k)%Z) by (apply Z.pow_pos_nonneg; lia).
  pose proof (Z.div_mod (2 * m + 2 ^ k) (2 * 2 ^ k) ltac:(lia)) as D. pose proof (Z.mod_pos_bound (2 * m + 2 ^ k) (2 * 2 ^ k) ltac:(lia)) as B.
  set (n := ((2 * m + 2 ^ k) / (2 * 2 ^ k))%Z) in *. split; [apply Z.div_pos; lia|].
  assert (A : inject_Z (2 * n - 1) <= inject_Z (2 * m) * 2 ^ (- k)) by (apply q_le; nia).
  assert (C : inject_Z (2 * m) * 2 ^ (- k) < inject_Z (2 * n + 1)) by (apply q_lt; nia).
  unfold Z.sub in A. rewrite inject_Z_plus, !inject_Z_mult in A. rewrite inject_Z_plus, !inject_Z_mult in C.
  change (inject_Z 2) with 2 in *. change (inject_Z (- (1))) with (- (1)) in A. change (inject_Z 1) with 1 in C. lra.
Qed.

Definition floor_pick (s : bool) (m d : Z) := if s then up m d else down m d.
Lemma floor_pick_ok (s : bool) m k : (0 < m)%Z -> (0 < k)%Z ->
  (0 <= floor_pick s m (2 ^ k))%Z /\ is_floor (if s then - (inject_Z m * 2 ^ (- k)) else inject_Z m * 2 ^ (- k)) (if s then - floor_pick s m (2 ^ k) else floor_pick s m (2 ^ k)).
Proof.
  intros M K. destruct s; unfold floor_pick, is_floor.
  - destruct (up_ok m k M K) as [A B]. split; [exact A|]. rewrite inject_Z_opp. lra.
  - destruct (down_ok m k M K) as [A B]. split; [exact A|]. lra.
Qed.
Definition ceiling_pick (s : bool) (m d : Z) := if s then down m d else up m d.
Lemma ceiling_pick_ok (s : bool) m k : (0 < m)%Z -> (0 < k)%Z ->
  (0 <= ceiling_pick s m (2 ^ k))%Z /\ is_ceiling (if s then - (inject_Z m * 2 ^ (- k)) else inject_Z m * 2 ^ (- k)) (if s then - ceiling_pick s m (2 ^ k) else ceiling_pick s m (2 ^ k)).
Proof.
  intros M K. destruct s; unfold ceiling_pick, is_ceiling.
  - destruct (down_ok m k M K) as [A B]. split; [exact A|]. rewrite inject_Z_opp. lra.
  - destruct (up_ok m k M K) as [A B]. split; [exact A|]. lra.
Qed.
Lemma scaled_pos m k : (0 < m)%Z -> 0 < inject_Z m * 2 ^ k.
Proof. intros H. apply (scale_lt _ _ k) in H. change (inject_Z 0) with 0 in H. lra. Qed.
Definition truncation_pick (s : bool) (m d : Z) := down m d.
Lemma truncation_pick_ok (s : bool) m k : (0 < m)%Z -> (0 < k)%Z ->
  (0 <= truncation_pick s m (2 ^ k))%Z /\ is_truncation (if s then - (inject_Z m * 2 ^ (- k)) else inject_Z m * 2 ^ (- k)) (if s then - truncation_pick s m (2 ^ k) else truncation_pick s m (2 ^ k)).
Proof.
  intros M K. destruct (down_ok m k M K) as [A B]. unfold truncation_pick. split; [exact A|].
  pose proof (scaled_pos m (- k) M) as P. unfold is_truncation, is_floor, is_ceiling.
  destruct s; [rewrite inject_Z_opp|]; split; intros; lra.
Qed.
Definition nearest_pick (s : bool) (m d : Z) := ((2 * m + d) / (2 * d))%Z.
Lemma nearest_pick_ok (s : bool) m k : (0 < m)%Z -> (0 < k)%Z ->
  (0 <= nearest_pick s m (2 ^ k))%Z /\ is_nearest (if s then - (inject_Z m * 2 ^ (- k)) else inject_Z m * 2 ^ (- k)) (if s then - nearest_pick s m (2 ^ k) else nearest_pick s m (2 ^ k)).
Proof.
  intros M K. destruct (half_ok m k M K) as [A B]. unfold nearest_pick. set (n := ((2 * m + 2 ^ k) / (2 * 2 ^ k))%Z) in *.
  split; [exact A|]. pose proof (scaled_pos m (- k) M) as P. set (v := inject_Z m * 2 ^ (- k)) in *.
  assert (N0 : 0 <= inject_Z n) by (change 0 with (inject_Z 0); apply inj_le, A).
  assert (G : is_nearest v n).
  { split; [apply Qabs_Qle_condition; lra|]. rewrite (Qabs_pos v), (Qabs_pos (inject_Z n)) by lra. revert B. apply Qabs_case; intros; lra. }
  destruct s; [|exact G]. unfold is_nearest in *. rewrite inject_Z_opp.
  setoid_replace (- v - - inject_Z n) with (- (v - inject_Z n)) by ring. rewrite !Qabs_opp. exact G.
Qed.

(** *** Sign *)
Lemma abs_same x : same_number (SFabs x) (with_sign false x).
Proof. destruct x; cbn; auto; split; auto; split; reflexivity. Qed.

(** *** Fractions *)
(** What remains of a number of a format beside its integer part is of the format. *)
Lemma fraction_fits prec emax x n : (1 < prec)%Z -> (prec < emax)%Z -> (emin prec emax <= 0)%Z -> valid_binary prec emax x = true -> finite x ->
  is_truncation (value x) n ->
  magnitude prec emax (Qabs (value x - inject_Z n)) /\ Qabs (value x - inject_Z n) < limit prec emax.
Proof.
  intros H1 H2 H3 V F TN.
  assert (ZERO : value x - inject_Z n == 0 -> magnitude prec emax (Qabs (value x - inject_Z n)) /\ Qabs (value x - inject_Z n) < limit prec emax).
  { intros E. assert (Q0 : Qabs (value x - inject_Z n) == 0) by (rewrite E; reflexivity).
    split; [|rewrite Q0; apply limit_pos; assumption]. apply (magnitude_eq _ _ _ _ Q0). exists 0%Z, 0%Z. split; [reflexivity|].
    split; [split; [lia|apply Z.pow_pos_nonneg; lia]|exact H3]. }
  destruct x as [s|s| |s m e]; try contradiction.
  - apply ZERO. apply (truncation_eq _ (inject_Z 0)) in TN; [|reflexivity]. apply truncation_int in TN. subst. reflexivity.
  - pose proof V as V0. apply (bounded_spec prec emax H1) in V0. destruct V0 as (A & B & _).
    destruct (Z.le_gt_cases 0 e) as [L|L].
    + assert (EV : value (S754_finite s m e) == inject_Z ((if s then Zneg m else Zpos m) * 2 ^ e)) by (cbn [value]; rewrite (pow2_Z e L), inject_Z_mult; reflexivity).
      apply ZERO. apply (truncation_eq _ _ _ EV), truncation_int in TN. rewrite TN. lra.
    + (* a multiple of 2^e *)
      set (k := ((if s then Zneg m else Zpos m) - n * 2 ^ (- e))%Z).
      assert (EV : value (S754_finite s m e) - inject_Z n == inject_Z k * 2 ^ e).
      { cbn [value]. unfold k, Z.sub. rewrite inject_Z_plus, inject_Z_opp, inject_Z_mult, <- pow2_Z by lia.
        assert (H : 2 ^ (- e) * 2 ^ e == 1) by (rewrite <- pow2_add; replace (- e + e)%Z with 0%Z by lia; reflexivity).
        assert (H4 : inject_Z n * 2 ^ (- e) * 2 ^ e == inject_Z n) by (rewrite <- Qmult_assoc, H; ring). lra. }
      assert (AB : Qabs (inject_Z k * 2 ^ e) == inject_Z (Z.abs k) * 2 ^ e).
      { rewrite Qabs_Qmult, (Qabs_pos (2 ^ e)) by (apply Qlt_le_weak, pow2_pos). reflexivity. }
      assert (KB : (Z.abs k <= Zpos m)%Z).
      { assert (H : Qabs (value (S754_finite s m e) - inject_Z n) <= Qabs (value (S754_finite s m e))).
        { set (v := value (S754_finite s m e)) in *. destruct TN as [T1 T2]. unfold is_floor, is_ceiling in *.
          destruct (Qlt_le_dec v 0) as [G|G].
          - specialize (T2 ltac:(lra)). assert (inject_Z n <= 0).
            { destruct (Z.le_gt_cases n 0) as [Z1|Z1]; [apply inj_le in Z1; exact Z1|].
              assert (Z2 : (1 <= n)%Z) by lia. apply inj_le in Z2. change (inject_Z 1) with 1 in Z2. lra. }
            rewrite !Qabs_neg by lra. lra.
          - specialize (T1 G). assert (0 <= inject_Z n).
            { destruct (Z.le_gt_cases 0 n) as [Z1|Z1]; [apply inj_le in Z1; exact Z1|].
              assert (Z2 : (n <= -1)%Z) by lia. apply inj_le in Z2. change (inject_Z (-1)) with (- (1)) in Z2. lra. }
            rewrite !Qabs_pos by lra. lra. }
        rewrite EV, AB in H. cbn [value] in H. rewrite inj_opp_if, signed_abs in H by (apply Qlt_le_weak, pos_scale).
        destruct (Z.le_gt_cases (Z.abs k) (Zpos m)) as [|G]; [assumption|]. apply (scale_lt _ _ e) in G. lra. }
      split; [|rewrite EV, AB].
      * exists (Z.abs k), e. split; [rewrite EV; exact AB|]. split; [lia|]. lia.
      * apply Qle_lt_trans with (inject_Z (Zpos m) * 2 ^ e); [apply scale_le, KB|].
        pose proof (valid_limit prec emax H1 _ V I) as VL. cbn [value] in VL.
        rewrite inj_opp_if, signed_abs in VL by (apply Qlt_le_weak, pos_scale). exact VL.
Qed.
Lemma frac64 x : is_F64 x -> finite x ->
  finite (F64_Frac x) /\ is_F64 (F64_Frac x) /\ negative (F64_Frac x) = negative x /\ value (F64_Frac x) == value x - value (F64_Trunc x).
Proof.
  intros V F. unfold F64_Frac, F64_Trunc, math_Modf. cbn [snd].
  assert (T : integer_of is_truncation x (math_Trunc x) /\ is_F64 (math_Trunc x)).
  { apply (part64 is_truncation truncation_eq truncation_int truncation_near truncation_pick truncation_pick_ok x V). }
  destruct T as [T VT]. set (i := math_Trunc x) in *.
  assert (K : finite i /\ negative i = negative x /\ exists n, value i == inject_Z n /\ is_truncation (value x) n).
  { destruct x as [s|s| |s m e]; try contradiction; cbn [integer_of negative] in *.
    - rewrite T. cbn [finite negative value]. split; [exact I|]. split; [reflexivity|]. exists 0%Z. split; [reflexivity|].
      apply (truncation_eq (inject_Z 0)); [reflexivity|]. apply truncation_int. reflexivity.
    - exact T. }
  clear T. destruct K as (FI & NI & n & EI & TN).
  destruct (sub_ok 53 1024 ltac:(lia) ltac:(lia) x i V VT F FI) as [R S].
  set (d := SFsub 53 1024 x i) in *.
  (* the difference is of the format *)
  assert (EX : finite d /\ value d == value x - value i).
  { destruct (fraction_fits 53 1024 x n ltac:(lia) ltac:(lia) ltac:(discriminate) V F TN) as [M0 LI0].
    assert (QE : Qabs (value x - value i) == Qabs (value x - inject_Z n)) by (rewrite EI; reflexivity).
    pose proof (magnitude_eq _ _ _ _ QE M0) as M. assert (LI : Qabs (value x - value i) < limit 53 1024) by (rewrite QE; exact LI0). clear M0 LI0 QE.
    assert (Z : exists z, valid_binary 53 1024 z = true /\ finite z /\ value z == value x - value i).
    { destruct M as (a & b & Ea & Bd). set (v := value x - value i) in *.
      destruct a as [|p|p]; [..|lia].
      - exists (S754_zero false). split; [reflexivity|]. split; [exact I|]. cbn [value].
        change (inject_Z 0) with 0 in Ea. assert (Q0 : Qabs v == 0) by (rewrite Ea; ring). apply Qabs_eq0 in Q0. lra.
      - destruct (exact_round 53 1024 ltac:(lia) ltac:(lia) (if Qlt_le_dec v 0 then true else false) p b) as (X1 & X2 & X3 & X4).
        + exists (Zpos p), b. split; [reflexivity|exact Bd].
        + rewrite <- Ea. exact LI.
        + eexists. split; [exact X1|]. split; [exact X2|]. rewrite X3. cbn [value]. rewrite inj_opp_if.
          destruct (Qlt_le_dec v 0); rewrite <- Ea; [rewrite Qabs_neg by lra; ring|apply Qabs_pos; assumption]. }
    destruct Z as (z & Z1 & Z2 & Z3). apply (rounds_representable 53 1024 ltac:(lia) (value x - value i) d z R Z1 Z2 Z3). }
  destruct EX as [FD ED].
  assert (WS : forall s, finite (with_sign s d) /\ is_F64 (with_sign s d) /\ negative (with_sign s d) = s).
  { intros s. destruct R as [VD _]. destruct d as [s'|s'| |s' m' e']; try contradiction; cbn; auto. }
  assert (SB : sign_bit x = negative x) by (destruct x; reflexivity). rewrite SB.
  destruct (WS (negative x)) as (W1 & W2 & W3). split; [exact W1|]. split; [exact W2|]. split; [exact W3|]. rewrite <- ED.
  destruct d as [s'|s'| |s' m' e'] eqn:Ed; try contradiction; [reflexivity|].
  (* the difference already has the sign of x *)
  replace (negative x) with s'; [reflexivity|].
  pose proof (value_sign s' m' e') as VS. pose proof (value_nonzero s' m' e') as VN. rewrite ED in VS, VN.
  destruct x as [s|s| |s m e]; try contradiction.
  - exfalso. apply VN. apply (truncation_eq _ (inject_Z 0)) in TN; [|reflexivity]. apply truncation_int in TN. subst. rewrite EI. reflexivity.
  - cbn [negative]. pose proof (value_sign s m e) as VX. set (v := value (S754_finite s m e)) in *. rewrite EI in *.
    destruct TN as [T1 T2]. unfold is_floor, is_ceiling in *.
    destruct s, s'; try reflexivity; exfalso.
    + assert (v < 0) by (apply VX; reflexivity). specialize (T2 ltac:(lra)).
      assert (v - inject_Z n < 0) by lra. apply VS in H0. discriminate.
    + assert (K : v - inject_Z n < 0) by (apply VS; reflexivity). destruct (Qlt_le_dec v 0) as [G|G]; [apply VX in G; discriminate|].
      specialize (T1 G). lra.
Qed.

Lemma frac32 x : is_F32 x -> finite x ->
  finite (F32_Frac x) /\ is_F32 (F32_Frac x) /\ negative (F32_Frac x) = negative x /\ value (F32_Frac x) == value x - value (F32_Trunc x).
Proof.
  intros V F. destruct (widen x V) as [S W]. destruct (same_finite _ _ S F) as (F2 & E2 & N2).
  destruct (frac64 _ W F2) as (A & B & C & D).
  destruct (part32 is_truncation truncation_eq truncation_int truncation_near truncation_pick truncation_pick_ok x V) as [T32 _].
  destruct (part64 is_truncation truncation_eq truncation_int truncation_near truncation_pick truncation_pick_ok _ W) as [T64 _].
  change (to32 (integer_part truncation_pick (to64 x))) with (F32_Trunc x) in T32.
  change (integer_part truncation_pick (to64 x)) with (F64_Trunc (to64 x)) in T64.
  assert (UQ : forall v a b, is_truncation v a -> is_truncation v b -> a = b).
  { intros v a b [A1 A2] [B1 B2]. unfold is_floor, is_ceiling in *.
    destruct (Qlt_le_dec v 0) as [G|G].
    - specialize (A2 ltac:(lra)). specialize (B2 ltac:(lra)). assert (K1 : inject_Z a < inject_Z b + 1) by lra. assert (K2 : inject_Z b < inject_Z a + 1) by lra.
      apply int_of_lt in K1, K2. lia.
    - specialize (A1 G). specialize (B1 G). assert (K1 : inject_Z a < inject_Z b + 1) by lra. assert (K2 : inject_Z b < inject_Z a + 1) by lra.
      apply int_of_lt in K1, K2. lia. }
  assert (TV : exists n, is_truncation (value x) n /\ value (F64_Trunc (to64 x)) == inject_Z n /\ value (F32_Trunc x) == inject_Z n).
  { destruct x as [s|s| |s m e]; try contradiction; cbn [integer_of] in T32.
    - exists 0%Z. split; [apply (truncation_eq (inject_Z 0)); [reflexivity|]; apply truncation_int; reflexivity|].
      split; [reflexivity|]. rewrite T32. reflexivity.
    - destruct T32 as (_ & _ & n & E32 & P32). exists n. split; [exact P32|]. split; [|exact E32].
      destruct (to64 (S754_finite s m e)) as [s'|s'| |s' m' e'] eqn:ET; try contradiction; cbn [integer_of] in T64.
      + exfalso. symmetry in E2. revert E2. apply value_nonzero.
      + destruct T64 as (_ & _ & k & E64 & P64). apply (truncation_eq _ _ _ E2) in P64. rewrite (UQ _ _ _ P32 P64). exact E64. }
  destruct TV as (n & TN & E64 & E32).
  destruct (fraction_fits 24 128 x n ltac:(lia) ltac:(lia) ltac:(discriminate) V F TN) as [M L].
  assert (VF : value (F64_Frac (to64 x)) == value x - inject_Z n) by (rewrite D, E2, E64; reflexivity).
  assert (QF : Qabs (value (F64_Frac (to64 x))) == Qabs (value x - inject_Z n)) by (rewrite VF; reflexivity).
  destruct (convert_exact 24 128 ltac:(lia) ltac:(lia) (F64_Frac (to64 x)) A (magnitude_eq _ _ _ _ QF M) ltac:(rewrite QF; exact L)) as (X1 & X2 & X3).
  change (convert 24 128 (F64_Frac (to64 x))) with (F32_Frac x) in *.
  split; [exact X1|]. split; [apply convert_valid; lia|]. split; [rewrite X3, C; exact N2|]. rewrite X2, VF, E32. reflexivity.
Qed.
(** Down to single precision and up again. *)
Lemma narrow_exact x y : is_F32 x -> is_F64 y -> same_number x y -> to32 y = x.
Proof.
  intros V W S. destruct x as [s|s| |s m e].
  - destruct S as (F & E & N). destruct y as [s'|s'| |s' m' e']; try contradiction; cbn in *; [congruence|].
    exfalso. revert E. apply (value_nonzero s' m' e').
  - cbn in S. subst. reflexivity.
  - cbn in S. subst. reflexivity.
  - destruct S as (F & E & N).
    destruct (convert_exact 24 128 ltac:(lia) ltac:(lia) y F) as (X1 & X2 & X3).
    + apply (magnitude_eq _ _ _ (Qabs (value (S754_finite s m e)))); [rewrite E; reflexivity|]. apply (valid_magnitude 24 128 ltac:(lia) _ V I).
    + rewrite E. apply (valid_limit 24 128 ltac:(lia) _ V I).
    + apply (valid_inj 24 128 ltac:(lia)); [apply convert_valid; lia|exact V|exact X1|exact I|unfold to32; rewrite X2; exact E|unfold to32; rewrite X3; exact N].
Qed.

(** *** Square roots *)
Lemma sqrt32 s m e : is_F32 (S754_finite s m e) -> s = false -> sqrt_rounds_to 24 128 (value (S754_finite s m e)) (F32_Sqrt (S754_finite s m e)).
Proof.
  intros V ->. destruct (widen _ V) as [S W]. destruct (same_finite _ _ S I) as (F2 & E2 & N2).
  unfold F32_Sqrt. set (y := to64 (S754_finite false m e)) in *. clearbody y.
  destruct y as [s'|s'| |s' m' e']; try contradiction.
  - exfalso. symmetry in E2. revert E2. apply value_nonzero.
  - cbn [negative] in N2. subst s'. destruct (sqrt_twice m e m' e' V W E2) as (p & k & p' & k' & R1 & R2 & R3).
    unfold math_Sqrt. rewrite R1. cbn [to32 convert]. unfold to32. cbn [convert]. rewrite R2. exact R3.
Qed.

(** *** Products of single-precision numbers are exact in double precision *)
Lemma product_exact x y : is_F32 x -> is_F32 y -> finite x -> finite y ->
  exists z, is_F64 z /\ finite z /\ value z == value x * value y.
Proof.
  intros Vx Vy Fx Fy. destruct x as [sx|sx| |sx mx ex]; try contradiction.
  - exists (S754_zero false). split; [reflexivity|]. split; [exact I|]. cbn [value]. ring.
  - destruct y as [sy|sy| |sy my ey]; try contradiction.
    + exists (S754_zero false). split; [reflexivity|]. split; [exact I|]. cbn [value]. ring.
    + pose proof Vx as Vx0. pose proof Vy as Vy0. apply (bounded_spec 24 128 ltac:(lia)) in Vx0, Vy0.
      destruct Vx0 as (A & B & _), Vy0 as (A' & B' & _). change (SpecFloat.emin 24 128) with (-149)%Z in *.
      destruct (exact_round 53 1024 ltac:(lia) ltac:(lia) (xorb sx sy) (mx * my) (ex + ey)) as (X1 & X2 & X3 & X4).
      * exists (Zpos (mx * my)), (ex + ey)%Z. split; [reflexivity|]. change (SpecFloat.emin 53 1024) with (-1074)%Z.
        rewrite Pos2Z.inj_mul. assert (2 ^ 24 * 2 ^ 24 <= 2 ^ 53)%Z by (vm_compute; discriminate). nia.
      * apply Qlt_le_trans with (inject_Z (2 ^ 48) * 2 ^ (ex + ey)).
        -- apply scale_lt. rewrite Pos2Z.inj_mul. change (2 ^ 48)%Z with (2 ^ 24 * 2 ^ 24)%Z. nia.
        -- pose proof (pow2_mono (ex + ey) 208 ltac:(lia)) as K. apply Qle_trans with (inject_Z (2 ^ 48) * 2 ^ 208); [|apply Qle_bool_iff; vm_compute; reflexivity].
           assert (0 < inject_Z (2 ^ 48)) by reflexivity. nra.
      * eexists. split; [exact X1|]. split; [exact X2|]. rewrite X3. cbn [value]. rewrite !inj_opp_if, Pos2Z.inj_mul.
        destruct sx, sy; cbn [xorb]; rewrite inject_Z_mult, pow2_add; ring.
Qed.
Lemma widened_product x y : is_F32 x -> is_F32 y -> finite x -> finite y ->
  finite (SFmul 53 1024 (to64 x) (to64 y)) /\ is_F64 (SFmul 53 1024 (to64 x) (to64 y)) /\ value (SFmul 53 1024 (to64 x) (to64 y)) == value x * value y.
Proof.
  intros Vx Vy Fx Fy. destruct (widen x Vx) as [Sx Wx], (widen y Vy) as [Sy Wy].
  destruct (same_finite _ _ Sx Fx) as (Fx' & Ex & _), (same_finite _ _ Sy Fy) as (Fy' & Ey & _).
  destruct (mul_ok 53 1024 ltac:(lia) ltac:(lia) _ _ Wx Wy Fx' Fy') as [R _].
  destruct (product_exact x y Vx Vy Fx Fy) as (z & Z1 & Z2 & Z3).
  destruct (rounds_representable 53 1024 ltac:(lia) _ _ z R Z1 Z2) as [K1 K2]; [rewrite Z3, Ex, Ey; reflexivity|].
  split; [exact K1|]. split; [apply R|]. rewrite K2, Ex, Ey. reflexivity.
Qed.
