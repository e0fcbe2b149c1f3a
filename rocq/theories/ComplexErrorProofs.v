(** ComplexErrorProofs.v -- how far a rounded number is from the exact one. *)
From Coq Require Import ZArith QArith Qabs Qpower Lia Lqa Bool Floats.SpecFloat.
From Verif Require Import FloatSpec FloatCoreProofs FloatRoundProofs FloatOpsProofs FloatModel FloatProofs.
Local Open Scope Q_scope.

Lemma abs_cases x : (0 <= x /\ Qabs x == x) \/ (x <= 0 /\ Qabs x == - x).
Proof. destruct (Qlt_le_dec x 0) as [L|L]; [right|left]; split; try lra; [apply Qabs_neg|apply Qabs_pos]; lra. Qed.
Ltac qabs1 x :=
  let E := fresh in let t := fresh "t" in
  pose proof (abs_cases x) as E; set (t := Qabs x) in *; clearbody t; destruct E as [[? ?]|[? ?]].
Ltac qabs := repeat match goal with |- context [Qabs ?x] => qabs1 x | H : context [Qabs ?x] |- _ => qabs1 x end.

Lemma rounds_small v r : rounds_to 53 1024 v r -> Qabs v <= 2 ^ 1000 ->
  finite r /\ is_F64 r /\ forall y, valid_binary 53 1024 y = true -> finite y -> Qabs (v - value r) <= Qabs (v - value y).
Proof.
  intros [V R] L.
  assert (LL : (2 ^ 1000 < limit 53 1024)) by reflexivity.
  destruct r as [s|s| |s m e]; try contradiction.
  - split; [exact I|]. split; [exact V|]. intros y Vy Fy. apply R; assumption.
  - exfalso. pose proof (Qle_Qabs v). pose proof (Qle_Qabs (- v)) as H0. rewrite Qabs_opp in H0. destruct s; lra.
  - split; [exact I|]. split; [exact V|]. intros y Vy Fy. apply R; assumption.
Qed.
Lemma rounds_err v r : rounds_to 53 1024 v r -> Qabs v <= 2 ^ 1000 ->
  Qabs (value r - v) <= (1 # 2 ^ 53) * Qabs (value r) + 2 ^ (-1075).
Proof.
  intros R L. destruct (rounds_small v r R L) as (F & V & N). clear R.
  pose proof (N (S754_zero false) eq_refl I) as N0. cbn [value] in N0.
  assert (EX : forall s m e, magnitude 53 1024 (inject_Z (Zpos m) * 2 ^ e) -> inject_Z (Zpos m) * 2 ^ e < limit 53 1024 ->
    Qabs (v - value r) <= Qabs (v - value (S754_finite s m e))).
  { intros s m e M Lm. destruct (exact_round 53 1024 ltac:(lia) ltac:(lia) s m e M Lm) as (A & B & E & _).
    specialize (N _ A B). rewrite E in N. exact N. }
  clear N.
  destruct r as [s|s| |s m e]; try contradiction; cbn [value] in *.
  - assert (E1 : 2 ^ (-1074) == 2 * 2 ^ (-1075)) by reflexivity.
    pose proof (EX false 1%positive (-1074)%Z) as E2. pose proof (EX true 1%positive (-1074)%Z) as E3.
    assert (MG : magnitude 53 1024 (inject_Z 1 * 2 ^ (-1074))) by (exists 1%Z, (-1074)%Z; split; [reflexivity|]; split; [split; [discriminate|reflexivity]|discriminate]).
    specialize (E2 MG eq_refl). specialize (E3 MG eq_refl). cbn [value] in E2, E3.
    change (inject_Z 1) with 1 in E2. change (inject_Z (-1)) with (-(1)) in E3. 
    change (Qabs 0) with 0. rewrite Qmult_0_r. set (eta := 2 ^ (-1075)) in *. rewrite E1 in E2, E3. clear E1. assert (0 < eta) by reflexivity. clearbody eta.
    clear - E2 E3 H. qabs; lra.
  - pose proof V as VV. cbn [is_F64 valid_binary] in VV. unfold is_F64 in VV. cbn [valid_binary] in VV.
    apply (bounded_spec 53 1024 ltac:(lia)) in VV. destruct VV as ([A1 A2] & B & C). change (SpecFloat.emin 53 1024) with (-1074)%Z in *.
    change (1024 - 53)%Z with 971%Z in *. change (53 - 1)%Z with 52%Z in C.
    (* the size of the result *)
    assert (SZ : inject_Z (Zpos m) * 2 ^ e <= 2 ^ 1001).
    { assert (E1 : 2 ^ 1001 == 2 * 2 ^ 1000) by reflexivity. rewrite E1. clear E1.
      rewrite inj_opp_if in N0. pose proof (pos_scale m e) as P. set (x := inject_Z (Zpos m) * 2 ^ e) in *. set (K := 2 ^ 1000) in *. clearbody x K.
      clear - L N0 P. destruct s; qabs; lra. }
    assert (MU : forall k, (0 <= Zpos k <= 2 ^ 53)%Z -> magnitude 53 1024 (inject_Z (Zpos k) * 2 ^ e)).
    { intros k Hk. destruct (Z.eq_dec (Zpos k) (2 ^ 53)) as [Ek|Nk].
      - exists (2 ^ 52)%Z, (e + 1)%Z. rewrite Ek. rewrite pow2_double. split; [|split; [split; [discriminate|reflexivity]|change (SpecFloat.emin 53 1024) with (-1074)%Z; lia]].
        change (inject_Z (2 ^ 53)) with (2 * inject_Z (2 ^ 52)). ring.
      - exists (Zpos k), e. split; [reflexivity|]. split; [lia|exact A1]. }
    assert (UP : Qabs (v - value (S754_finite s m e)) <= Qabs (v - value (S754_finite s (m + 1) e))).
    { apply EX; [apply MU; lia|].
      apply Qle_lt_trans with (2 * (inject_Z (Zpos m) * 2 ^ e)).
      - rewrite Pos2Z.inj_add, inject_Z_plus. pose proof (pow2_pos e). assert (1 <= inject_Z (Zpos m)) by (change 1 with (inject_Z 1); apply inj_le; lia).
        change (inject_Z 1) with 1. nra.
      - apply Qle_lt_trans with (2 * 2 ^ 1001); [lra|reflexivity]. }
    assert (DOWN : Qabs (v - value (S754_finite s m e)) <= Qabs (v - inject_Z (if s then - (Zpos m - 1) else Zpos m - 1) * 2 ^ e)).
    { destruct (Pos.eq_dec m 1) as [->|M1].
      - replace (inject_Z (if s then - (1 - 1) else 1 - 1)) with (inject_Z 0) by (destruct s; reflexivity).
        assert (E0 : v - inject_Z 0 * 2 ^ e == v - 0) by (change (inject_Z 0) with 0; ring). rewrite E0. exact N0.
      - pose proof (EX s (Pos.pred m) e) as H. 
        assert (EP : (Zpos (Pos.pred m) = Zpos m - 1)%Z) by lia.
        assert (H2 : value (S754_finite s (Pos.pred m) e) == inject_Z (if s then - (Zpos m - 1) else Zpos m - 1) * 2 ^ e).
        { cbn [value]. destruct s; [|rewrite EP; reflexivity]. rewrite <- EP. reflexivity. }
        rewrite <- H2. apply H; [apply MU; lia|].
        apply Qle_lt_trans with (2 ^ 1001); [|reflexivity]. eapply Qle_trans; [|exact SZ]. apply scale_le. lia. }
    cbn [value] in UP, DOWN. rewrite !inj_opp_if in *.
    assert (DX : inject_Z (if s then - (Zpos m - 1) else Zpos m - 1) * 2 ^ e == if s then - (inject_Z (Zpos m) * 2 ^ e - 2 ^ e) else inject_Z (Zpos m) * 2 ^ e - 2 ^ e).
    { destruct s; rewrite ?inject_Z_opp; unfold Z.sub; rewrite inject_Z_plus; change (inject_Z (-(1))) with (-(1)); ring. }
    assert (UX : inject_Z (Zpos (m + 1)) * 2 ^ e == inject_Z (Zpos m) * 2 ^ e + 2 ^ e).
    { rewrite Pos2Z.inj_add, inject_Z_plus. change (inject_Z 1) with 1. ring. }
    rewrite DX in DOWN. clear DX.
    assert (HALF : Qabs ((if s then - (inject_Z (Zpos m) * 2 ^ e) else inject_Z (Zpos m) * 2 ^ e) - v) <= (1 # 2) * 2 ^ e).
    { pose proof (pow2_pos e) as P. destruct s; [|]; rewrite UX in UP; clear UX;
        set (x := inject_Z (Zpos m) * 2 ^ e) in *; set (t := 2 ^ e) in *; clearbody x t; clear - UP DOWN P;
        qabs; lra. }
    eapply Qle_trans; [exact HALF|]. pose proof (pos_scale m e) as P.
    rewrite signed_abs by lra.
    destruct (Z.eq_dec e (-1074)) as [->|Ne].
    + assert (E1 : 2 ^ (-1074) == 2 * 2 ^ (-1075)) by reflexivity. rewrite E1 at 1. set (eta := 2 ^ (-1075)) in *.
      set (x := inject_Z (Zpos m) * 2 ^ (-1074)) in *. assert (0 <= (1 # 2 ^ 53) * x) by (apply Qmult_le_0_compat; [discriminate|lra]). lra.
    + assert (C' : (2 ^ 52 <= Zpos m)%Z) by (apply C; lia). apply (scale_le _ _ e) in C'.
      assert (E2 : (1 # 2 ^ 53) * (inject_Z (2 ^ 52) * 2 ^ e) == (1 # 2) * 2 ^ e).
      { setoid_replace ((1 # 2 ^ 53) * (inject_Z (2 ^ 52) * 2 ^ e)) with (((1 # 2 ^ 53) * inject_Z (2 ^ 52)) * 2 ^ e) by ring.
        apply Qmult_comp; reflexivity. }
      rewrite <- E2. assert (0 <= 2 ^ (-1075)) by discriminate.
      assert ((1 # 2 ^ 53) * (inject_Z (2 ^ 52) * 2 ^ e) <= (1 # 2 ^ 53) * (inject_Z (Zpos m) * 2 ^ e)).
      { apply Qmult_le_l; [reflexivity|exact C']. }
      lra.
Qed.

(** *** Relative errors *)
(** [y] is [x] up to the part [al] of it. *)
Definition rel (al x y : Q) : Prop := Qabs (y - x) <= al * Qabs x.
(** A unit in the last place, a little more than half of one. *)
Definition ulp : Q := (1 # 2 ^ 53) * (1 + (1 # 2 ^ 40)).
Lemma rounds_zero v r : rounds_to 53 1024 v r -> v == 0 -> finite r /\ value r == 0.
Proof.
  intros R E. destruct (rounds_representable 53 1024 ltac:(lia) v r (S754_zero false) R eq_refl I) as [F V]; [symmetry; exact E|].
  split; [exact F|]. rewrite V. exact E.
Qed.
Lemma rounds_rel v r : rounds_to 53 1024 v r -> v == 0 \/ 2 ^ (-950) <= Qabs v <= 2 ^ 1000 -> finite r /\ is_F64 r /\ rel ulp v (value r).
Proof.
  intros R [Z|[L U]].
  - destruct (rounds_zero v r R Z) as [F E]. split; [exact F|]. split; [apply R|]. unfold rel. rewrite E, Z. discriminate.
  - destruct (rounds_small v r R U) as (F & V & _). split; [exact F|]. split; [exact V|].
    pose proof (rounds_err v r R U) as H. unfold rel.
    assert (T : Qabs (value r) <= Qabs v + Qabs (value r - v)).
    { pose proof (Qabs_triangle v (value r - v)) as T. setoid_replace (v + (value r - v)) with (value r) in T by ring. exact T. }
    assert (E : 2 ^ (-1075) <= (1 # 2 ^ 100) * Qabs v).
    { apply Qle_trans with ((1 # 2 ^ 100) * 2 ^ (-950)); [discriminate|]. apply Qmult_le_l; [reflexivity|exact L]. }
    set (x := Qabs (value r - v)) in *. set (y := Qabs (value r)) in *. set (t := Qabs v) in *. set (eta := 2 ^ (-1075)) in *.
    assert (T0 : 0 <= t) by apply Qabs_nonneg. clearbody x y t eta. unfold ulp. change (1 # 2 ^ 53) with (1 # 9007199254740992) in *.
    change (1 # 2 ^ 40) with (1 # 1099511627776) in *. change (1 # 2 ^ 100) with (1 # 1267650600228229401496703205376) in *. lra.
Qed.
Lemma rounds_abs v r : rounds_to 53 1024 v r -> Qabs v <= 2 ^ 1000 -> Qabs (value r - v) <= ulp * Qabs v + 2 ^ (-1074).
Proof.
  intros R U. pose proof (rounds_err v r R U) as H.
  assert (T : Qabs (value r) <= Qabs v + Qabs (value r - v)).
  { pose proof (Qabs_triangle v (value r - v)) as T. setoid_replace (v + (value r - v)) with (value r) in T by ring. exact T. }
  assert (E : 2 ^ (-1074) == 2 * 2 ^ (-1075)) by reflexivity. rewrite E. clear E. assert (0 < 2 ^ (-1075)) by reflexivity.
  set (x := Qabs (value r - v)) in *. set (y := Qabs (value r)) in *. set (t := Qabs v) in *. set (eta := 2 ^ (-1075)) in *.
  assert (T0 : 0 <= t) by apply Qabs_nonneg. clearbody x y t eta. unfold ulp. change (1 # 2 ^ 53) with (1 # 9007199254740992) in *.
  change (1 # 2 ^ 40) with (1 # 1099511627776) in *. lra.
Qed.

Lemma rel_eq al x x' y : x == x' -> rel al x y -> rel al x' y.
Proof. unfold rel. intros E H. rewrite <- E. exact H. Qed.
Lemma rel_abs al x y : rel al x y -> (1 - al) * Qabs x <= Qabs y <= (1 + al) * Qabs x.
Proof.
  unfold rel. intros H.
  pose proof (Qabs_triangle x (y - x)) as T. setoid_replace (x + (y - x)) with y in T by ring.
  pose proof (Qabs_triangle y (x - y)) as T2. setoid_replace (y + (x - y)) with x in T2 by ring. rewrite (Qabs_Qminus x y) in T2. lra.
Qed.
(** One more rounding. *)
Lemma rel_trans al be x y z : 0 <= al -> 0 <= be -> rel al x y -> rel be y z -> rel (al + be + al * be) x z.
Proof.
  unfold rel. intros A B H K.
  assert (T : Qabs (z - x) <= Qabs (z - y) + Qabs (y - x)).
  { pose proof (Qabs_triangle (z - y) (y - x)) as T. setoid_replace (z - y + (y - x)) with (z - x) in T by ring. exact T. }
  assert (T2 : Qabs y <= Qabs x + Qabs (y - x)).
  { pose proof (Qabs_triangle x (y - x)) as T2. setoid_replace (x + (y - x)) with y in T2 by ring. exact T2. }
  pose proof (Qabs_nonneg x). set (X := Qabs x) in *. set (Y := Qabs y) in *. set (P := Qabs (z - x)) in *. set (R := Qabs (z - y)) in *. set (S := Qabs (y - x)) in *.
  clearbody X Y P R S. nra.
Qed.
Lemma rel_mult al x y w : rel al x y -> rel al (x * w) (y * w).
Proof.
  unfold rel. intros H. setoid_replace (y * w - x * w) with ((y - x) * w) by ring. rewrite !Qabs_Qmult.
  pose proof (Qabs_nonneg w). rewrite Qmult_assoc. apply Qmult_le_compat_r; assumption.
Qed.
(** Adding a number on the same side. *)
Lemma rel_plus al c x y : 0 <= al -> 0 <= c * x -> rel al x y -> rel al (c + x) (c + y).
Proof.
  unfold rel. intros A S H. setoid_replace (c + y - (c + x)) with (y - x) by ring. eapply Qle_trans; [exact H|].
  assert (Qabs x <= Qabs (c + x)) by (clear H; qabs; nra).
  pose proof (Qabs_nonneg x). nra.
Qed.

(** *** Smith's algorithm *)
Definition tiny : Q := 1 # 2 ^ 100.
Lemma abs_le_of_square x y : 0 <= y -> x * x <= y * y -> Qabs x <= y.
Proof. intros Y H. apply Qabs_Qle_condition. split; nra. Qed.
Lemma smith_error a b c d r M rh ph Dh qh Nh e eta eta' :
  ~ c == 0 -> r * c == d ->
  rel ulp r rh -> rel ulp (rh * d) ph -> rel ulp (c + ph) Dh -> rel ulp (b * rh) qh ->
  Qabs (Nh - (a + qh)) <= ulp * Qabs (a + qh) + eta ->
  Qabs (e - Nh / Dh) <= ulp * Qabs (Nh / Dh) + eta' ->
  0 <= M -> Qabs (a + b * r) <= M * Qabs (c + r * d) -> Qabs (b * r) <= M * Qabs (c + r * d) ->
  eta <= tiny * (M * Qabs (c + r * d)) -> eta' <= tiny * M ->
  Qabs (e - (a + b * r) / (c + r * d)) <= (1 # 2 ^ 50) * M.
Proof.
  intros C0 RC R1 R2 R3 R4 R5 R6 M0 B1 B2 T1 T2.
  assert (U0 : 0 <= ulp) by discriminate.
  set (D := c + r * d) in *. set (N := a + b * r) in *.
  assert (SQ : D * c == c * c + d * d) by (unfold D; rewrite <- RC; ring).
  assert (D0 : ~ D == 0) by (intros E; rewrite E in SQ; assert (~ c * c == 0) by (intros K; apply Qmult_integral in K; tauto); nra).
  (* the denominator *)
  pose (be := ulp + ulp + ulp * ulp).
  assert (P1 : rel be (r * d) ph) by (apply (rel_trans ulp ulp _ (rh * d)); auto; apply rel_mult, R1).
  assert (B0 : 0 <= be) by discriminate.
  pose (ga := be + ulp + be * ulp).
  assert (P2 : rel ga D Dh).
  { apply (rel_trans be ulp _ (c + ph)); auto. unfold D. apply rel_plus; auto.
    rewrite <- RC. setoid_replace (c * (r * (r * c))) with ((r * c) * (r * c)) by ring. nra. }
  (* the numerator *)
  assert (P3 : rel be (b * r) qh).
  { apply (rel_trans ulp ulp _ (b * rh)); auto. apply (rel_eq _ (r * b)); [ring|].
    assert (R1' : rel ulp (r * b) (rh * b)) by apply rel_mult, R1. unfold rel in *. setoid_replace (b * rh - r * b) with (rh * b - r * b) by ring. exact R1'. }
  assert (P4 : Qabs (Nh - N) <= (ulp + (1 + ulp) * be + tiny) * (M * Qabs D)).
  { unfold rel in P3. assert (T : Qabs (Nh - N) <= Qabs (Nh - (a + qh)) + Qabs (qh - b * r)).
    { pose proof (Qabs_triangle (Nh - (a + qh)) (qh - b * r)) as T. unfold N. setoid_replace (Nh - (a + qh) + (qh - b * r)) with (Nh - (a + b * r)) in T by ring. exact T. }
    assert (T' : Qabs (a + qh) <= Qabs N + Qabs (qh - b * r)).
    { pose proof (Qabs_triangle N (qh - b * r)) as T'. unfold N in *. setoid_replace (a + b * r + (qh - b * r)) with (a + qh) in T' by ring. exact T'. }
    set (x1 := Qabs (Nh - N)) in *. set (x2 := Qabs (Nh - (a + qh))) in *. set (x3 := Qabs (qh - b * r)) in *. set (x4 := Qabs (a + qh)) in *.
    set (x5 := Qabs N) in *. set (x6 := Qabs (b * r)) in *. set (y := M * Qabs D) in *. clearbody x1 x2 x3 x4 x5 x6 y be. clear - U0 B0 R5 B1 B2 T1 P3 T T'.
    assert (be * x6 <= be * y) by nra. assert (ulp * x4 <= ulp * ((1 + be) * y)) by (set (u := ulp) in *; clearbody u; nra). lra. }
  (* the quotient *)
  pose proof (rel_abs _ _ _ P2) as [P5 _].
  assert (AD : 0 < Qabs D) by (destruct (abs_cases D) as [[K ->]|[K ->]]; [destruct (Qle_lt_or_eq _ _ K) as [|K']; [assumption|symmetry in K'; tauto]|destruct (Qle_lt_or_eq _ _ K) as [|K']; [lra|tauto]]).
  assert (G1 : ga <= 1 # 2 ^ 40) by discriminate.
  assert (AH : 0 < Qabs Dh) by (change (1 # 2 ^ 40) with (1 # 1099511627776) in G1; nra).
  assert (DH0 : ~ Dh == 0) by (intros E; rewrite E in AH; discriminate AH).
  pose (ka := ((ulp + (1 + ulp) * be + tiny) + ga) / (1 - ga)).
  assert (P6 : Qabs (Nh / Dh - N / D) <= ka * M).
  { setoid_replace (Nh / Dh - N / D) with (((Nh - N) * D - N * (Dh - D)) / (Dh * D)) by (field; split; assumption).
    unfold Qdiv. rewrite Qabs_Qmult, Qabs_Qinv, Qabs_Qmult.
    apply (Qmult_le_r _ _ (Qabs Dh * Qabs D)); [nra|].
    rewrite <- Qmult_assoc, (Qmult_comm (/ _)), Qmult_inv_r by nra. rewrite Qmult_1_r.
    assert (T : Qabs ((Nh - N) * D - N * (Dh - D)) <= Qabs (Nh - N) * Qabs D + Qabs N * Qabs (Dh - D)).
    { pose proof (Qabs_triangle ((Nh - N) * D) (- (N * (Dh - D)))) as T. rewrite Qabs_opp, !Qabs_Qmult in T. exact T. }
    unfold rel in P2. assert (KA : ka * (1 - ga) == (ulp + (1 + ulp) * be + tiny) + ga) by reflexivity.
    pose proof (Qabs_nonneg N). pose proof (Qabs_nonneg (Dh - D)). pose proof (Qabs_nonneg (Nh - N)).
    assert (KA0 : 0 <= ka) by discriminate.
    set (x1 := Qabs (Nh - N)) in *. set (x2 := Qabs D) in *. set (x3 := Qabs N) in *. set (x4 := Qabs (Dh - D)) in *. set (x5 := Qabs Dh) in *.
    set (k := ulp + (1 + ulp) * be + tiny) in *. assert (0 <= k) by discriminate. assert (0 <= ga) by discriminate. clearbody x1 x2 x3 x4 x5 k ga ka.
    eapply Qle_trans; [exact T|].
    apply Qle_trans with ((k + ga) * (M * x2 * x2)).
    - assert (x1 * x2 <= k * (M * x2) * x2) by (apply Qmult_le_compat_r; lra).
      assert (x3 * x4 <= (M * x2) * (ga * x2)) by (apply Qmult_le_compat_nonneg; split; assumption). lra.
    - rewrite <- KA. assert (0 <= M * x2) by (apply Qmult_le_0_compat; lra). assert (0 <= ka * (M * x2)) by (apply Qmult_le_0_compat; assumption).
      setoid_replace (ka * (1 - ga) * (M * x2 * x2)) with (ka * (M * x2) * ((1 - ga) * x2)) by ring.
      setoid_replace (ka * M * (x5 * x2)) with (ka * (M * x2) * x5) by ring.
      rewrite (Qmult_comm _ ((1 - ga) * x2)), (Qmult_comm _ x5). apply Qmult_le_compat_r; assumption. }
  assert (P7 : Qabs (N / D) <= M).
  { unfold Qdiv. rewrite Qabs_Qmult, Qabs_Qinv. apply (Qmult_le_r _ _ (Qabs D)); [exact AD|].
    rewrite <- Qmult_assoc, (Qmult_comm (/ _)), Qmult_inv_r by lra. lra. }
  assert (T : Qabs (e - N / D) <= Qabs (e - Nh / Dh) + Qabs (Nh / Dh - N / D)).
  { pose proof (Qabs_triangle (e - Nh / Dh) (Nh / Dh - N / D)) as T. setoid_replace (e - Nh / Dh + (Nh / Dh - N / D)) with (e - N / D) in T by ring. exact T. }
  assert (T' : Qabs (Nh / Dh) <= Qabs (N / D) + Qabs (Nh / Dh - N / D)).
  { pose proof (Qabs_triangle (N / D) (Nh / Dh - N / D)) as T'. setoid_replace (N / D + (Nh / Dh - N / D)) with (Nh / Dh) in T' by ring. exact T'. }
  assert (FIN : ka + ulp * (1 + ka) + tiny <= 1 # 2 ^ 50) by (vm_compute; discriminate).
  set (x1 := Qabs (e - N / D)) in *. set (x2 := Qabs (e - Nh / Dh)) in *. set (x3 := Qabs (Nh / Dh - N / D)) in *. set (x4 := Qabs (Nh / Dh)) in *. set (x5 := Qabs (N / D)) in *.
  apply Qle_trans with ((ka + ulp * (1 + ka) + tiny) * M); [|apply Qmult_le_compat_r; assumption].
  clearbody x1 x2 x3 x4 x5 ka. clear - U0 R6 T2 P6 P7 T T'.
  assert (ulp * x4 <= ulp * ((1 + ka) * M)) by (set (u := ulp) in *; clearbody u; nra). lra.
Qed.
