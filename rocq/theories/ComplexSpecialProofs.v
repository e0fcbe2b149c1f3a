(** ComplexSpecialProofs.v -- division of complex numbers: zeros, infinities and NaN. *)
From Coq Require Import ZArith QArith Qabs Qpower Lia Lqa Bool Floats.SpecFloat.
From Verif Require Import FloatSpec FloatCoreProofs FloatRoundProofs FloatOpsProofs FloatModel FloatProofs CmpSpec CmpProofs.
From Verif Require Import ComplexModel ComplexSpec ComplexErrorProofs ComplexProofs.
Local Open Scope Q_scope.

(** *** NaN *)
Lemma nan_add_l x : add S754_nan x = S754_nan. Proof. reflexivity. Qed.
Lemma nan_add_r x : add x S754_nan = S754_nan. Proof. destruct x; reflexivity. Qed.
Lemma nan_sub_l x : sub S754_nan x = S754_nan. Proof. reflexivity. Qed.
Lemma nan_sub_r x : sub x S754_nan = S754_nan. Proof. destruct x; reflexivity. Qed.
Lemma nan_mul_l x : mul S754_nan x = S754_nan. Proof. reflexivity. Qed.
Lemma nan_mul_r x : mul x S754_nan = S754_nan. Proof. destruct x; reflexivity. Qed.
Lemma nan_div_l x : div S754_nan x = S754_nan. Proof. reflexivity. Qed.
Lemma nan_div_r x : div x S754_nan = S754_nan. Proof. destruct x; reflexivity. Qed.
Ltac nans := rewrite ?nan_add_l, ?nan_add_r, ?nan_sub_l, ?nan_sub_r, ?nan_mul_l, ?nan_mul_r, ?nan_div_l, ?nan_div_r.

Lemma by_zero a b sc sd : complex128div (a, b) (S754_zero sc, S754_zero sd) =
  (mul (S754_infinity sc) a, mul (S754_infinity sc) b).
Proof.
  assert (S : smith a b (S754_zero sc) (S754_zero sd) = (S754_nan, S754_nan)) by (unfold smith; cbn [SFabs SFleb SFcompare]; change (div (S754_zero sd) (S754_zero sc)) with S754_nan; nans; reflexivity).
  unfold complex128div. rewrite S. cbn [isNaN is_zero orb andb sign_bit with_sign inf].
  destruct (isNaN a) eqn:A, (isNaN b) eqn:B; cbn [negb orb]; try reflexivity.
  destruct a, b; try discriminate. reflexivity.
Qed.
(** A NaN in the divisor. *)
Lemma smith_nan_divisor a b c d : c = S754_nan \/ d = S754_nan -> smith a b c d = (S754_nan, S754_nan).
Proof.
  intros H. unfold smith.
  assert (L : SFleb (SFabs d) (SFabs c) = false) by (destruct H as [-> | ->]; [destruct d|]; reflexivity). rewrite L.
  assert (R : div c d = S754_nan) by (destruct H as [-> | ->]; nans; reflexivity). rewrite R. nans. reflexivity.
Qed.
(** A NaN in the dividend. *)
Lemma smith_nan_dividend a b c d : a = S754_nan \/ b = S754_nan -> smith a b c d = (S754_nan, S754_nan).
Proof.
  intros H. unfold smith. destruct (SFleb (SFabs d) (SFabs c)); destruct H as [-> | ->]; nans; reflexivity.
Qed.
(** Infinite over infinite. *)
Lemma smith_both_infinite a b c d : isInf a = true \/ isInf b = true -> isInf c = true \/ isInf d = true -> smith a b c d = (S754_nan, S754_nan).
Proof.
  intros H1 H2.
  destruct (isNaN a) eqn:NA; [destruct a; try discriminate; apply smith_nan_dividend; auto|].
  destruct (isNaN b) eqn:NB; [destruct b; try discriminate; apply smith_nan_dividend; auto|].
  destruct (isNaN c) eqn:NC; [destruct c; try discriminate; apply smith_nan_divisor; auto|].
  destruct (isNaN d) eqn:ND; [destruct d; try discriminate; apply smith_nan_divisor; auto|].
  destruct a as [sa|sa| |sa ma ea], b as [sb|sb| |sb mb eb], c as [sc|sc| |sc mc ec], d as [sd|sd| |sd md ed]; try discriminate;
    destruct H1 as [H1|H1]; try discriminate H1; destruct H2 as [H2|H2]; try discriminate H2;
    repeat match goal with s : bool |- _ => destruct s end; reflexivity.
Qed.

Lemma all_nan a b c d : smith a b c d = (S754_nan, S754_nan) ->
  (is_zero c && is_zero d) && (negb (isNaN a) || negb (isNaN b)) = false ->
  (isInf a || isInf b) && isFinite c && isFinite d = false -> (isInf c || isInf d) && isFinite a && isFinite b = false ->
  complex128div (a, b) (c, d) = (S754_nan, S754_nan).
Proof. intros S H1 H2 H3. unfold complex128div. rewrite S. cbn [isNaN orb]. rewrite H1, H2, H3. reflexivity. Qed.

Definition has_nan (x y : spec_float) : Prop := x = S754_nan \/ y = S754_nan.
Lemma nan_dividend a b c d : has_nan a b -> ~ (infinite a \/ infinite b) -> ~ (is_zero c = true /\ is_zero d = true) ->
  complex128div (a, b) (c, d) = (S754_nan, S754_nan).
Proof.
  intros H N Z. apply all_nan.
  - apply smith_nan_dividend, H.
  - destruct (is_zero c), (is_zero d); try reflexivity. exfalso. apply Z. auto.
  - assert (isInf a = false) by (destruct a; try reflexivity; exfalso; apply N; left; eexists; reflexivity).
    assert (isInf b = false) by (destruct b; try reflexivity; exfalso; apply N; right; eexists; reflexivity). rewrite H0, H1. reflexivity.
  - unfold isFinite. destruct H as [-> | ->]; cbn [isNaN negb andb]; rewrite ?andb_false_r; reflexivity.
Qed.
Lemma nan_divisor a b c d : has_nan c d -> ~ (infinite c \/ infinite d) -> complex128div (a, b) (c, d) = (S754_nan, S754_nan).
Proof.
  intros H N. apply all_nan.
  - apply smith_nan_divisor, H.
  - destruct H as [-> | ->]; cbn [is_zero]; rewrite ?andb_false_r; reflexivity.
  - unfold isFinite. destruct H as [-> | ->]; cbn [isNaN negb andb]; rewrite ?andb_false_r; reflexivity.
  - assert (isInf c = false) by (destruct c; try reflexivity; exfalso; apply N; left; eexists; reflexivity).
    assert (isInf d = false) by (destruct d; try reflexivity; exfalso; apply N; right; eexists; reflexivity). rewrite H0, H1. reflexivity.
Qed.
Lemma infinite_isInf x : infinite x <-> isInf x = true.
Proof. split; [intros [s ->]; reflexivity|]. destruct x; try discriminate. intros _. eexists. reflexivity. Qed.
Lemma infinite_both a b c d : infinite a \/ infinite b -> infinite c \/ infinite d -> complex128div (a, b) (c, d) = (S754_nan, S754_nan).
Proof.
  rewrite !infinite_isInf. intros H1 H2. apply all_nan.
  - apply smith_both_infinite; assumption.
  - destruct H2 as [H2|H2]; [destruct c|destruct d]; try discriminate H2; cbn [is_zero]; rewrite ?andb_false_r; reflexivity.
  - unfold isFinite. destruct H2 as [H2|H2]; rewrite H2; cbn [negb]; rewrite ?andb_false_r; reflexivity.
  - unfold isFinite. destruct H1 as [H1|H1]; rewrite H1; cbn [negb]; rewrite ?andb_false_r; reflexivity.
Qed.

(** *** Exact facts about single operations *)
Lemma zero_cases x : is_F64 x -> finite x -> value x == 0 -> exists s, x = S754_zero s.
Proof.
  destruct x as [s|s| |s m e]; intros V F E; try contradiction; [exists s; reflexivity|]. exfalso. revert E. apply value_nonzero.
Qed.
Lemma grid x : is_F64 x -> finite x -> exists k, value x == inject_Z k * 2 ^ (-1074).
Proof. intros V F. exists (scaled x). apply scaled_value; assumption. Qed.
(** A sum of numbers is zero only if it is exactly zero. *)
Lemma round_grid_nonzero k r : rounds_to 53 1024 (inject_Z k * 2 ^ (-1074)) r -> finite r -> value r == 0 -> k = 0%Z.
Proof.
  intros [V R] F E. assert (N : forall y, valid_binary 53 1024 y = true -> finite y -> Qabs (inject_Z k * 2 ^ (-1074) - value r) <= Qabs (inject_Z k * 2 ^ (-1074) - value y)).
  { destruct r; try contradiction; intros y Vy Fy; apply R; assumption. }
  clear R. pose proof (pow2_pos (-1074)) as P. set (t := 2 ^ (-1074)) in *.
  pose proof (N (S754_finite false 1 (-1074)) eq_refl I) as H1. pose proof (N (S754_finite true 1 (-1074)) eq_refl I) as H2.
  cbn [value] in H1, H2. fold t in H1, H2. change (inject_Z 1) with 1 in H1. change (inject_Z (-1)) with (-(1)) in H2. rewrite E in H1, H2.
  clearbody t. clear N. destruct (Z.lt_trichotomy k 0) as [L|[L|L]]; [exfalso|exact L|exfalso].
  - assert (L' : inject_Z k <= -(1)) by (change (-(1)) with (inject_Z (-1)); apply inj_le; lia). set (q := inject_Z k) in *. clearbody q.
    assert (q * t <= - t) by nra. clear H1. qabs; lra.
  - assert (L' : 1 <= inject_Z k) by (change 1 with (inject_Z 1); apply inj_le; lia). set (q := inject_Z k) in *. clearbody q.
    assert (t <= q * t) by nra. clear H2. qabs; lra.
Qed.
Lemma add_zero_only x y : is_F64 x -> is_F64 y -> finite x -> finite y -> forall s, add x y = S754_zero s -> value x + value y == 0.
Proof.
  intros Vx Vy Fx Fy s E. destruct (add_ok 53 1024 ltac:(lia) ltac:(lia) x y Vx Vy Fx Fy) as [R _]. fold add in R. rewrite E in R.
  destruct (grid x Vx Fx) as [k Hk], (grid y Vy Fy) as [l Hl].
  assert (EQ : value x + value y == inject_Z (k + l) * 2 ^ (-1074)) by (rewrite inject_Z_plus, Hk, Hl; ring).
  apply (rounds_eq 53 1024 _ _ _ EQ) in R. apply round_grid_nonzero in R; [|exact I|reflexivity]. rewrite EQ, R. change (inject_Z 0) with 0. ring.
Qed.
(** The sum of two numbers: its sign is that of the exact sum, zero if and only if that is. *)
Lemma add_sign x y : is_F64 x -> is_F64 y -> finite x -> finite y ->
  add x y <> S754_nan /\ is_F64 (add x y) /\
  (value x + value y == 0 -> exists s, add x y = S754_zero s) /\
  (0 < value x + value y -> negative (add x y) = false /\ is_zero (add x y) = false) /\
  (value x + value y < 0 -> negative (add x y) = true /\ is_zero (add x y) = false).
Proof.
  intros Vx Vy Fx Fy. pose proof (add_zero_only x y Vx Vy Fx Fy) as Z. destruct (add_ok 53 1024 ltac:(lia) ltac:(lia) x y Vx Vy Fx Fy) as [R S].
  fold add in R, S. set (r := add x y) in *. clearbody r. unfold sum_sign in S.
  split; [intros ->; apply R|]. split; [apply R|]. split.
  - intros E. destruct (rounds_zero _ _ R E) as [F V]. apply zero_cases; [apply R|exact F|exact V].
  - split; intros L.
    + split; [destruct (negative r); [destruct S as [S _]; destruct S as [S|[S _]]; auto; lra|reflexivity]|].
      destruct r as [s|s| |s m e]; try reflexivity. specialize (Z s eq_refl). lra.
    + split; [apply S; left; exact L|].
      destruct r as [s|s| |s m e]; try reflexivity. specialize (Z s eq_refl). lra.
Qed.
Lemma sub_add x y : sub x y = add x (SFopp y). Proof. apply sub_opp. Qed.
Lemma opp_F64 x : is_F64 x -> is_F64 (SFopp x). Proof. unfold is_F64. rewrite opp_valid. auto. Qed.
Lemma opp_fin x : finite x -> finite (SFopp x). Proof. rewrite opp_finite. auto. Qed.
(** Infinity times it. *)
Lemma inf_times x y : is_F64 x -> is_F64 y -> finite x -> finite y -> infinite_toward (value x + value y) (mul inf (add x y)).
Proof.
  intros Vx Vy Fx Fy. destruct (add_sign x y Vx Vy Fx Fy) as (N & _ & A & B & C). split; [|split].
  - intros E. destruct (A E) as [s ->]. reflexivity.
  - intros L. destruct (B L) as [B1 B2]. destruct (add x y); try discriminate; cbn [negative] in B1; subst; [reflexivity|congruence|reflexivity].
  - intros L. destruct (C L) as [B1 B2]. destruct (add x y); try discriminate; cbn [negative] in B1; subst; reflexivity.
Qed.
(** Zero times it. *)
Lemma zero_times x y : is_F64 x -> is_F64 y -> finite x -> finite y -> vanishes_toward (value x + value y) (mul zero (add x y)).
Proof.
  intros Vx Vy Fx Fy. destruct (add_sign x y Vx Vy Fx Fy) as (N & _ & A & B & C).
  destruct (add_ok 53 1024 ltac:(lia) ltac:(lia) x y Vx Vy Fx Fy) as [R _]. fold add in R. split; intros L.
  - assert (F : finite (add x y)).
    { destruct (add x y) as [s|s| |s m e]; try exact I; [|congruence]. destruct R as [_ R]. exfalso. destruct s; qabs; lra. }
    exists (negative (add x y)). split; [destruct (add x y) as [s|s| |s m e]; try contradiction; destruct s; reflexivity|]. split; intros G; [apply B, G|apply C, G].
  - destruct R as [_ R]. destruct (add x y) as [s|s| |s m e]; try reflexivity; destruct R as [R _]; exfalso; lra.
Qed.

(** Multiplication by one and by nothing. *)
Lemma mul_exact x y z : is_F64 x -> is_F64 y -> finite x -> finite y -> is_F64 z -> finite z -> value z == value x * value y ->
  finite (mul x y) /\ is_F64 (mul x y) /\ value (mul x y) == value z.
Proof.
  intros Vx Vy Fx Fy Vz Fz E. destruct (mul_ok 53 1024 ltac:(lia) ltac:(lia) x y Vx Vy Fx Fy) as [R _]. fold mul in R.
  destruct (rounds_representable 53 1024 ltac:(lia) _ _ z R Vz Fz E) as [F V]. split; [exact F|]. split; [apply R|]. rewrite V, E. reflexivity.
Qed.
Lemma one_value s : value (with_sign s one) == if s then - (1) else 1. Proof. destruct s; reflexivity. Qed.
Lemma inf2one_ok x : is_F64 (inf2one x) /\ finite (inf2one x) /\ value (inf2one x) == direction x.
Proof.
  destruct x as [s|s| |s m e]; cbn [inf2one isInf sign_bit with_sign direction]; try (split; [reflexivity|]; split; [exact I|reflexivity]).
  unfold inf2one. cbn [isInf sign_bit]. split; [destruct s; reflexivity|]. split; [destruct s; exact I|]. rewrite one_value. destruct s; reflexivity.
Qed.
Lemma direction_cases x : direction x == 0 \/ direction x == 1 \/ direction x == - (1).
Proof. destruct x as [s|s| |s m e]; cbn [direction]; try (left; reflexivity). destruct s; right; [right|left]; reflexivity. Qed.
Lemma times_direction x y : is_F64 y -> finite y ->
  finite (mul (inf2one x) y) /\ is_F64 (mul (inf2one x) y) /\ value (mul (inf2one x) y) == direction x * value y.
Proof.
  intros Vy Fy. destruct (inf2one_ok x) as (V1 & F1 & E1).
  assert (K : exists z, is_F64 z /\ finite z /\ value z == direction x * value y).
  { destruct (direction_cases x) as [E|[E|E]].
    - exists (S754_zero false). split; [reflexivity|]. split; [exact I|]. rewrite E. cbn [value]. ring.
    - exists y. split; [exact Vy|]. split; [exact Fy|]. rewrite E. ring.
    - exists (SFopp y). split; [apply opp_F64, Vy|]. split; [apply opp_fin, Fy|]. rewrite opp_value, E. ring. }
  destruct K as (z & Vz & Fz & E). destruct (mul_exact (inf2one x) y z V1 Vy F1 Fy Vz Fz) as (A & B & C); [rewrite E1; exact E|].
  split; [exact A|]. split; [exact B|]. rewrite C. exact E.
Qed.
Lemma direction_times x y : is_F64 y -> finite y ->
  finite (mul y (inf2one x)) /\ is_F64 (mul y (inf2one x)) /\ value (mul y (inf2one x)) == value y * direction x.
Proof.
  intros Vy Fy. destruct (inf2one_ok x) as (V1 & F1 & E1).
  destruct (times_direction x y Vy Fy) as (A & B & C).
  destruct (mul_exact y (inf2one x) (mul (inf2one x) y) Vy V1 Fy F1 B A) as (A' & B' & C'); [rewrite C, E1; ring|].
  split; [exact A'|]. split; [exact B'|]. rewrite C', C. ring.
Qed.
Lemma toward_eq v w x : v == w -> infinite_toward v x -> infinite_toward w x.
Proof. unfold infinite_toward. intros E. rewrite E. auto. Qed.
Lemma vanishes_eq v w x : v == w -> vanishes_toward v x -> vanishes_toward w x.
Proof.
  unfold vanishes_toward, zero_toward. intros E [H K]. rewrite E in K. split; [|exact K]. intros L. rewrite <- E in L. destruct (H L) as (s & H').
  exists s. rewrite <- E. exact H'.
Qed.

(** *** An infinite dividend *)
Section Infinite.
  Variable a b c d : spec_float.
  Hypothesis Vc : is_F64 c. Hypothesis Vd : is_F64 d.
  Hypothesis Fc : finite c. Hypothesis Fd : finite d.

  (** What the correction gives. *)
  Lemma corrected :
    infinite_toward (direction a * value c + direction b * value d) (mul inf (add (mul (inf2one a) c) (mul (inf2one b) d))) /\
    infinite_toward (direction b * value c - direction a * value d) (mul inf (sub (mul (inf2one b) c) (mul (inf2one a) d))).
  Proof.
    destruct (times_direction a c Vc Fc) as (F1 & V1 & E1), (times_direction b d Vd Fd) as (F2 & V2 & E2),
      (times_direction b c Vc Fc) as (F3 & V3 & E3), (times_direction a d Vd Fd) as (F4 & V4 & E4).
    split.
    - eapply toward_eq; [|apply inf_times; assumption]. rewrite E1, E2. reflexivity.
    - rewrite sub_add. eapply toward_eq; [|apply inf_times; [exact V3|apply opp_F64, V4|exact F3|apply opp_fin, F4]]. rewrite opp_value, E3, E4. ring.
  Qed.
End Infinite.

(** The ratio and the denominator, if the denominator is a number. *)
Lemma smith_denom c d : is_F64 c -> is_F64 d -> finite c -> finite d -> nonzero c ->
  let ratio := div d c in let denom := add c (mul ratio d) in
  finite denom ->
  (exists m e, denom = S754_finite (negative c) m e) /\
  ((exists s, ratio = S754_zero s) \/ (nonzero d /\ exists m e, ratio = S754_finite (xorb (negative d) (negative c)) m e)).
Proof.
  intros Vc Vd Fc Fd C0. cbv zeta. destruct (div_ok 53 1024 ltac:(lia) ltac:(lia) d c Vd Vc Fd Fc C0) as [RR RS]. fold div in RR, RS.
  set (ratio := div d c) in *. intros FD.
  assert (NR : ratio <> S754_nan) by (intros E; rewrite E in RR; apply RR).
  assert (FR : finite ratio).
  { destruct ratio as [s|s| |s m e] eqn:ER; try exact I; [exfalso|congruence].
    assert (D0 : nonzero d).
    { intros E. destruct (rounds_zero _ _ RR) as [F _]; [rewrite E; unfold Qdiv; ring|exact F]. }
    destruct d as [sd|sd| |sd md ed]; try contradiction; [apply D0; reflexivity|].
    destruct c as [sc|sc| |sc mc ec]; try contradiction; exact FD. }
  destruct (mul_ok 53 1024 ltac:(lia) ltac:(lia) ratio d (proj1 RR) Vd FR Fd) as [RP SP]. fold mul in RP, SP.
  assert (FP : finite (mul ratio d)).
  { destruct (mul ratio d) as [s|s| |s m e] eqn:EP; try exact I; [|destruct RP as [_ []]]. destruct c as [sc|sc| |sc mc ec]; try contradiction; exact FD. }
  split.
  - assert (SN : negative (mul ratio d) = negative c) by (rewrite SP, RS; destruct (negative d), (negative c); reflexivity).
    destruct (add_sign c (mul ratio d) Vc (proj1 RP) Fc FP) as (_ & _ & _ & B & C).
    set (p := mul ratio d) in *. clearbody p.
    assert (SG : forall x, finite x -> (negative x = true -> value x <= 0) /\ (negative x = false -> 0 <= value x)).
    { intros x Fx. destruct x as [s|s| |s m e]; try contradiction; [split; intros; apply Qle_refl|]. cbn [value negative]. rewrite inj_opp_if. pose proof (pos_scale m e).
      split; intros ->; lra. }
    destruct (SG c Fc) as [S1 S2], (SG p FP) as [S3 S4]. rewrite SN in S3, S4. unfold nonzero in C0.
    destruct (negative c) eqn:NC.
    + specialize (S1 eq_refl). specialize (S3 eq_refl). destruct C as [C1 C2]; [lra|].
      destruct (add c p) as [s|s| |s m e]; try contradiction; try discriminate. cbn [negative] in C1. subst. eauto.
    + specialize (S2 eq_refl). specialize (S4 eq_refl). destruct B as [C1 C2]; [lra|].
      destruct (add c p) as [s|s| |s m e]; try contradiction; try discriminate. cbn [negative] in C1. subst. eauto.
  - destruct ratio as [s|s| |s m e] eqn:ER; try contradiction; [left; eauto|right]. cbn [negative] in RS. subst s. split; [|eauto].
    intros E. destruct (rounds_zero _ _ RR) as [_ F]; [rewrite E; unfold Qdiv; ring|]. revert F. apply value_nonzero.
Qed.
Lemma not_nan_denom x y : div x y <> S754_nan -> isInf x = true -> finite y.
Proof. destruct x; try discriminate; destruct y; intros H _; try exact I; exfalso; apply H; reflexivity. Qed.
Lemma add_inf_l s x : add (S754_infinity s) x <> S754_nan -> add (S754_infinity s) x = S754_infinity s.
Proof. destruct x as [t|t| |t m e]; intros H; try reflexivity; [|exfalso; apply H; reflexivity]. destruct s, t; try reflexivity; exfalso; apply H; reflexivity. Qed.
Lemma sub_inf_l s x : sub (S754_infinity s) x <> S754_nan -> sub (S754_infinity s) x = S754_infinity s.
Proof. destruct x as [t|t| |t m e]; intros H; try reflexivity; [|exfalso; apply H; reflexivity]. destruct s, t; try reflexivity; exfalso; apply H; reflexivity. Qed.
Lemma add_inf_r s x : add x (S754_infinity s) <> S754_nan -> add x (S754_infinity s) = S754_infinity s.
Proof. destruct x as [t|t| |t m e]; intros H; try reflexivity; [|exfalso; apply H; reflexivity]. destruct s, t; try reflexivity; exfalso; apply H; reflexivity. Qed.
Lemma sub_inf_r s x : sub x (S754_infinity s) <> S754_nan -> sub x (S754_infinity s) = S754_infinity (negb s).
Proof. destruct x as [t|t| |t m e]; intros H; try reflexivity; [|exfalso; apply H; reflexivity]. destruct s, t; try reflexivity; exfalso; apply H; reflexivity. Qed.
Lemma div_not_nan x y : div x y <> S754_nan -> x <> S754_nan. Proof. intros H ->. apply H. reflexivity. Qed.
Lemma add_not_nan x y : add x y <> S754_nan -> x <> S754_nan /\ y <> S754_nan. Proof. intros H. split; intros ->; apply H; nans; reflexivity. Qed.
Lemma sub_not_nan x y : sub x y <> S754_nan -> x <> S754_nan /\ y <> S754_nan. Proof. intros H. split; intros ->; apply H; nans; reflexivity. Qed.
Lemma inf_div s t m e : div (S754_infinity s) (S754_finite t m e) = S754_infinity (xorb s t). Proof. reflexivity. Qed.
Lemma inf_mul s t m e : mul (S754_infinity s) (S754_finite t m e) = S754_infinity (xorb s t). Proof. reflexivity. Qed.

Lemma toward_inf (s t : bool) v : (s = t -> 0 < v) -> (s <> t -> v < 0) -> infinite_toward v (S754_infinity (xorb s t)).
Proof.
  intros A B. destruct (Bool.bool_dec s t) as [E|E].
  - specialize (A E). subst. rewrite xorb_nilpotent. repeat split; intros; try reflexivity; exfalso; lra.
  - specialize (B E). replace (xorb s t) with true by (destruct s, t; try reflexivity; congruence). repeat split; intros; try reflexivity; exfalso; lra.
Qed.
Lemma nonzero_sign x : finite x -> nonzero x -> (negative x = true -> value x < 0) /\ (negative x = false -> 0 < value x).
Proof.
  intros F N. destruct x as [s|s| |s m e]; try contradiction; [exfalso; apply N; reflexivity|]. cbn [value negative]. rewrite inj_opp_if. pose proof (pos_scale m e).
  split; intros ->; lra.
Qed.
Lemma toward_product s x v : finite x -> nonzero x -> v == direction (S754_infinity s) * value x -> infinite_toward v (S754_infinity (xorb s (negative x))).
Proof.
  intros F N E. apply (toward_eq (direction (S754_infinity s) * value x)); [symmetry; exact E|]. destruct (nonzero_sign x F N) as [A B]. cbn [direction].
  apply toward_inf; intros H; destruct s, (negative x); try congruence; try (specialize (A eq_refl)); try (specialize (B eq_refl)); lra.
Qed.

(** Smith's algorithm on an infinite dividend, if it gives no NaN. *)
Lemma smith_infinite a b c d : is_F64 c -> is_F64 d -> finite c -> finite d -> nonzero c \/ nonzero d ->
  infinite a \/ infinite b -> isNaN (fst (smith a b c d)) = false -> isNaN (snd (smith a b c d)) = false ->
  infinite_toward (direction a * value c + direction b * value d) (fst (smith a b c d)) /\
  infinite_toward (direction b * value c - direction a * value d) (snd (smith a b c d)).
Proof.
  intros Vc Vd Fc Fd NZ H N1 N2.
  assert (M1 : fst (smith a b c d) <> S754_nan) by (intros E; rewrite E in N1; discriminate).
  assert (M2 : snd (smith a b c d) <> S754_nan) by (intros E; rewrite E in N2; discriminate). clear N1 N2.
  assert (HA : a <> S754_nan /\ b <> S754_nan).
  { split; intros E; [rewrite (smith_nan_dividend a b c d) in M1 by auto|rewrite (smith_nan_dividend a b c d) in M1 by auto]; apply M1; reflexivity. }
  destruct HA as [A1 B1].
  unfold smith in *. destruct (SFleb (SFabs d) (SFabs c)) eqn:L; cbn [fst snd] in *.
  - apply (larger c d Vc Vd Fc Fd) in L.
    assert (C0 : nonzero c).
    { intros E. destruct NZ as [N|N]; [exact (N E)|]. apply N. rewrite E in L. apply Qabs_Qle_condition in L. change (Qabs 0) with 0 in L. lra. }
    pose proof (smith_denom c d Vc Vd Fc Fd C0) as SD. cbv zeta in SD. set (ratio := div d c) in *. set (denom := add c (mul ratio d)) in *.
    pose proof (div_not_nan _ _ M1) as X1. pose proof (div_not_nan _ _ M2) as X2.
    destruct (add_not_nan _ _ X1) as [_ Y1]. destruct (sub_not_nan _ _ X2) as [_ Y2].
    destruct H as [[s ->]|[s ->]].
    + (* a infinite *)
      assert (E1 := add_inf_l _ _ X1). rewrite E1 in *. pose proof (not_nan_denom _ _ M1 eq_refl) as FD.
      destruct (SD FD) as [(m & e & ED) [(t & ER)|(D0 & mr & er & ER)]]; rewrite ER in *; [exfalso; apply Y2; reflexivity|]. rewrite inf_mul in *.
      assert (E2 := sub_inf_r _ _ X2). rewrite E2 in *. rewrite ED, !inf_div in *.
      assert (ND : direction b == 0).
      { destruct b as [t|t| |t mb eb]; try reflexivity. exfalso. rewrite inf_mul in *.
        destruct s, t, (negative d), (negative c); cbn in E1, E2; discriminate. }
      split.
      * apply toward_product; [exact Fc|exact C0|]. rewrite ND. ring.
      * replace (xorb (negb (xorb s (xorb (negative d) (negative c)))) (negative c)) with (xorb (negb s) (negative d)) by (destruct s, (negative d), (negative c); reflexivity).
        apply toward_product; [exact Fd|exact D0|]. rewrite ND. destruct s; cbn [direction negb]; ring.
    + (* b infinite *)
      assert (E2 := sub_inf_l _ _ X2). rewrite E2 in *. pose proof (not_nan_denom _ _ M2 eq_refl) as FD.
      destruct (SD FD) as [(m & e & ED) [(t & ER)|(D0 & mr & er & ER)]]; rewrite ER in *; [exfalso; apply Y1; reflexivity|]. rewrite inf_mul in *.
      assert (E1 := add_inf_r _ _ X1). rewrite E1 in *. rewrite ED, !inf_div in *.
      assert (ND : direction a == 0).
      { destruct a as [t|t| |t ma ea]; try reflexivity. exfalso. rewrite inf_mul in *.
        destruct s, t, (negative d), (negative c); cbn in E1, E2; discriminate. }
      split.
      * replace (xorb (xorb s (xorb (negative d) (negative c))) (negative c)) with (xorb s (negative d)) by (destruct s, (negative d), (negative c); reflexivity).
        apply toward_product; [exact Fd|exact D0|]. rewrite ND. ring.
      * apply toward_product; [exact Fc|exact C0|]. rewrite ND. ring.
  - assert (D0 : nonzero d).
    { intros E. assert (T : Qabs (value d) <= Qabs (value c)) by (rewrite E; apply Qabs_nonneg). apply (larger c d Vc Vd Fc Fd) in T. congruence. }
    pose proof (smith_denom d c Vd Vc Fd Fc D0) as SD. cbv zeta in SD. set (ratio := div c d) in *. set (denom := add d (mul ratio c)) in *.
    pose proof (div_not_nan _ _ M1) as X1. pose proof (div_not_nan _ _ M2) as X2.
    destruct (add_not_nan _ _ X1) as [Y1 _]. destruct (sub_not_nan _ _ X2) as [Y2 _].
    destruct H as [[s ->]|[s ->]].
    + (* a infinite *)
      assert (E2 := sub_inf_r _ _ X2). rewrite E2 in *. pose proof (not_nan_denom _ _ M2 eq_refl) as FD.
      destruct (SD FD) as [(m & e & ED) [(t & ER)|(C0 & mr & er & ER)]]; rewrite ER in *; [exfalso; apply Y1; reflexivity|]. rewrite inf_mul in *.
      assert (E1 := add_inf_l _ _ X1). rewrite E1 in *. rewrite ED, !inf_div in *.
      assert (ND : direction b == 0).
      { destruct b as [t|t| |t mb eb]; try reflexivity. exfalso. rewrite inf_mul in *.
        destruct s, t, (negative d), (negative c); cbn in E1, E2; discriminate. }
      split.
      * replace (xorb (xorb s (xorb (negative c) (negative d))) (negative d)) with (xorb s (negative c)) by (destruct s, (negative d), (negative c); reflexivity).
        apply toward_product; [exact Fc|exact C0|]. rewrite ND. ring.
      * apply toward_product; [exact Fd|exact D0|]. rewrite ND. destruct s; cbn [direction negb]; ring.
    + (* b infinite *)
      assert (E1 := add_inf_r _ _ X1). rewrite E1 in *. pose proof (not_nan_denom _ _ M1 eq_refl) as FD.
      destruct (SD FD) as [(m & e & ED) [(t & ER)|(C0 & mr & er & ER)]]; rewrite ER in *; [exfalso; apply Y2; reflexivity|]. rewrite inf_mul in *.
      assert (E2 := sub_inf_l _ _ X2). rewrite E2 in *. rewrite ED, !inf_div in *.
      assert (ND : direction a == 0).
      { destruct a as [t|t| |t ma ea]; try reflexivity. exfalso. rewrite inf_mul in *.
        destruct s, t, (negative d), (negative c); cbn in E1, E2; discriminate. }
      split.
      * apply toward_product; [exact Fd|exact D0|]. rewrite ND. ring.
      * replace (xorb (xorb s (xorb (negative c) (negative d))) (negative d)) with (xorb s (negative c)) by (destruct s, (negative d), (negative c); reflexivity).
        apply toward_product; [exact Fc|exact C0|]. rewrite ND. ring.
Qed.
Theorem infinite_dividend a b c d : is_F64 c -> is_F64 d -> finite c -> finite d -> nonzero c \/ nonzero d ->
  infinite a \/ infinite b ->
  infinite_toward (direction a * value c + direction b * value d) (fst (complex128div (a, b) (c, d))) /\
  infinite_toward (direction b * value c - direction a * value d) (snd (complex128div (a, b) (c, d))).
Proof.
  intros Vc Vd Fc Fd NZ H. pose proof (smith_infinite a b c d Vc Vd Fc Fd NZ H) as S. unfold complex128div.
  destruct (smith a b c d) as [e f]. cbn [fst snd] in S. destruct (isNaN e || isNaN f) eqn:N.
  - assert (Z : is_zero c && is_zero d = false).
    { destruct c as [s|s| |s m k], d as [t|t| |t n l]; try contradiction; try reflexivity. destruct NZ as [K|K]; exfalso; apply K; reflexivity. }
    rewrite Z. cbn [andb].
    assert (I1 : isInf a || isInf b = true) by (rewrite !infinite_isInf in H; destruct H as [-> | ->]; [reflexivity|apply orb_true_r]). rewrite I1.
    assert (I2 : isFinite c = true) by (destruct c; try contradiction; reflexivity). assert (I3 : isFinite d = true) by (destruct d; try contradiction; reflexivity).
    rewrite I2, I3. cbn [andb fst snd]. apply corrected; assumption.
  - apply orb_false_iff in N. destruct N as [N1 N2]. cbn [fst snd]. apply S; assumption.
Qed.

(** *** An infinite divisor *)
Lemma small_zero s x v : is_F64 x -> finite x -> (v == value x \/ v == - value x) -> (0 < v -> s = false) -> (v < 0 -> s = true) -> vanishes_toward v (S754_zero s).
Proof.
  intros V F E A B. pose proof (valid_limit 53 1024 ltac:(lia) x V F) as L.
  assert (Qabs v < limit 53 1024) by (destruct E as [E|E]; rewrite E, ?Qabs_opp; exact L).
  split; [|intros; exfalso; lra]. intros _. exists s. auto.
Qed.
(** The sign of a quotient by an infinity. *)
Lemma side s t x v : is_F64 x -> finite x -> v == direction (S754_infinity t) * value x -> (nonzero x -> s = xorb (negative x) t) -> vanishes_toward v (S754_zero s).
Proof.
  intros V F E S. apply (small_zero s x); [exact V|exact F|destruct t; cbn [direction] in E; [right|left]; rewrite E; ring|..]; intros L;
    (assert (N : nonzero x) by (intros Z; rewrite E, Z in L; lra); specialize (S N); destruct (nonzero_sign x F N) as [S1 S2]; subst s;
     rewrite E in L; cbn [direction] in L; destruct (negative x), t; cbn; try reflexivity; exfalso; try specialize (S1 eq_refl); try specialize (S2 eq_refl); lra).
Qed.
Lemma infinite_real a b t d : is_F64 a -> is_F64 b -> finite a -> finite b -> finite d ->
  vanishes_toward (value a * direction (S754_infinity t) + value b * direction d) (fst (complex128div (a, b) (S754_infinity t, d))) /\
  vanishes_toward (value b * direction (S754_infinity t) - value a * direction d) (snd (complex128div (a, b) (S754_infinity t, d))).
Proof.
  intros Va Vb Fa Fb Fd. assert (D : direction d == 0) by (destruct d; try contradiction; reflexivity).
  assert (S : exists s1 s2, complex128div (a, b) (S754_infinity t, d) = (S754_zero s1, S754_zero s2) /\
   (nonzero a -> s1 = xorb (negative a) t) /\ (nonzero b -> s2 = xorb (negative b) t)).
  { destruct a as [sa|sa| |sa ma ea], b as [sb|sb| |sb mb eb], d as [sd|sd| |sd md ed]; try contradiction;
      repeat match goal with s : bool |- _ => destruct s end;
      eexists; eexists; (split; [reflexivity|split; intros N; try reflexivity; exfalso; apply N; reflexivity]). }
  destruct S as (s1 & s2 & E & S1 & S2). rewrite E. cbn [fst snd]. split.
  - apply (side s1 t a); [exact Va|exact Fa|rewrite D; ring|exact S1].
  - apply (side s2 t b); [exact Vb|exact Fb|rewrite D; ring|exact S2].
Qed.
Lemma infinite_imaginary a b t c : is_F64 a -> is_F64 b -> finite a -> finite b -> finite c ->
  vanishes_toward (value a * direction c + value b * direction (S754_infinity t)) (fst (complex128div (a, b) (c, S754_infinity t))) /\
  vanishes_toward (value b * direction c - value a * direction (S754_infinity t)) (snd (complex128div (a, b) (c, S754_infinity t))).
Proof.
  intros Va Vb Fa Fb Fd. assert (D : direction c == 0) by (destruct c; try contradiction; reflexivity).
  assert (S : exists s1 s2, complex128div (a, b) (c, S754_infinity t) = (S754_zero s1, S754_zero s2) /\
   (nonzero b -> s1 = xorb (negative b) t) /\ (nonzero a -> s2 = xorb (negative a) (negb t))).
  { destruct a as [sa|sa| |sa ma ea], b as [sb|sb| |sb mb eb], c as [sc|sc| |sc mc ec]; try contradiction;
      repeat match goal with s : bool |- _ => destruct s end;
      eexists; eexists; (split; [reflexivity|split; intros N; try reflexivity; exfalso; apply N; reflexivity]). }
  destruct S as (s1 & s2 & E & S1 & S2). rewrite E. cbn [fst snd]. split.
  - apply (side s1 t b); [exact Vb|exact Fb|rewrite D; ring|exact S1].
  - apply (side s2 (negb t) a); [exact Va|exact Fa|rewrite D; destruct t; cbn [direction negb]; ring|exact S2].
Qed.
Theorem infinite_divisor a b c d : is_F64 a -> is_F64 b -> finite a -> finite b -> infinite c \/ infinite d ->
  vanishes_toward (value a * direction c + value b * direction d) (fst (complex128div (a, b) (c, d))) /\
  vanishes_toward (value b * direction c - value a * direction d) (snd (complex128div (a, b) (c, d))).
Proof.
  intros Va Vb Fa Fb H.
  assert (BY : smith a b c d = (S754_nan, S754_nan) ->
    vanishes_toward (value a * direction c + value b * direction d) (fst (complex128div (a, b) (c, d))) /\
   vanishes_toward (value b * direction c - value a * direction d) (snd (complex128div (a, b) (c, d)))).
  { intros S. assert (COR : complex128div (a, b) (c, d) = (mul zero (add (mul a (inf2one c)) (mul b (inf2one d))), mul zero (sub (mul b (inf2one c)) (mul a (inf2one d))))).
    { unfold complex128div. rewrite S. cbn [isNaN orb].
      assert (Z : is_zero c && is_zero d = false) by (destruct H as [[s ->]|[s ->]]; [reflexivity|apply andb_false_r]). rewrite Z. cbn [andb].
      assert (I1 : isInf a || isInf b = false) by (destruct a, b; try contradiction; reflexivity). rewrite I1. cbn [andb].
      assert (I2 : isInf c || isInf d = true) by (destruct H as [[s ->]|[s ->]]; [reflexivity|apply orb_true_r]). rewrite I2.
      assert (I3 : isFinite a = true) by (destruct a; try contradiction; reflexivity). assert (I4 : isFinite b = true) by (destruct b; try contradiction; reflexivity).
      rewrite I3, I4. reflexivity. }
    rewrite COR. cbn [fst snd].
    destruct (direction_times c a Va Fa) as (F1 & V1 & E1), (direction_times d b Vb Fb) as (F2 & V2 & E2),
      (direction_times c b Vb Fb) as (F3 & V3 & E3), (direction_times d a Va Fa) as (F4 & V4 & E4).
    split.
    - eapply vanishes_eq; [|apply (zero_times _ _ V1 V2 F1 F2)]. rewrite E1, E2. reflexivity.
    - rewrite sub_add. eapply vanishes_eq; [|apply (zero_times _ _ V3 (opp_F64 _ V4) F3 (opp_fin _ F4))]. rewrite opp_value, E3, E4. ring. }
  destruct c as [sc|sc| |sc mc ec], d as [sd|sd| |sd md ed]; try (exfalso; destruct H as [[s H]|[s H]]; discriminate).
  - apply infinite_imaginary; auto; exact I.
  - apply infinite_real; auto; exact I.
  - apply BY. unfold smith. cbn [SFabs]. change (SFleb (S754_infinity false) (S754_infinity false)) with true. cbv iota.
    change (div (S754_infinity sd) (S754_infinity sc)) with S754_nan. nans. reflexivity.
  - apply BY, smith_nan_divisor. auto.
  - apply infinite_real; auto; exact I.
  - apply BY, smith_nan_divisor. auto.
  - apply infinite_imaginary; auto; exact I.
Qed.

(** *** Division by a real or an imaginary number *)
Lemma add_small_zero x s : is_F64 x -> finite x -> finite (add x (S754_zero s)) /\ is_F64 (add x (S754_zero s)) /\ value (add x (S754_zero s)) == value x /\
  (nonzero x -> negative (add x (S754_zero s)) = negative x).
Proof.
  intros V F. destruct x as [t|t| |t m e]; try contradiction.
  - destruct s, t; (split; [exact I|]; split; [reflexivity|]; split; [reflexivity|]; intros N; exfalso; apply N; reflexivity).
  - split; [exact I|]. split; [exact V|]. split; reflexivity.
Qed.
Lemma mul_zero_r x s : finite x -> exists t, mul x (S754_zero s) = S754_zero t.
Proof. destruct x; try contradiction; intros _; eexists; reflexivity. Qed.
Lemma mul_zero_l x s : finite x -> exists t, mul (S754_zero s) x = S754_zero t.
Proof. destruct x; try contradiction; intros _; eexists; reflexivity. Qed.
Lemma zero_over x s : nonzero x -> finite x -> exists t, div (S754_zero s) x = S754_zero t.
Proof. destruct x; try contradiction; intros N _; [exfalso; apply N; reflexivity|]. eexists. reflexivity. Qed.
Lemma quotient_eq x y z : is_F64 x -> finite x -> is_F64 y -> finite y -> nonzero y -> is_F64 z -> finite z -> value z == value x -> (nonzero x -> negative z = negative x) ->
  rounds_to 53 1024 (value x / value y) (div z y) /\ (nonzero x -> negative (div z y) = xorb (negative x) (negative y)).
Proof.
  intros Vx Fx Vy Fy N Vz Fz E S. destruct (div_ok 53 1024 ltac:(lia) ltac:(lia) z y Vz Vy Fz Fy N) as [R RS]. fold div in R, RS. split.
  - eapply rounds_eq; [|exact R]. rewrite E. reflexivity.
  - intros K. rewrite RS, (S K). reflexivity.
Qed.
Lemma rounds_not_nan v x : rounds_to 53 1024 v x -> isNaN x = false.
Proof. intros [_ R]. destruct x; try reflexivity. contradiction. Qed.
Lemma no_nan a b c d : isNaN (fst (smith a b c d)) = false -> isNaN (snd (smith a b c d)) = false -> complex128div (a, b) (c, d) = smith a b c d.
Proof. unfold complex128div. destruct (smith a b c d) as [e f]. cbn [fst snd]. intros -> ->. reflexivity. Qed.
Theorem by_real a b c s : is_F64 a -> is_F64 b -> is_F64 c -> finite a -> finite b -> finite c -> nonzero c ->
  let q := complex128div (a, b) (c, S754_zero s) in
  rounds_to 53 1024 (value a / value c) (fst q) /\ (nonzero a -> negative (fst q) = xorb (negative a) (negative c)) /\
  rounds_to 53 1024 (value b / value c) (snd q) /\ (nonzero b -> negative (snd q) = xorb (negative b) (negative c)).
Proof.
  intros Va Vb Vc Fa Fb Fc C0. cbv zeta.
  destruct (zero_over c s C0 Fc) as [t Et].
  assert (SM : exists n1 n2, smith a b c (S754_zero s) = (div n1 c, div n2 c) /\
   (is_F64 n1 /\ finite n1 /\ value n1 == value a /\ (nonzero a -> negative n1 = negative a)) /\
    (is_F64 n2 /\ finite n2 /\ value n2 == value b /\ (nonzero b -> negative n2 = negative b))).
  { unfold smith. assert (L : SFleb (SFabs (S754_zero s)) (SFabs c) = true) by (destruct c; try contradiction; reflexivity). rewrite L, Et.
    assert (D : add c (mul (S754_zero t) (S754_zero s)) = c) by (destruct c; try contradiction; [exfalso; apply C0; reflexivity|reflexivity]). rewrite D.
    destruct (mul_zero_r b t Fb) as [t1 E1], (mul_zero_r a t Fa) as [t2 E2]. rewrite E1, E2, sub_add.
    destruct (add_small_zero a t1 Va Fa) as (A1 & A2 & A3 & A4), (add_small_zero b (negb t2) Vb Fb) as (B1 & B2 & B3 & B4).
    eexists. eexists. split; [reflexivity|]. auto. }
  destruct SM as (n1 & n2 & E & (V1 & F1 & E1 & S1) & (V2 & F2 & E2 & S2)).
  destruct (quotient_eq a c n1 Va Fa Vc Fc C0 V1 F1 E1 S1) as [P1 P2], (quotient_eq b c n2 Vb Fb Vc Fc C0 V2 F2 E2 S2) as [P3 P4].
  rewrite no_nan; rewrite E; cbn [fst snd]; [auto|apply (rounds_not_nan _ _ P1)|apply (rounds_not_nan _ _ P3)].
Qed.
Theorem by_imaginary a b d s : is_F64 a -> is_F64 b -> is_F64 d -> finite a -> finite b -> finite d -> nonzero d ->
  let q := complex128div (a, b) (S754_zero s, d) in
  rounds_to 53 1024 (value b / value d) (fst q) /\ (nonzero b -> negative (fst q) = xorb (negative b) (negative d)) /\
  rounds_to 53 1024 (- value a / value d) (snd q) /\ (nonzero a -> negative (snd q) = negb (xorb (negative a) (negative d))).
Proof.
  intros Va Vb Vd Fa Fb Fd D0. cbv zeta.
  destruct (zero_over d s D0 Fd) as [t Et].
  assert (SM : exists n1 n2, smith a b (S754_zero s) d = (div n1 d, div n2 d) /\
   (is_F64 n1 /\ finite n1 /\ value n1 == value b /\ (nonzero b -> negative n1 = negative b)) /\
    (is_F64 n2 /\ finite n2 /\ value n2 == value (SFopp a) /\ (nonzero (SFopp a) -> negative n2 = negative (SFopp a)))).
  { unfold smith. assert (L : SFleb (SFabs d) (SFabs (S754_zero s)) = false) by (destruct d; try contradiction; [exfalso; apply D0; reflexivity|reflexivity]). rewrite L, Et.
    assert (D : add d (mul (S754_zero t) (S754_zero s)) = d) by (destruct d; try contradiction; [exfalso; apply D0; reflexivity|reflexivity]). rewrite D.
    destruct (mul_zero_r b t Fb) as [t1 E1], (mul_zero_r a t Fa) as [t2 E2]. rewrite E1, E2, sub_add.
    assert (C : forall u x, finite x -> is_F64 x -> finite (add (S754_zero u) x) /\ is_F64 (add (S754_zero u) x) /\ value (add (S754_zero u) x) == value x /\
      (nonzero x -> negative (add (S754_zero u) x) = negative x)).
    { intros u x F V. destruct x as [v|v| |v m e]; try contradiction.
      - destruct u, v; (split; [exact I|]; split; [reflexivity|]; split; [reflexivity|]; intros N; exfalso; apply N; reflexivity).
      - split; [exact I|]. split; [exact V|]. split; reflexivity. }
    destruct (C t2 b Fb Vb) as (A1 & A2 & A3 & A4), (C t1 (SFopp a) (opp_fin a Fa) (opp_F64 a Va)) as (B1 & B2 & B3 & B4).
    eexists. eexists. split; [reflexivity|]. split; [repeat (split; [assumption|]); assumption|repeat (split; [assumption|]); assumption]. }
  destruct SM as (n1 & n2 & E & (V1 & F1 & E1 & S1) & (V2 & F2 & E2 & S2)).
  destruct (quotient_eq b d n1 Vb Fb Vd Fd D0 V1 F1 E1 S1) as [P1 P2],
    (quotient_eq (SFopp a) d n2 (opp_F64 a Va) (opp_fin a Fa) Vd Fd D0 V2 F2 E2 S2) as [P3 P4].
  rewrite no_nan; rewrite E; cbn [fst snd]; [|apply (rounds_not_nan _ _ P1)|apply (rounds_not_nan _ _ P3)].
  split; [exact P1|]. split; [exact P2|]. split.
  - eapply rounds_eq; [|exact P3]. rewrite opp_value. reflexivity.
  - intros N. rewrite P4; [|unfold nonzero; rewrite opp_value; intros K; apply N; lra].
    destruct a as [sa|sa| |sa ma ea]; try contradiction; cbn [negative SFopp]; destruct sa, (negative d); reflexivity.
Qed.
