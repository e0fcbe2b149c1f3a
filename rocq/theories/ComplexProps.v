(** ComplexProps.v -- C103: dividing complex numbers. *)
From Coq Require Import ZArith QArith Qabs Qpower Lia Lqa Bool Floats.SpecFloat.
From Verif Require Import FloatSpec FloatCoreProofs FloatRoundProofs FloatOpsProofs FloatModel FloatProofs FloatProps.
From Verif Require Import ComplexModel ComplexSpec ComplexErrorProofs ComplexProofs ComplexSpecialProofs.
Local Open Scope Q_scope.

(** Parts that are zero or between 2^-300 and 2^300: each part of the quotient is off by at
    most 2^-50 of the quotient's absolute value.  Missing: parts outside that range, for
    which it fails. *)
Theorem C103_accuracy_partial : forall a b c d, is_F64 a -> is_F64 b -> is_F64 c -> is_F64 d ->
  moderate a -> moderate b -> moderate c -> moderate d -> nonzero c \/ nonzero d ->
  let q := Complex128_Div (a, b) (c, d) in
  near_quotient (1 # 2 ^ 50) (value a) (value b) (value c) (value d) (fst q) (snd q).
Proof. intros. apply quotient_near; assumption. Qed.
Print Assumptions C103_accuracy_partial.
(** The largest number of the format over itself is not 1: one part is NaN. *)
Definition large : spec_float := S754_finite false 9007199254740991 971.
Theorem C103_accuracy_refuted : exists a b c d, is_F64 a /\ is_F64 b /\ is_F64 c /\ is_F64 d /\
  finite a /\ finite b /\ finite c /\ finite d /\ nonzero c /\ nonzero d /\
  ~ exists eps, near_quotient eps (value a) (value b) (value c) (value d) (fst (Complex128_Div (a, b) (c, d))) (snd (Complex128_Div (a, b) (c, d))).
Proof.
  exists large, large, large, large. repeat (split; [first [reflexivity|exact I]|]). split; [intros H; discriminate H|]. split; [intros H; discriminate H|].
  intros [eps (F & _)]. vm_compute in F. exact F.
Qed.
Print Assumptions C103_accuracy_refuted.

(** The parts are numbers of the format. *)
Lemma rounds_F64 v x : rounds_to 53 1024 v x -> is_F64 x. Proof. intros R. apply R. Qed.
Lemma add_F64 x y : is_F64 x -> is_F64 y -> is_F64 (add x y).
Proof.
  intros Vx Vy. destruct x as [s|s| |s m e], y as [t|t| |t m' e'];
    try (apply (rounds_F64 _ _ (proj1 (add_ok 53 1024 ltac:(lia) ltac:(lia) _ _ Vx Vy I I)))); try reflexivity; try exact Vx; try exact Vy; destruct s, t; reflexivity.
Qed.
Lemma sub_F64 x y : is_F64 x -> is_F64 y -> is_F64 (sub x y).
Proof. intros Vx Vy. rewrite sub_add. apply add_F64; [exact Vx|apply opp_F64, Vy]. Qed.
Lemma mul_F64 x y : is_F64 x -> is_F64 y -> is_F64 (mul x y).
Proof.
  intros Vx Vy. destruct x as [s|s| |s m e], y as [t|t| |t m' e'];
    try (apply (rounds_F64 _ _ (proj1 (mul_ok 53 1024 ltac:(lia) ltac:(lia) _ _ Vx Vy I I)))); reflexivity.
Qed.
Lemma div_F64 x y : is_F64 x -> is_F64 y -> is_F64 (div x y).
Proof.
  intros Vx Vy. destruct x as [s|s| |s m e], y as [t|t| |t m' e']; try reflexivity.
  apply (rounds_F64 _ _ (proj1 (div_ok 53 1024 ltac:(lia) ltac:(lia) _ _ Vx Vy I I (value_nonzero _ _ _)))).
Qed.
Theorem C103_valid : forall a b c d, is_F64 a -> is_F64 b -> is_F64 c -> is_F64 d ->
  is_F64 (fst (Complex128_Div (a, b) (c, d))) /\ is_F64 (snd (Complex128_Div (a, b) (c, d))).
Proof.
  intros a b c d Va Vb Vc Vd.
  assert (S : is_F64 (fst (smith a b c d)) /\ is_F64 (snd (smith a b c d))).
  { unfold smith. destruct (SFleb (SFabs d) (SFabs c)); split; repeat first [assumption|apply div_F64|apply add_F64|apply sub_F64|apply mul_F64]. }
  unfold Complex128_Div, complex128div. destruct (smith a b c d) as [e f]. destruct S as [S1 S2].
  assert (W : forall s, is_F64 (with_sign s inf)) by (intros []; reflexivity).
  assert (O : forall x, is_F64 (inf2one x)) by (intros x; apply inf2one_ok).
  repeat match goal with |- context [if ?c then _ else _] => destruct c end; split; cbn [fst snd];
    repeat first [assumption|reflexivity|apply W|apply O|apply div_F64|apply add_F64|apply sub_F64|apply mul_F64].
Qed.
Print Assumptions C103_valid.

(** Every finite Complex64 divided by every finite Complex64 other than zero: a quotient
    that is right up to 2^-50 of its absolute value, rounded to F32. *)
Lemma F32_moderate x y : is_F32 x -> finite x -> same_number x y -> is_F64 y -> moderate y /\ value y == value x.
Proof.
  intros V F S W. destruct (same_finite _ _ S F) as (F2 & E & _). split; [|exact E]. split; [exact F2|]. rewrite E.
  destruct x as [s|s| |s m e]; try contradiction; [left; reflexivity|right].
  unfold is_F32 in V. cbn [valid_binary] in V. apply (bounded_spec 24 128 ltac:(lia)) in V. destruct V as ([A B] & C & _).
  change (SpecFloat.emin 24 128) with (-149)%Z in A. cbn [value]. rewrite inj_opp_if, signed_abs by (apply Qlt_le_weak, pos_scale).
  split.
  - apply Qle_trans with (inject_Z 1 * 2 ^ e); [|apply scale_le; lia]. change (inject_Z 1) with 1. rewrite Qmult_1_l. apply pow2_mono. lia.
  - apply Qle_trans with (inject_Z (2 ^ 24) * 2 ^ e); [apply scale_le; lia|].
    apply Qle_trans with (inject_Z (2 ^ 24) * 2 ^ 104); [apply Qmult_le_l; [reflexivity|apply pow2_mono; lia]|discriminate].
Qed.
Lemma near_eq eps a b c d a' b' c' d' e f : a == a' -> b == b' -> c == c' -> d == d' -> near_quotient eps a b c d e f -> near_quotient eps a' b' c' d' e f.
Proof.
  unfold near_quotient, bounds_quotient, real_part, imaginary_part, square_abs. intros E1 E2 E3 E4 (F1 & F2 & H). split; [exact F1|]. split; [exact F2|].
  intros M. specialize (H M). rewrite E1, E2, E3, E4 in H. exact H.
Qed.
Theorem C103_complex64 : forall a b c d, is_F32 a -> is_F32 b -> is_F32 c -> is_F32 d ->
  finite a -> finite b -> finite c -> finite d -> nonzero c \/ nonzero d ->
  exists e f, is_F64 e /\ is_F64 f /\ near_quotient (1 # 2 ^ 50) (value a) (value b) (value c) (value d) e f /\
    narrowed 24 128 e (fst (Complex64_Div (a, b) (c, d))) /\ narrowed 24 128 f (snd (Complex64_Div (a, b) (c, d))).
Proof.
  intros a b c d Va Vb Vc Vd Fa Fb Fc Fd N.
  destruct (widen a Va) as [Sa Wa], (widen b Vb) as [Sb Wb], (widen c Vc) as [Sc Wc], (widen d Vd) as [Sd Wd].
  destruct (F32_moderate a _ Va Fa Sa Wa) as [Ma Ea], (F32_moderate b _ Vb Fb Sb Wb) as [Mb Eb], (F32_moderate c _ Vc Fc Sc Wc) as [Mc Ec], (F32_moderate d _ Vd Fd Sd Wd) as [Md Ed].
  assert (N' : nonzero (to64 c) \/ nonzero (to64 d)) by (unfold nonzero in *; rewrite Ec, Ed; exact N).
  pose proof (quotient_near _ _ _ _ Wa Wb Wc Wd Ma Mb Mc Md N') as Q.
  destruct (C103_valid _ _ _ _ Wa Wb Wc Wd) as [V1 V2].
  exists (fst (complex128div (to64 a, to64 b) (to64 c, to64 d))), (snd (complex128div (to64 a, to64 b) (to64 c, to64 d))).
  split; [exact V1|]. split; [exact V2|]. split; [|split; apply narrowed_to32].
  eapply near_eq; [exact Ea|exact Eb|exact Ec|exact Ed|exact Q].
Qed.
Print Assumptions C103_complex64.
(** In all cases, infinities and NaN included, the Complex64 quotient is that of the same
    numbers in Complex128, rounded. *)
Theorem C103_complex64_widened : forall a b c d, is_F32 a -> is_F32 b -> is_F32 c -> is_F32 d ->
  exists a' b' c' d', is_F64 a' /\ is_F64 b' /\ is_F64 c' /\ is_F64 d' /\
    same_number a a' /\ same_number b b' /\ same_number c c' /\ same_number d d' /\
    narrowed 24 128 (fst (Complex128_Div (a', b') (c', d'))) (fst (Complex64_Div (a, b) (c, d))) /\
    narrowed 24 128 (snd (Complex128_Div (a', b') (c', d'))) (snd (Complex64_Div (a, b) (c, d))).
Proof.
  intros a b c d Va Vb Vc Vd. exists (to64 a), (to64 b), (to64 c), (to64 d).
  destruct (widen a Va), (widen b Vb), (widen c Vc), (widen d Vd). repeat (split; [assumption|]). split; apply narrowed_to32.
Qed.
Print Assumptions C103_complex64_widened.

(** A real divisor: both parts are divided by it, correctly rounded, with the sign of the
    rule; an imaginary divisor: the parts change places. *)
Theorem C103_by_real : forall a b c s, is_F64 a -> is_F64 b -> is_F64 c -> finite a -> finite b -> finite c -> nonzero c ->
  let q := Complex128_Div (a, b) (c, S754_zero s) in
  rounds_to 53 1024 (value a / value c) (fst q) /\ (nonzero a -> negative (fst q) = xorb (negative a) (negative c)) /\
  rounds_to 53 1024 (value b / value c) (snd q) /\ (nonzero b -> negative (snd q) = xorb (negative b) (negative c)).
Proof. exact by_real. Qed.
Print Assumptions C103_by_real.
Theorem C103_by_imaginary : forall a b d s, is_F64 a -> is_F64 b -> is_F64 d -> finite a -> finite b -> finite d -> nonzero d ->
  let q := Complex128_Div (a, b) (S754_zero s, d) in
  rounds_to 53 1024 (value b / value d) (fst q) /\ (nonzero b -> negative (fst q) = xorb (negative b) (negative d)) /\
  rounds_to 53 1024 (- value a / value d) (snd q) /\ (nonzero a -> negative (snd q) = negb (xorb (negative a) (negative d))).
Proof. exact by_imaginary. Qed.
Print Assumptions C103_by_imaginary.

(** Zero as the divisor never panics: each part of the dividend is multiplied by the infinity
    with the sign of the divisor's real part. *)
Theorem C103_by_zero : forall a b sc sd, let q := Complex128_Div (a, b) (S754_zero sc, S754_zero sd) in
  ieee_mul 53 1024 (S754_infinity sc) a (fst q) /\ ieee_mul 53 1024 (S754_infinity sc) b (snd q).
Proof.
  intros a b sc sd. cbv zeta. unfold Complex128_Div. rewrite by_zero. cbn [fst snd].
  split; [destruct a|destruct b]; cbn; auto.
Qed.
Print Assumptions C103_by_zero.
(** An infinite dividend over a finite divisor other than zero: infinite again, each part on
    the side of the product of directions. *)
Theorem C103_infinite_dividend : forall a b c d, is_F64 c -> is_F64 d -> finite c -> finite d -> nonzero c \/ nonzero d ->
  infinite a \/ infinite b ->
  let q := Complex128_Div (a, b) (c, d) in
  infinite_toward (real_part (direction a) (direction b) (value c) (value d)) (fst q) /\
  infinite_toward (imaginary_part (direction a) (direction b) (value c) (value d)) (snd q) /\
  (infinite (fst q) \/ infinite (snd q)).
Proof.
  intros a b c d Vc Vd Fc Fd N H. destruct (infinite_dividend a b c d Vc Vd Fc Fd N H) as [A B]. cbv zeta.
  split; [exact A|]. split; [exact B|].
  assert (T : forall v x, ~ v == 0 -> infinite_toward v x -> infinite x).
  { intros v x Z (_ & P & M). destruct (Q_dec v 0) as [[L|L]|E]; [exists true; auto|exists false; auto|contradiction]. }
  destruct (Qeq_dec (direction a * value c + direction b * value d) 0) as [E|E]; [right|left; exact (T _ _ E A)].
  refine (T _ _ _ B). intros E2. revert E E2.
  assert (K : direction a == 1 \/ direction a == - (1) \/ direction b == 1 \/ direction b == - (1))
    by (destruct H as [[[] ->]|[[] ->]]; cbn [direction]; [right; left|left|right; right; right|right; right; left]; reflexivity).
  unfold nonzero in N. generalize (value c) (value d) N (direction_cases a) (direction_cases b) K. clear.
  intros x y N Da Db K E E2.
  assert (x == 0 /\ y == 0).
  { destruct Da as [Da|[Da|Da]], Db as [Db|[Db|Db]]; rewrite Da, Db in *; try (split; lra); exfalso; destruct K as [K|[K|[K|K]]]; discriminate K. }
  destruct N as [N|N]; apply N; tauto.
Qed.
Print Assumptions C103_infinite_dividend.
(** A finite dividend over an infinite divisor: zero, unless the sum of the parts of the
    dividend exceeds the format. *)
Theorem C103_infinite_divisor : forall a b c d, is_F64 a -> is_F64 b -> finite a -> finite b -> infinite c \/ infinite d ->
  let q := Complex128_Div (a, b) (c, d) in
  vanishes_toward (real_part (value a) (value b) (direction c) (direction d)) (fst q) /\
  vanishes_toward (imaginary_part (value a) (value b) (direction c) (direction d)) (snd q).
Proof. exact infinite_divisor. Qed.
Print Assumptions C103_infinite_divisor.
(** What has no value has no quotient: infinite over infinite, and NaN over or under anything
    that is neither infinite nor, as the divisor, zero. *)
Theorem C103_infinite_both : forall a b c d, infinite a \/ infinite b -> infinite c \/ infinite d ->
  Complex128_Div (a, b) (c, d) = (S754_nan, S754_nan).
Proof. exact infinite_both. Qed.
Print Assumptions C103_infinite_both.
Theorem C103_nan : forall a b c d,
  ((a = S754_nan \/ b = S754_nan) /\ ~ (infinite a \/ infinite b) /\ ~ ((exists s, c = S754_zero s) /\ (exists s, d = S754_zero s))) \/
  ((c = S754_nan \/ d = S754_nan) /\ ~ (infinite c \/ infinite d)) ->
  Complex128_Div (a, b) (c, d) = (S754_nan, S754_nan).
Proof.
  intros a b c d [(H & I & Z)|[H I]]; [|apply nan_divisor; assumption]. apply nan_dividend; [exact H|exact I|].
  intros [Z1 Z2]. apply Z. destruct c; try discriminate Z1. destruct d; try discriminate Z2. split; eexists; reflexivity.
Qed.
Print Assumptions C103_nan.
(** The assigning forms compute the same. *)
Theorem C103_assign : forall x y, Complex64_DivAssign x y = Complex64_Div x y /\ Complex128_DivAssign x y = Complex128_Div x y.
Proof. split; reflexivity. Qed.
Print Assumptions C103_assign.

(** (-5 + 10i) / (3 + 4i) = 1 + 2i; 1 / 0 is an infinity; an infinite number over 3 + 4i is
    infinite; 1 + 2i over an infinite number vanishes; the largest number over an infinite
    one does not. *)
Example C103_nonvacuous :
  Complex64_Div (lit32 (-5) 1, lit32 10 1) (lit32 3 1, lit32 4 1) = (lit32 1 1, lit32 2 1) /\
  Complex128_Div (lit64 (-5) 1, lit64 10 1) (lit64 3 1, lit64 4 1) = (lit64 1 1, lit64 2 1) /\
  Complex128_Div (lit64 1 1, lit64 0 1) (lit64 0 1, lit64 0 1) = (S754_infinity false, S754_nan) /\
  Complex128_Div (S754_infinity false, lit64 1 1) (lit64 3 1, lit64 4 1) = (S754_infinity false, S754_infinity true) /\
  Complex128_Div (lit64 1 1, lit64 2 1) (S754_infinity false, S754_infinity true) = (S754_zero true, S754_zero false) /\
  Complex128_Div (large, large) (S754_infinity false, S754_infinity false) = (S754_nan, S754_zero false) /\
  Complex128_Div (S754_nan, lit64 2 1) (lit64 3 1, lit64 4 1) = (S754_nan, S754_nan) /\
  is_F64 (lit64 (-5) 1) /\ is_F32 (lit32 (-5) 1) /\ moderate (lit64 (-5) 1) /\ nonzero (lit64 3 1).
Proof.
  repeat (split; [vm_compute; reflexivity|]). split; [|intros H; vm_compute in H; discriminate H].
  split; [exact I|]. right. split; vm_compute; intros H; discriminate H.
Qed.
