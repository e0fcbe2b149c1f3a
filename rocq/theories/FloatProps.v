(** FloatProps.v -- C88 .. C92: F32, F64, Complex64 and Complex128. *)
From Coq Require Import ZArith QArith Qabs Lqa Lia Bool Floats.SpecFloat.
From Verif Require Import FloatSpec FloatModel FloatOpsProofs FloatSqrtProofs FloatProofs.
Local Open Scope Q_scope.

(** A Go constant n/d of type F32 or F64 (for the examples). *)
Definition lit32 (n d : Z) : spec_float := SFdiv 24 128 (binary_normalize 24 128 n 0 false) (binary_normalize 24 128 d 0 false).
Definition lit64 (n d : Z) : spec_float := SFdiv 53 1024 (binary_normalize 53 1024 n 0 false) (binary_normalize 53 1024 d 0 false).

(** *** C88: integer parts, fractions and absolute values are exact *)
Theorem C88_floor : forall x,
  (is_F32 x -> is_F32 (F32_Floor x) /\ integer_of is_floor x (F32_Floor x)) /\
  (is_F64 x -> is_F64 (F64_Floor x) /\ integer_of is_floor x (F64_Floor x)).
Proof.
  intros x. split; intros V.
  - destruct (part32 is_floor floor_eq floor_int floor_near floor_pick floor_pick_ok x V). auto.
  - destruct (part64 is_floor floor_eq floor_int floor_near floor_pick floor_pick_ok x V). auto.
Qed.
Print Assumptions C88_floor.
Theorem C88_ceil : forall x,
  (is_F32 x -> is_F32 (F32_Ceil x) /\ integer_of is_ceiling x (F32_Ceil x)) /\
  (is_F64 x -> is_F64 (F64_Ceil x) /\ integer_of is_ceiling x (F64_Ceil x)).
Proof.
  intros x. split; intros V.
  - destruct (part32 is_ceiling ceiling_eq ceiling_int ceiling_near ceiling_pick ceiling_pick_ok x V). auto.
  - destruct (part64 is_ceiling ceiling_eq ceiling_int ceiling_near ceiling_pick ceiling_pick_ok x V). auto.
Qed.
Print Assumptions C88_ceil.
Theorem C88_trunc : forall x,
  (is_F32 x -> is_F32 (F32_Trunc x) /\ integer_of is_truncation x (F32_Trunc x)) /\
  (is_F64 x -> is_F64 (F64_Trunc x) /\ integer_of is_truncation x (F64_Trunc x)).
Proof.
  intros x. split; intros V.
  - destruct (part32 is_truncation truncation_eq truncation_int truncation_near truncation_pick truncation_pick_ok x V). auto.
  - destruct (part64 is_truncation truncation_eq truncation_int truncation_near truncation_pick truncation_pick_ok x V). auto.
Qed.
Print Assumptions C88_trunc.
Theorem C88_round : forall x,
  (is_F32 x -> is_F32 (F32_Round x) /\ integer_of is_nearest x (F32_Round x)) /\
  (is_F64 x -> is_F64 (F64_Round x) /\ integer_of is_nearest x (F64_Round x)).
Proof.
  intros x. split; intros V.
  - destruct (part32 is_nearest nearest_eq nearest_int nearest_near nearest_pick nearest_pick_ok x V). auto.
  - destruct (part64 is_nearest nearest_eq nearest_int nearest_near nearest_pick nearest_pick_ok x V). auto.
Qed.
Print Assumptions C88_round.
(** Frac is exactly what Trunc leaves, with the sign bit of the number; an infinity has no
    fraction. *)
Theorem C88_frac : forall x,
  (is_F32 x -> is_F32 (F32_Frac x) /\ (~ finite x -> F32_Frac x = S754_nan) /\
     (finite x -> finite (F32_Frac x) /\ value (F32_Trunc x) + value (F32_Frac x) == value x /\ negative (F32_Frac x) = negative x)) /\
  (is_F64 x -> is_F64 (F64_Frac x) /\ (~ finite x -> F64_Frac x = S754_nan) /\
     (finite x -> finite (F64_Frac x) /\ value (F64_Trunc x) + value (F64_Frac x) == value x /\ negative (F64_Frac x) = negative x)).
Proof.
  intros x. split; intros V.
  - split; [apply convert_valid; lia|]. split.
    + destruct x as [s|[|]| |s m e]; intros F; try reflexivity; exfalso; apply F; exact I.
    + intros F. destruct (frac32 x V F) as (A & B & C & D). split; [exact A|]. split; [rewrite D; ring|exact C].
  - destruct x as [s|[|]| |s m e].
    + split; [apply (frac64 _ V I)|]. split; [intros F; exfalso; apply F; exact I|].
      intros F. destruct (frac64 _ V F) as (A & B & C & D). split; [exact A|]. split; [rewrite D; ring|exact C].
    + split; [reflexivity|]. split; [reflexivity|intros []].
    + split; [reflexivity|]. split; [reflexivity|intros []].
    + split; [reflexivity|]. split; [reflexivity|intros []].
    + split; [apply (frac64 _ V I)|]. split; [intros F; exfalso; apply F; exact I|].
      intros F. destruct (frac64 _ V F) as (A & B & C & D). split; [exact A|]. split; [rewrite D; ring|exact C].
Qed.
Print Assumptions C88_frac.
(** Abs clears the sign bit and changes nothing else. *)
Lemma abs_number x : match x with
  | S754_zero _ | S754_finite _ _ _ => finite (SFabs x) /\ value (SFabs x) == Qabs (value x) /\ negative (SFabs x) = false
  | S754_infinity _ => SFabs x = S754_infinity false
  | S754_nan => SFabs x = S754_nan end.
Proof.
  destruct x as [s|s| |s m e]; try reflexivity; cbn [SFabs finite negative]; (split; [exact I|]; split; [|reflexivity]).
  - reflexivity.
  - cbn [value]. rewrite inj_opp_if, signed_abs by (apply Qlt_le_weak, pos_scale). reflexivity.
Qed.
Definition absolute_of (x r : spec_float) : Prop := match x with
  | S754_zero _ | S754_finite _ _ _ => finite r /\ value r == Qabs (value x) /\ negative r = false
  | S754_infinity _ => r = S754_infinity false
  | S754_nan => r = S754_nan end.
Theorem C88_abs : forall x, (is_F32 x -> is_F32 (F32_Abs x) /\ absolute_of x (F32_Abs x)) /\ (is_F64 x -> is_F64 (F64_Abs x) /\ absolute_of x (F64_Abs x)).
Proof.
  intros x. split; intros V.
  - destruct (widen x V) as [S W]. assert (VA : is_F32 (SFabs x)) by (destruct x; exact V).
    assert (E : F32_Abs x = SFabs x).
    { apply narrow_exact; [exact VA|destruct (to64 x); exact W|].
      destruct x as [s|s| |s m e]; try reflexivity.
      - cbn. repeat split.
      - destruct (same_finite _ _ S I) as (A & B & C). pose proof (abs_number (to64 (S754_finite s m e))) as K.
        unfold math_Abs. set (y := to64 (S754_finite s m e)) in *. clearbody y. cbn [SFabs same_number].
        pose proof (abs_number (S754_finite s m e)) as (_ & K2 & _). cbn [SFabs] in K2. rewrite K2, <- B.
        destruct y; try contradiction; exact K. }
    rewrite E. split; [exact VA|apply abs_number].
  - split; [destruct x; exact V|apply abs_number].
Qed.
Print Assumptions C88_abs.

(** 3.7 and -3.7 (as in the documentation), half-way cases, a number above 2^24, the
    smallest F32, -0.3 (whose integer part is a negative zero). *)
Example C88_nonvacuous :
  (is_F32 (lit32 37 10) /\ is_F32 (lit32 (-37) 10) /\ is_F64 (lit64 37 10) /\ is_F32 (S754_finite false 1 (-149))) /\
  (F32_Floor (lit32 37 10) = lit32 3 1 /\ F32_Floor (lit32 (-37) 10) = lit32 (-4) 1 /\ F64_Floor (lit64 (-37) 10) = lit64 (-4) 1) /\
  (F32_Ceil (lit32 301 100) = lit32 4 1 /\ F64_Ceil (lit64 301 100) = lit64 4 1 /\ F32_Ceil (S754_finite false 1 (-149)) = lit32 1 1) /\
  (F32_Round (lit32 33 10) = lit32 3 1 /\ F32_Round (lit32 (-37) 10) = lit32 (-4) 1 /\ F32_Round (lit32 7 2) = lit32 4 1 /\
   F32_Round (lit32 9 2) = lit32 5 1 /\ F64_Round (lit64 (-9) 2) = lit64 (-5) 1 /\ F32_Round (lit32 16777217 1) = lit32 16777216 1) /\
  (F32_Trunc (lit32 (-37) 10) = lit32 (-3) 1 /\ F32_Trunc (lit32 (-3) 10) = S754_zero true /\ F32_Frac (lit32 (-3) 1) = S754_zero true) /\
  (F32_Abs (lit32 (-3) 1) = lit32 3 1 /\ F64_Abs (S754_zero true) = S754_zero false).
Proof. repeat split; vm_compute; reflexivity. Qed.
(** The documentation of Frac says 3.7 has the fraction 0.7.  It has not: 3.7 and 0.7 are
    both rounded, and their errors differ. *)
Example C88_documented_fraction :
  F32_Frac (lit32 37 10) <> lit32 7 10 /\ F64_Frac (lit64 37 10) <> lit64 7 10 /\ F32_Frac (lit32 5 4) = lit32 1 4.
Proof. repeat split; vm_compute; congruence. Qed.

(** *** C89: arithmetic is that of IEEE 754; the assigning forms do the same *)
Section Arithmetic.
  Variable prec emax : Z.
  Hypothesis Hprec : (1 < prec)%Z.
  Hypothesis Hemax : (prec < emax)%Z.
  Lemma ieee_add_ok x y : valid_binary prec emax x = true -> valid_binary prec emax y = true -> ieee_add prec emax x y (SFadd prec emax x y).
  Proof.
    intros Vx Vy. pose proof (add_ok prec emax Hprec Hemax x y Vx Vy) as H.
    destruct x as [sx|sx| |sx mx ex], y as [sy|sy| |sy my ey]; try reflexivity; apply H; exact I.
  Qed.
  Lemma ieee_sub_ok x y : valid_binary prec emax x = true -> valid_binary prec emax y = true -> ieee_sub prec emax x y (SFsub prec emax x y).
  Proof.
    intros Vx Vy. pose proof (sub_ok prec emax Hprec Hemax x y Vx Vy) as H.
    destruct x as [sx|sx| |sx mx ex], y as [sy|sy| |sy my ey]; try reflexivity; try (apply H; exact I).
    destruct sx, sy; reflexivity.
  Qed.
  Lemma ieee_mul_ok x y : valid_binary prec emax x = true -> valid_binary prec emax y = true -> ieee_mul prec emax x y (SFmul prec emax x y).
  Proof.
    intros Vx Vy. pose proof (mul_ok prec emax Hprec Hemax x y Vx Vy) as H.
    destruct x as [sx|sx| |sx mx ex], y as [sy|sy| |sy my ey]; try reflexivity; apply H; exact I.
  Qed.
  Lemma ieee_div_ok x y : valid_binary prec emax x = true -> valid_binary prec emax y = true -> ieee_div prec emax x y (SFdiv prec emax x y).
  Proof.
    intros Vx Vy. pose proof (div_ok prec emax Hprec Hemax x y Vx Vy) as H.
    destruct x as [sx|sx| |sx mx ex], y as [sy|sy| |sy my ey]; try reflexivity; apply H; try exact I; apply value_nonzero.
  Qed.
End Arithmetic.
Theorem C89_arithmetic_F32 : forall x y, is_F32 x -> is_F32 y ->
  (ieee_add 24 128 x y (F32_Add x y) /\ ieee_sub 24 128 x y (F32_Sub x y) /\
   ieee_mul 24 128 x y (F32_Mul x y) /\ ieee_div 24 128 x y (F32_Div x y)) /\
  (F32_AddAssign x y = F32_Add x y /\ F32_SubAssign x y = F32_Sub x y /\ F32_MulAssign x y = F32_Mul x y /\ F32_DivAssign x y = F32_Div x y).
Proof.
  intros x y Vx Vy. split; [|repeat split; reflexivity].
  split; [apply ieee_add_ok; auto; lia|]. split; [apply ieee_sub_ok; auto; lia|]. split; [apply ieee_mul_ok; auto; lia|apply ieee_div_ok; auto; lia].
Qed.
Print Assumptions C89_arithmetic_F32.
Theorem C89_arithmetic_F64 : forall x y, is_F64 x -> is_F64 y ->
  (ieee_add 53 1024 x y (F64_Add x y) /\ ieee_sub 53 1024 x y (F64_Sub x y) /\
   ieee_mul 53 1024 x y (F64_Mul x y) /\ ieee_div 53 1024 x y (F64_Div x y)) /\
  (F64_AddAssign x y = F64_Add x y /\ F64_SubAssign x y = F64_Sub x y /\ F64_MulAssign x y = F64_Mul x y /\ F64_DivAssign x y = F64_Div x y).
Proof.
  intros x y Vx Vy. split; [|repeat split; reflexivity].
  split; [apply ieee_add_ok; auto; lia|]. split; [apply ieee_sub_ok; auto; lia|]. split; [apply ieee_mul_ok; auto; lia|apply ieee_div_ok; auto; lia].
Qed.
Print Assumptions C89_arithmetic_F64.
(** What is representable is computed exactly; so x - x, x * 1, x / x are what they should be. *)
Theorem C89_exact : forall x y z, is_F64 x -> is_F64 y -> is_F64 z -> finite x -> finite y -> finite z ->
  (value x + value y == value z -> finite (F64_Add x y) /\ value (F64_Add x y) == value z) /\
  (value x - value y == value z -> finite (F64_Sub x y) /\ value (F64_Sub x y) == value z) /\
  (value x * value y == value z -> finite (F64_Mul x y) /\ value (F64_Mul x y) == value z) /\
  (~ value y == 0 -> value x / value y == value z -> finite (F64_Div x y) /\ value (F64_Div x y) == value z).
Proof.
  intros x y z Vx Vy Vz Fx Fy Fz.
  assert (K : forall v r, rounds_to 53 1024 v r -> v == value z -> finite r /\ value r == value z).
  { intros v r R E. destruct (rounds_representable 53 1024 ltac:(lia) v r z R Vz Fz ltac:(symmetry; exact E)) as [A B]. split; [exact A|]. rewrite B. exact E. }
  split; [|split; [|split]]; intros; eapply K; eauto.
  - apply (add_ok 53 1024 ltac:(lia) ltac:(lia) x y Vx Vy Fx Fy).
  - apply (sub_ok 53 1024 ltac:(lia) ltac:(lia) x y Vx Vy Fx Fy).
  - apply (mul_ok 53 1024 ltac:(lia) ltac:(lia) x y Vx Vy Fx Fy).
  - apply (div_ok 53 1024 ltac:(lia) ltac:(lia) x y Vx Vy Fx Fy); assumption.
Qed.
Print Assumptions C89_exact.
(** 0.1 + 0.2 is not 0.3; a tie goes to even; 1/0 is an infinity, not a panic; the largest
    number doubled overflows; the smallest halved is zero. *)
Example C89_nonvacuous :
  F64_Add (lit64 1 10) (lit64 2 10) <> lit64 3 10 /\
  F32_Add (lit32 16777216 1) (lit32 1 1) = lit32 16777216 1 /\ F32_Add (lit32 16777216 1) (lit32 3 1) = lit32 16777220 1 /\
  F64_Div (lit64 1 1) (S754_zero true) = S754_infinity true /\ F64_Div (S754_zero false) (S754_zero false) = S754_nan /\
  F32_Mul (S754_finite false 16777215 104) (lit32 2 1) = S754_infinity false /\
  F32_Div (S754_finite true 1 (-149)) (lit32 2 1) = S754_zero true /\
  F32_Sub (lit32 37 10) (lit32 37 10) = S754_zero false /\ F64_Mul (lit64 3 2) (lit64 (-5) 2) = lit64 (-15) 4.
Proof. repeat split; vm_compute; congruence. Qed.

(** *** C90: square roots are correctly rounded, for F32 although it is computed in float64 *)
Theorem C90_sqrt : forall x,
  (is_F32 x -> ieee_sqrt 24 128 x (F32_Sqrt x)) /\ (is_F64 x -> ieee_sqrt 53 1024 x (F64_Sqrt x)).
Proof.
  intros x. split; intros V.
  - destruct x as [s|[|]| |[|] m e]; try reflexivity.
    + cbn [ieee_sqrt]. destruct (widen _ V) as [S W]. destruct (same_finite _ _ S I) as (F & E & N). unfold F32_Sqrt.
      set (y := to64 (S754_finite true m e)) in *. clearbody y.
      destruct y as [s'|s'| |s' m' e']; try contradiction; [exfalso; symmetry in E; revert E; apply value_nonzero|].
      cbn [negative] in N. subst. reflexivity.
    + apply sqrt32; [exact V|reflexivity].
  - destruct x as [s|[|]| |[|] m e]; try reflexivity. apply (sqrt_ok 53 1024 ltac:(lia) ltac:(lia) m e V).
Qed.
Print Assumptions C90_sqrt.
(** The root of a square is exact. *)
Theorem C90_perfect_squares : forall x y, negative y = false -> finite x -> finite y -> 0 < value x -> value y * value y == value x ->
  (is_F32 x -> is_F32 y -> F32_Sqrt x = y) /\ (is_F64 x -> is_F64 y -> F64_Sqrt x = y).
Proof.
  intros x y Ny Fx Fy P E.
  assert (K : forall prec emax r, (1 < prec)%Z -> sqrt_rounds_to prec emax (value x) r -> valid_binary prec emax y = true -> r = y).
  { intros prec emax r H1 (V & F & N & H) Vy. specialize (H y Vy Fy Ny). cbv zeta in H. destruct H as [H2 H3].
    assert (NN : forall z, finite z -> negative z = false -> 0 <= value z).
    { intros z Fz Nz. destruct z as [s|s| |s m e]; try contradiction; cbn [value negative] in *; [lra|]. subst. apply scale_nonneg. lia. }
    pose proof (NN y Fy Ny) as Y0. pose proof (NN r F N) as R0.
    apply (valid_inj prec emax H1); auto; [|congruence].
    destruct (Q_dec (value r) (value y)) as [[L|L]|L]; [exfalso|exfalso|exact L].
    - destruct (H2 L) as [A _]. nra.
    - destruct (H3 L) as [A _]. nra. }
  assert (X : exists m e, x = S754_finite false m e).
  { destruct x as [s|s| |[|] m e]; try contradiction; cbn [value] in P; try lra; [|eauto].
    pose proof (pos_scale m e). change (Zneg m) with (- Zpos m)%Z in P. rewrite inject_Z_opp in P. lra. }
  destruct X as (m & e & ->). split; intros Vx Vy.
  - apply (K 24 128)%Z; [lia|apply sqrt32; [exact Vx|reflexivity]|exact Vy].
  - apply (K 53 1024)%Z; [lia|apply (sqrt_ok 53 1024 ltac:(lia) ltac:(lia) m e Vx)|exact Vy].
Qed.
Print Assumptions C90_perfect_squares.
Example C90_nonvacuous :
  F32_Sqrt (lit32 9 1) = lit32 3 1 /\ F64_Sqrt (lit64 16 1) = lit64 4 1 /\ F64_Sqrt (lit64 2 1) = S754_finite false 6369051672525773 (-52) /\
  F32_Sqrt (lit32 2 1) = S754_finite false 11863283 (-23) /\ F32_Sqrt (lit32 (-1) 1) = S754_nan /\ F32_Sqrt (S754_zero true) = S754_zero true /\
  F32_Sqrt (S754_finite false 1 (-149)) = S754_finite false 11863283 (-98).
Proof. repeat split; vm_compute; reflexivity. Qed.

(** *** C91: the other functions are those of float64; F32 rounds their result once *)
Lemma narrowed_to32 z : narrowed 24 128 z (to32 z).
Proof.
  split.
  - intros F. apply (convert_ok 24 128 ltac:(lia) ltac:(lia) z F).
  - destruct z; intros F; try reflexivity; exfalso; apply F; exact I.
Qed.
(** [r] is [f] of the number [x], computed in float64 and rounded to an F32. *)
Definition rounded_once (f : spec_float -> spec_float) (x r : spec_float) : Prop :=
  exists y, is_F64 y /\ same_number x y /\ narrowed 24 128 (f y) r.
Theorem C91_functions : forall math x, is_F32 x ->
  rounded_once (Exp math) x (F32_Exp math x) /\ rounded_once (Exp2 math) x (F32_Exp2 math x) /\
  rounded_once (Log math) x (F32_Ln math x) /\ rounded_once (Log2 math) x (F32_Log2 math x) /\
  rounded_once (Log10 math) x (F32_Log10 math x) /\
  (forall y, is_F64 y -> F64_Exp math y = Exp math y /\ F64_Exp2 math y = Exp2 math y /\ F64_Ln math y = Log math y /\
     F64_Log2 math y = Log2 math y /\ F64_Log10 math y = Log10 math y).
Proof.
  intros math x V. destruct (widen x V) as [S W].
  repeat split; try (exists (to64 x); split; [exact W|]; split; [exact S|]; apply narrowed_to32).
Qed.
Print Assumptions C91_functions.
Theorem C91_powers_logarithms : forall math x y, is_F32 x -> is_F32 y ->
  exists x' y', is_F64 x' /\ same_number x x' /\ is_F64 y' /\ same_number y y' /\
    narrowed 24 128 (Pow math x' y') (F32_Powf math x y) /\
    F64_Powf math x' y' = Pow math x' y' /\
    (is_F64 (Log math x') -> is_F64 (Log math y') ->
       ieee_div 53 1024 (Log math x') (Log math y') (F64_Log math x' y') /\
       narrowed 24 128 (F64_Log math x' y') (F32_Log math x y)) /\
    (forall n, exists k, rounds_to 53 1024 (inject_Z n) k /\ ((Z.abs n <= 2 ^ 53)%Z -> value k == inject_Z n) /\
       narrowed 24 128 (Pow math x' k) (F32_Powi math x n) /\ F64_Powi math x' n = Pow math x' k).
Proof.
  intros math x y Vx Vy. destruct (widen x Vx) as [Sx Wx], (widen y Vy) as [Sy Wy].
  exists (to64 x), (to64 y). split; [exact Wx|]. split; [exact Sx|]. split; [exact Wy|]. split; [exact Sy|].
  split; [apply narrowed_to32|]. split; [reflexivity|]. split.
  - intros L1 L2. split; [|apply narrowed_to32]. apply ieee_div_ok; auto; lia.
  - intros n. exists (int_to64 n).
    assert (R : rounds_to 53 1024 (inject_Z n) (int_to64 n)).
    { unfold int_to64. destruct (Z.eq_dec n 0) as [->|N].
      - apply rounds_exact; try lia; try reflexivity; exact I.
      - destruct (normalize_ok 53 1024 ltac:(lia) ltac:(lia) n 0 false N) as [R _]. eapply rounds_eq; [|exact R].
        change (2 ^ 0) with 1. ring. }
    split; [exact R|]. split; [|split; [apply narrowed_to32|reflexivity]]. intros B.
    assert (HZ : exists z, valid_binary 53 1024 z = true /\ finite z /\ value z == inject_Z n).
    { assert (HQ : forall (s : bool) (p : positive), (Zpos p <= 2 ^ 53)%Z -> exists z, valid_binary 53 1024 z = true /\ finite z /\ value z == inject_Z (if s then Zneg p else Zpos p)).
      { intros s p Bp.
        destruct (exact_round 53 1024 ltac:(lia) ltac:(lia) s p 0) as (X1 & X2 & X3 & X4).
        - destruct (Z.eq_dec (Zpos p) (2 ^ 53)) as [Ep|Np].
          + exists (2 ^ 52)%Z, 1%Z. rewrite Ep. split; [reflexivity|]. split; [split; [discriminate|reflexivity]|discriminate].
          + exists (Zpos p), 0%Z. split; [reflexivity|]. split; [lia|discriminate].
        - apply Qle_lt_trans with (inject_Z (2 ^ 53) * 2 ^ 0); [apply FloatRoundProofs.scale_le, Bp|reflexivity].
        - eexists. split; [exact X1|]. split; [exact X2|]. rewrite X3. cbn [value]. change (2 ^ 0) with 1. destruct s; ring. }
      destruct n as [|p|p].
      - exists (S754_zero false). split; [reflexivity|]. split; [exact I|reflexivity].
      - apply (HQ false p). lia.
      - apply (HQ true p). lia. }
    destruct HZ as (z & Z1 & Z2 & Z3). apply (rounds_representable 53 1024 ltac:(lia) _ _ z R Z1 Z2 Z3).
Qed.
Print Assumptions C91_powers_logarithms.
(** A library whose Exp2 is the constant 1.1 and whose Pow is the product. *)
Example C91_nonvacuous :
  let math := {| Pow := SFmul 53 1024; Exp := fun x => x; Exp2 := fun _ => lit64 11 10; Log := fun x => x; Log2 := fun x => x; Log10 := fun _ => S754_nan |} in
  F32_Exp2 math (lit32 1 1) = lit32 11 10 /\ F32_Powi math (lit32 3 1) 2 = lit32 6 1 /\ F32_Log math (lit32 6 1) (lit32 4 1) = lit32 3 2 /\
  F32_Log10 math (lit32 1 1) = S754_nan /\ F32_Exp math (lit32 1 10) = lit32 1 10.
Proof. repeat split; vm_compute; reflexivity. Qed.

(** *** C92: complex numbers *)
Theorem C92_add_sub : forall a b c d,
  (is_F32 a -> is_F32 b -> is_F32 c -> is_F32 d ->
     (ieee_add 24 128 a c (fst (Complex64_Add (a, b) (c, d))) /\ ieee_add 24 128 b d (snd (Complex64_Add (a, b) (c, d)))) /\
     (ieee_sub 24 128 a c (fst (Complex64_Sub (a, b) (c, d))) /\ ieee_sub 24 128 b d (snd (Complex64_Sub (a, b) (c, d))))) /\
  (is_F64 a -> is_F64 b -> is_F64 c -> is_F64 d ->
     (ieee_add 53 1024 a c (fst (Complex128_Add (a, b) (c, d))) /\ ieee_add 53 1024 b d (snd (Complex128_Add (a, b) (c, d)))) /\
     (ieee_sub 53 1024 a c (fst (Complex128_Sub (a, b) (c, d))) /\ ieee_sub 53 1024 b d (snd (Complex128_Sub (a, b) (c, d))))).
Proof.
  intros a b c d. split; intros Va Vb Vc Vd.
  - repeat split; [apply ieee_add_ok|apply ieee_add_ok|apply ieee_sub_ok|apply ieee_sub_ok]; auto; lia.
  - repeat split; [apply ieee_add_ok|apply ieee_add_ok|apply ieee_sub_ok|apply ieee_sub_ok]; auto; lia.
Qed.
Print Assumptions C92_add_sub.
(** (a + bi)(c + di): a Complex64 product has exact products, is summed in float64 and
    rounded to F32; a Complex128 product rounds every operation. *)
Theorem C92_mul : forall a b c d,
  (is_F32 a -> is_F32 b -> is_F32 c -> is_F32 d -> finite a -> finite b -> finite c -> finite d ->
     exists re im, rounds_to 53 1024 (value a * value c - value b * value d) re /\
       rounds_to 53 1024 (value a * value d + value b * value c) im /\
       narrowed 24 128 re (fst (Complex64_Mul (a, b) (c, d))) /\ narrowed 24 128 im (snd (Complex64_Mul (a, b) (c, d)))) /\
  (is_F64 a -> is_F64 b -> is_F64 c -> is_F64 d ->
     exists ac bd ad bc, ieee_mul 53 1024 a c ac /\ ieee_mul 53 1024 b d bd /\ ieee_mul 53 1024 a d ad /\ ieee_mul 53 1024 b c bc /\
       ieee_sub 53 1024 ac bd (fst (Complex128_Mul (a, b) (c, d))) /\ ieee_add 53 1024 ad bc (snd (Complex128_Mul (a, b) (c, d)))).
Proof.
  intros a b c d. split.
  - intros Va Vb Vc Vd Fa Fb Fc Fd.
    destruct (widened_product a c Va Vc Fa Fc) as (F1 & V1 & E1), (widened_product b d Vb Vd Fb Fd) as (F2 & V2 & E2),
      (widened_product a d Va Vd Fa Fd) as (F3 & V3 & E3), (widened_product b c Vb Vc Fb Fc) as (F4 & V4 & E4).
    exists (SFsub 53 1024 (SFmul 53 1024 (to64 a) (to64 c)) (SFmul 53 1024 (to64 b) (to64 d))),
      (SFadd 53 1024 (SFmul 53 1024 (to64 a) (to64 d)) (SFmul 53 1024 (to64 b) (to64 c))).
    split; [|split; [|split; apply narrowed_to32]].
    + eapply rounds_eq; [|apply (sub_ok 53 1024 ltac:(lia) ltac:(lia) _ _ V1 V2 F1 F2)]. rewrite E1, E2. reflexivity.
    + eapply rounds_eq; [|apply (add_ok 53 1024 ltac:(lia) ltac:(lia) _ _ V3 V4 F3 F4)]. rewrite E3, E4. reflexivity.
  - intros Va Vb Vc Vd.
    assert (VM : forall x y, is_F64 x -> is_F64 y -> is_F64 (SFmul 53 1024 x y)).
    { intros x y Vx Vy. pose proof (mul_ok 53 1024 ltac:(lia) ltac:(lia) x y Vx Vy) as H.
      destruct x as [sx|sx| |sx mx ex], y as [sy|sy| |sy my ey]; try reflexivity; apply H; exact I. }
    exists (SFmul 53 1024 a c), (SFmul 53 1024 b d), (SFmul 53 1024 a d), (SFmul 53 1024 b c).
    repeat split; first [apply ieee_mul_ok|apply ieee_sub_ok|apply ieee_add_ok]; try lia; auto; apply VM; auto.
Qed.
Print Assumptions C92_mul.
(** The Complex64 product in all cases, infinities and NaN included: that of the same
    numbers in Complex128, rounded. *)
Theorem C92_mul_widened : forall a b c d, is_F32 a -> is_F32 b -> is_F32 c -> is_F32 d ->
  exists a' b' c' d', is_F64 a' /\ is_F64 b' /\ is_F64 c' /\ is_F64 d' /\
    same_number a a' /\ same_number b b' /\ same_number c c' /\ same_number d d' /\
    narrowed 24 128 (fst (Complex128_Mul (a', b') (c', d'))) (fst (Complex64_Mul (a, b) (c, d))) /\
    narrowed 24 128 (snd (Complex128_Mul (a', b') (c', d'))) (snd (Complex64_Mul (a, b) (c, d))).
Proof.
  intros a b c d Va Vb Vc Vd. exists (to64 a), (to64 b), (to64 c), (to64 d).
  destruct (widen a Va), (widen b Vb), (widen c Vc), (widen d Vd). repeat (split; [assumption|]). split; apply narrowed_to32.
Qed.
Print Assumptions C92_mul_widened.
Theorem C92_assign : forall x y,
  Complex64_AddAssign x y = Complex64_Add x y /\ Complex128_AddAssign x y = Complex128_Add x y /\
  Complex64_SubAssign x y = Complex64_Sub x y /\ Complex128_SubAssign x y = Complex128_Sub x y /\
  Complex64_MulAssign x y = Complex64_Mul x y /\ Complex128_MulAssign x y = Complex128_Mul x y.
Proof. intros x y. repeat split; reflexivity. Qed.
Print Assumptions C92_assign.
(** (1 + 2i)(3 + 4i) = -5 + 10i. *)
Example C92_nonvacuous :
  Complex64_Mul (lit32 1 1, lit32 2 1) (lit32 3 1, lit32 4 1) = (lit32 (-5) 1, lit32 10 1) /\
  Complex128_Mul (lit64 1 1, lit64 2 1) (lit64 3 1, lit64 4 1) = (lit64 (-5) 1, lit64 10 1) /\
  Complex64_Sub (lit32 1 1, lit32 2 1) (lit32 3 1, lit32 4 1) = (lit32 (-2) 1, lit32 (-2) 1) /\
  Complex128_Add (lit64 1 1, lit64 2 1) (lit64 3 1, lit64 4 1) = (lit64 4 1, lit64 6 1).
Proof. repeat split; vm_compute; reflexivity. Qed.
