(** FloatHexProofs.v -- ParseF64 on hexadecimal numerals and on numerals with underscores. *)
From Coq Require Import ZArith QArith Qabs Qpower Lqa Lia Bool List Floats.SpecFloat.
From Verif Require Import DecimalSpec FloatSpec FloatTextSpec FloatHexSpec DecimalModel FloatModel FloatTextModel DecimalProofs FloatOpsProofs FloatUniqueProofs FloatTextProofs FloatParseProofs.
Import ListNotations.
Local Open Scope Z_scope.

(** *** Hexadecimal digits *)
Lemma lower_range c : 97 <= lower c <= 102 <-> 65 <= c <= 70 \/ 97 <= c <= 102.
Proof.
  split.
  - intros H. destruct (proj1 (lower_letter c (lower c) ltac:(lia)) eq_refl) as [E|E]; lia.
  - intros [H|H].
    + assert (E : lower c = c + 32) by (apply lower_letter; lia). lia.
    + assert (E : lower c = c) by (apply lower_letter; lia). lia.
Qed.
Lemma digit_in_16 c : hex_char c -> digit_in 16 c = Some (hex_digit c) /\ c <> 95 /\ c <> 46.
Proof.
  intros H. unfold digit_in. destruct (is_digit c) eqn:D.
  - apply is_digit_spec in D. unfold digit_char in D. unfold hex_digit. destruct (Z.leb_spec c 57); [|lia]. split; [reflexivity|lia].
  - assert (N : ~ 48 <= c <= 57) by (intros Q; assert (is_digit c = true) by (apply is_digit_spec; exact Q); congruence).
    assert (L : 65 <= c <= 70 \/ 97 <= c <= 102) by (unfold hex_char in H; lia).
    pose proof (proj2 (lower_range c) L) as R.
    assert (T : (97 <=? lower c) && (lower c <=? 102) = true) by lia.
    change ((16 =? 16)) with true. cbn [andb]. rewrite T. unfold hex_digit.
    destruct L as [L|L].
    + assert (E : lower c = c + 32) by (apply lower_letter; lia). destruct (Z.leb_spec c 57), (Z.leb_spec c 70); try lia. split; [f_equal; lia|lia].
    + assert (E : lower c = c) by (apply lower_letter; lia). destruct (Z.leb_spec c 57), (Z.leb_spec c 70); try lia. split; [f_equal; lia|lia].
Qed.
Lemma digit_in_hex c d : digit_in 16 c = Some d -> hex_char c.
Proof.
  unfold digit_in. destruct (is_digit c) eqn:D; [intros _; left; apply is_digit_spec, D|].
  destruct (_ && _) eqn:T; [|discriminate]. intros _. right. apply lower_range. lia.
Qed.
Definition hex_from (n : Z) (s : list Z) : Z := fold_left (fun acc c => 16 * acc + hex_digit c) s n.
Lemma read_hex_digits s : forall r dot saw n f, Forall hex_char s ->
  read_mantissa 16 (s ++ r) dot saw n f =
  read_mantissa 16 r dot (saw || match s with [] => false | _ => true end) (hex_from n s) (if dot then f + Z.of_nat (length s) else f).
Proof.
  induction s as [|c s IH]; intros r dot saw n f H.
  - cbn [app length]. rewrite orb_false_r. f_equal. destruct dot; lia.
  - inversion H as [|? ? Hc Hs]; subst. destruct (digit_in_16 c Hc) as (E & N1 & N2). cbn [app read_mantissa]. rewrite E.
    destruct (Z.eqb_spec c 95); [lia|]. destruct (Z.eqb_spec c 46); [lia|]. rewrite IH by exact Hs. cbn [length].
    rewrite orb_true_r. cbn [orb]. rewrite Nat2Z.inj_succ. unfold hex_from. cbn [fold_left].
    f_equal; [f_equal; lia|destruct dot; lia].
Qed.
Lemma hex_digit_range c : hex_char c -> 0 <= hex_digit c < 16.
Proof. unfold hex_char, hex_digit. intros H. destruct (Z.leb_spec c 57), (Z.leb_spec c 70); lia. Qed.
Lemma hex_from_bound s : forall n, Forall hex_char s -> 0 <= n -> 0 <= hex_from n s < (n + 1) * 16 ^ Z.of_nat (length s).
Proof.
  induction s as [|c s IH]; intros n H Hn; [cbn; lia|].
  inversion H as [|? ? Hc Hs]; subst. pose proof (hex_digit_range c Hc) as B. unfold hex_from. cbn [fold_left].
  fold (hex_from (16 * n + hex_digit c) s). specialize (IH (16 * n + hex_digit c) Hs ltac:(lia)).
  cbn [length]. rewrite Nat2Z.inj_succ, Z.pow_succ_r by lia.
  assert (0 < 16 ^ Z.of_nat (length s)) by (apply Z.pow_pos_nonneg; lia). nia.
Qed.

(** *** Rounding of a hexadecimal number *)
Definition finish2 (neg : bool) (d K : Z) : option spec_float :=
  match round_scaled 53 1024 2 neg d K with S754_infinity _ => None | r => Some r end.
Lemma scaled2_0 K : (scaled2 0 K == 0)%Q. Proof. unfold scaled2. change (inject_Z 0) with 0%Q. ring. Qed.
Lemma scaled2_pos D K : 0 < D -> (0 < scaled2 D K)%Q.
Proof.
  intros H. unfold scaled2. assert (P : (0 < 2 ^ K)%Q) by (apply Qpower_0_lt; reflexivity).
  assert (Q : (0 < inject_Z D)%Q) by (rewrite (Zlt_Qlt 0 D) in H; exact H). nra.
Qed.
Lemma scaled2_le a b K : a <= b -> (scaled2 a K <= scaled2 b K)%Q.
Proof.
  intros H. unfold scaled2. assert (P : (0 < 2 ^ K)%Q) by (apply Qpower_0_lt; reflexivity).
  assert (Q : (inject_Z a <= inject_Z b)%Q) by (rewrite <- Zle_Qle; exact H). nra.
Qed.
Lemma scaled2_shift a n K : 0 <= n -> (scaled2 (a * 2 ^ n) K == scaled2 a (K + n))%Q.
Proof.
  intros H. unfold scaled2. rewrite inject_Z_mult, Qpower_plus by discriminate.
  rewrite <- (base_Z 2 n H). change (inject_Z 2) with 2%Q. ring.
Qed.
Lemma finish2_read neg d K : 0 <= d -> number_read neg (scaled2 d K) (finish2 neg d K).
Proof.
  intros H. unfold finish2, number_read. destruct (Z.eq_dec d 0) as [->|N].
  - assert (E : round_scaled 53 1024 2 neg 0 K = S754_zero neg) by (unfold round_scaled; rewrite Z.mul_0_l; destruct (0 <=? K); reflexivity).
    rewrite E. split; [|split; [exact I|reflexivity]].
    apply (rounds_eq _ _ 0); [|apply zero_rounds]. destruct neg; cbn [signed]; rewrite scaled2_0; reflexivity.
  - destruct (scaled_ok 53 1024 ltac:(lia) ltac:(lia) 2 neg d K ltac:(lia) ltac:(lia)) as [R S].
    change (inject_Z 2) with 2%Q in R. fold (scaled2 d K) in R.
    destruct (round_scaled 53 1024 2 neg d K) as [s|s| |s m e]; cbn [negative] in S.
    + split; [exact R|]. split; [exact I|exact S].
    + subst s. destruct R as [_ R]. destruct neg; cbn [signed] in R; [rewrite Qopp_involutive in R|]; exact R.
    + destruct R as [_ []].
    + split; [exact R|]. split; [exact I|exact S].
Qed.
Lemma scaled2_nonneg d K : 0 <= d -> (0 <= scaled2 d K)%Q.
Proof. intros H. destruct (Z.eq_dec d 0) as [->|N]; [rewrite scaled2_0; apply Qle_refl|apply Qlt_le_weak, scaled2_pos; lia]. Qed.
Lemma finish2_tiny neg d K : 0 <= d -> (scaled2 d K <= 2 ^ (-1075))%Q -> finish2 neg d K = Some (S754_zero neg).
Proof.
  intros H T. pose proof (finish2_read neg d K H) as R. unfold number_read in R. pose proof (scaled2_nonneg d K H) as N0.
  destruct (finish2 neg d K) as [r|].
  - destruct R as (R & _ & S). f_equal. apply (rounds_unique 53 1024 ltac:(lia) ltac:(lia) _ _ _ R); [|exact S].
    apply tiny_rounds. rewrite signed_abs by exact N0. exact T.
  - exfalso. assert (L : (2 ^ (-1075) < limit 53 1024)%Q) by (apply Qnot_le_lt; intros C; apply Qle_bool_iff in C; vm_compute in C; discriminate). lra.
Qed.
Lemma finish2_huge neg d K : 0 <= d -> (limit 53 1024 <= scaled2 d K)%Q -> finish2 neg d K = None.
Proof.
  intros H T. pose proof (finish2_read neg d K H) as R. unfold number_read in R. destruct (finish2 neg d K) as [r|]; [|reflexivity].
  exfalso. destruct R as (R & F & _). apply rounds_finite in R; [|exact F]. destruct R as (_ & L & _).
  assert (P : (0 < limit 53 1024)%Q) by reflexivity. rewrite signed_abs in L; lra.
Qed.

(** *** The whole text *)
(** What follows "0x": mantissa, 'p', exponent. *)
Definition read_rest (neg : bool) (s body : list Z) : option spec_float :=
  let '(sawdigits, n, f, rest) := read_mantissa 16 body false false 0 0 in
  if sawdigits && underscoreOK s then
    match rest with
    | [] => None
    | x :: r =>
        if lower x =? 112 then
          let '(eneg, r) := cut_sign r in
          match r with
          | c :: _ => if is_digit c then
                        let '(e, r') := read_exponent r 0 in
                        match r' with [] => finish2 neg n ((if eneg then - e else e) - 4 * f) | _ => None end
                      else None
          | [] => None
          end
        else None
    end
  else None.
Lemma read_number_hex neg x c r : lower x = 120 -> read_number neg (48 :: x :: c :: r) = read_rest neg (48 :: x :: c :: r) (c :: r).
Proof.
  intros H. unfold read_number. rewrite H. change (120 =? 120) with true. cbv iota beta. unfold read_rest.
  destruct (read_mantissa 16 (c :: r) false false 0 0) as [[[sd n] f] rest].
  destruct (sd && underscoreOK _); [|reflexivity]. unfold finish2. destruct rest as [|y t]; [reflexivity|].
  destruct (lower y =? 112); [|reflexivity]. destruct (cut_sign t) as [eneg r1]. destruct r1 as [|d r1]; [reflexivity|].
  destruct (is_digit d); [|reflexivity]. destruct (read_exponent (d :: r1) 0) as [ee r']. destruct r'; [destruct (round_scaled _ _ _ _ _ _); reflexivity|reflexivity].
Qed.
Lemma lower_x x : x = 120 \/ x = 88 -> lower x = 120. Proof. intros [-> | ->]; reflexivity. Qed.
Lemma hex_not_95 c : hex_char c -> c <> 95. Proof. unfold hex_char. lia. Qed.
Lemma parse_hex s neg d f e : hex_numeral s neg d f e -> exists e', ParseFloat s = finish2 neg d (e' - 4 * f) /\
  (Z.abs e < 100000 -> e' = e) /\ (10000 <= e -> 10000 <= e') /\ (e <= -10000 -> e' <= -10000).
Proof.
  intros (sign & x & ip & point & fp & p & es & ds & -> & HS & Hx & Hp & Fi & Ff & NE & HP & -> & -> & ND & Fd & He).
  set (tail := ip ++ point ++ fp ++ p :: es ++ ds). set (body := 48 :: x :: tail).
  assert (CS : cut_sign (sign ++ body) = (neg, body)).
  { destruct HS as [[-> ->]|[[-> ->]|[-> ->]]]; [|reflexivity|reflexivity]. cbn [app]. apply cut_sign_other; lia. }
  unfold ParseFloat. fold body. rewrite CS.
  assert (W : same_letters body inf_text = false /\ same_letters body infinity_text = false /\ same_letters (sign ++ body) nan_text = false).
  { unfold body. destruct HS as [[-> ->]|[[-> ->]|[-> ->]]]; repeat split; reflexivity. }
  destruct W as (-> & -> & ->). cbn [orb].
  assert (NU : ~ In 95 body).
  { unfold body, tail. intros [Q|[Q|Q]]; [lia|lia|]. rewrite !in_app_iff in Q. cbn [In] in Q. rewrite in_app_iff in Q.
    rewrite Forall_forall in Fi, Ff, Fd.
    assert (K : forall t, (forall c, In c t -> hex_char c) -> ~ In 95 t) by (intros t A B; apply A in B; unfold hex_char in B; lia).
    destruct Q as [Q|[Q|[Q|[Q|[Q|Q]]]]].
    - exact (K ip Fi Q).
    - destruct HP as [->|[-> _]]; cbn [In] in Q; [destruct Q as [Q|[]]; lia|exact Q].
    - exact (K fp Ff Q).
    - lia.
    - destruct He as [[[->| ->] _]|[-> _]]; cbn [In] in Q; try tauto; destruct Q as [Q|[]]; lia.
    - apply Fd in Q. unfold digit_char in Q. lia. }
  assert (LT : exists c r, tail = c :: r).
  { unfold tail. destruct ip; [|eexists; eexists; reflexivity]. destruct point; [|eexists; eexists; reflexivity]. destruct fp; eexists; eexists; reflexivity. }
  destruct LT as (c & r & ET).
  assert (E1 : read_number neg body = read_rest neg body tail) by (unfold body; rewrite ET; apply read_number_hex, lower_x, Hx).
  rewrite E1. unfold read_rest. rewrite (no_underscore_ok body NU).
  assert (RE : forall dot saw n k, read_mantissa 16 (p :: es ++ ds) dot saw n k = (saw, n, k, p :: es ++ ds)).
  { intros dot saw n k. cbn [read_mantissa]. destruct Hp as [-> | ->]; reflexivity. }
  assert (RM : read_mantissa 16 tail false false 0 0 = (true, hex_value (ip ++ fp), Z.of_nat (length fp), p :: es ++ ds)).
  { unfold tail. rewrite read_hex_digits by exact Fi. cbn [orb]. unfold hex_value. rewrite fold_left_app. fold (hex_from 0 ip).
    destruct HP as [->|[-> ->]].
    - cbn [app read_mantissa]. change (46 =? 95) with false. change (46 =? 46) with true. cbv iota.
      rewrite read_hex_digits by exact Ff. rewrite RE, Z.add_0_l. unfold hex_from. do 3 f_equal.
      destruct ip; [destruct fp; [contradiction|reflexivity]|reflexivity].
    - cbn [app fold_left]. rewrite RE. cbn [length]. do 3 f_equal. destruct ip; [contradiction|reflexivity]. }
  rewrite RM. cbn [andb].
  assert (LX : lower p = 112) by (destruct Hp as [-> | ->]; reflexivity). rewrite LX. change (112 =? 112) with true. cbv iota.
  pose proof (value_of_nonneg ds Fd) as VN.
  destruct ds as [|c0 ds]; [contradiction|]. pose proof (Forall_inv Fd) as F0.
  assert (RX : exists e', read_exponent (c0 :: ds) 0 = (e', []) /\ 0 <= e' /\ (value_of (c0 :: ds) < 100000 -> e' = value_of (c0 :: ds)) /\ (10000 <= value_of (c0 :: ds) -> 10000 <= e')).
  { destruct (read_grows (c0 :: ds) 0 ltac:(lia) Fd) as (e' & E & G & B). exists e'. split; [exact E|]. split; [exact G|]. split; [|rewrite Z.mul_0_l in B; exact B].
    intros LT. rewrite read_expo in E; [injection E as <-; lia|lia|exact Fd|lia]. }
  destruct RX as (e' & RX & G & SM & LG).
  assert (D0 : is_digit c0 = true) by (apply digit_is, F0).
  destruct He as [[Hs ->]|[-> ->]].
  - assert (CE : cut_sign (es ++ c0 :: ds) = (false, c0 :: ds)).
    { destruct Hs as [-> | ->]; [|reflexivity]. cbn [app]. apply cut_sign_other; unfold digit_char in F0; lia. }
    rewrite CE, D0, RX. exists e'. split; [reflexivity|]. lia.
  - cbn [app cut_sign]. rewrite D0, RX. exists (- e'). split; [reflexivity|]. lia.
Qed.
Lemma hex_sizes s neg d f e : hex_numeral s neg d f e -> 0 <= d < 2 ^ (4 * Z.of_nat (length s)) /\ 0 <= f <= Z.of_nat (length s).
Proof.
  intros (sign & x & ip & point & fp & p & es & ds & -> & HS & Hx & Hp & Fi & Ff & NE & HP & -> & -> & _).
  assert (F : Forall hex_char (ip ++ fp)) by (apply Forall_app; auto).
  pose proof (hex_from_bound (ip ++ fp) 0 F ltac:(lia)) as B. change (hex_from 0 (ip ++ fp)) with (hex_value (ip ++ fp)) in B.
  rewrite Z.pow_mul_r by lia. change (2 ^ 4) with 16. rewrite !app_length in *. cbn [length] in *. rewrite !app_length in *. cbn [length] in *. rewrite !app_length in *.
  split; [|lia]. split; [lia|]. eapply Z.lt_le_trans; [apply B|]. rewrite Z.mul_1_l. apply Z.pow_le_mono_r; lia.
Qed.
Theorem hex_rounds s neg d f e : hex_numeral s neg d f e -> Z.abs e < 100000 \/ Z.of_nat (length s) <= 2000 ->
  number_read neg (scaled2 d (e - 4 * f)) (ParseFloat s).
Proof.
  intros N H. destruct (parse_hex _ _ _ _ _ N) as (e' & -> & SM & POS & NEG). destruct (hex_sizes _ _ _ _ _ N) as [D F].
  destruct (Z.lt_ge_cases (Z.abs e) 100000) as [L|L]; [rewrite (SM L); apply finish2_read; lia|].
  destruct H as [H|H]; [lia|].
  destruct (Z.eq_dec d 0) as [->|D0].
  - pose proof (finish2_read neg 0 (e' - 4 * f) ltac:(lia)) as R. unfold number_read in *. destruct (finish2 neg 0 (e' - 4 * f)) as [r|].
    + destruct R as (R & Q). split; [|exact Q]. revert R. apply rounds_eq, signed_eq. rewrite !scaled2_0. reflexivity.
    + rewrite scaled2_0 in *. exact R.
  - assert (BIG : forall k, 10000 <= k -> (limit 53 1024 <= scaled2 d (k - 4 * f))%Q).
    { intros k Hk. apply Qle_trans with (scaled2 1 (k - 4 * f)); [|apply scaled2_le; lia].
      apply Qle_trans with (2 ^ 1100)%Q; [apply Qle_bool_iff; vm_compute; reflexivity|].
      unfold scaled2. change (inject_Z 1) with 1%Q. rewrite Qmult_1_l. apply Qpower_le_compat_l; [lia|discriminate]. }
    assert (SMALL : forall k, k <= -10000 -> (scaled2 d (k - 4 * f) <= 2 ^ (-1075))%Q).
    { intros k Hk. apply Qle_trans with (scaled2 (1 * 2 ^ (4 * Z.of_nat (length s))) (k - 4 * f)); [apply scaled2_le; lia|].
      rewrite scaled2_shift by lia.
      unfold scaled2. change (inject_Z 1) with 1%Q. rewrite Qmult_1_l. apply Qpower_le_compat_l; [lia|discriminate]. }
    destruct (Z.lt_ge_cases e 0) as [E|E].
    + rewrite finish2_tiny; [|lia|apply SMALL; lia]. split; [|split; [exact I|reflexivity]].
      apply tiny_rounds. rewrite signed_abs; [apply SMALL; lia|apply scaled2_nonneg; lia].
    + rewrite finish2_huge; [|lia|apply BIG; lia]. apply BIG. lia.
Qed.

(** *** Nothing else is read *)
Lemma hex_mantissa_inv s : forall dot saw n f sd n' f' rest, ~ In 95 s -> read_mantissa 16 s dot saw n f = (sd, n', f', rest) ->
  exists ip point fp, s = ip ++ point ++ fp ++ rest /\ Forall hex_char ip /\ Forall hex_char fp /\
    (point = [46] /\ dot = false \/ point = [] /\ fp = []) /\ (sd = true -> saw = true \/ ip ++ fp <> []).
Proof.
  induction s as [|c s IH]; intros dot saw n f sd n' f' rest N E; cbn [read_mantissa] in E.
  - injection E as <- <- <- <-. exists [], [], []. repeat split; auto.
  - assert (c <> 95) by (intros ->; apply N; left; reflexivity). assert (N' : ~ In 95 s) by (intros Q; apply N; right; exact Q).
    destruct (Z.eqb_spec c 95); [contradiction|]. destruct (Z.eqb_spec c 46) as [->|H46].
    + destruct dot; [injection E as <- <- <- <-; exists [], [], []; repeat split; auto|].
      destruct (IH _ _ _ _ _ _ _ _ N' E) as (ip & point & fp & -> & Fi & Ff & [[_ C]|[-> ->]] & SD); [discriminate|].
      exists [], [46], ip. cbn [app] in *. rewrite app_nil_r in SD. repeat split; auto.
    + destruct (digit_in 16 c) as [d|] eqn:D; [|injection E as <- <- <- <-; exists [], [], []; repeat split; auto].
      destruct (IH _ _ _ _ _ _ _ _ N' E) as (ip & point & fp & -> & Fi & Ff & P & SD). apply digit_in_hex in D.
      exists (c :: ip), point, fp. split; [reflexivity|]. split; [constructor; assumption|]. split; [exact Ff|]. split; [exact P|].
      intros _. right. discriminate.
Qed.
Lemma bare_prefix neg x : lower x = 120 -> read_number neg [48; x] = None.
Proof.
  intros L. assert (X : x = 120 \/ x = 88) by (apply lower_letter in L; lia). destruct X as [-> | ->]; reflexivity.
Qed.
Theorem hex_only s x : ~ In 95 s -> hexadecimal s -> ParseFloat s = Some x -> exists neg d f e, hex_numeral s neg d f e.
Proof.
  intros N (sign & r & HS & ES).
  assert (EX : exists x0, (x0 = 120 \/ x0 = 88) /\ s = sign ++ 48 :: x0 :: r) by (destruct ES as [ES|ES]; eauto).
  destruct EX as (x0 & Hx & ES'). clear ES. set (body := 48 :: x0 :: r) in *.
  assert (EN : exists neg, cut_sign s = (neg, body) /\ ((sign = [] /\ neg = false) \/ (sign = [43] /\ neg = false) \/ (sign = [45] /\ neg = true))).
  { rewrite ES'. destruct HS as [-> |[-> | ->]].
    - exists false. split; [cbn [app]; apply cut_sign_other; lia|auto].
    - exists false. split; [reflexivity|auto].
    - exists true. split; [reflexivity|auto]. }
  destruct EN as (neg & CS & SG). unfold ParseFloat. rewrite CS.
  assert (W : same_letters body inf_text = false /\ same_letters body infinity_text = false /\ same_letters s nan_text = false).
  { rewrite ES'. unfold body. destruct HS as [-> |[-> | ->]]; repeat split; reflexivity. }
  destruct W as (-> & -> & ->). cbn [orb]. intros R.
  destruct r as [|c r]; [unfold body in R; rewrite bare_prefix in R by (apply lower_x, Hx); discriminate|].
  unfold body in R. rewrite read_number_hex in R by (apply lower_x, Hx). unfold read_rest in R.
  assert (NB : ~ In 95 (c :: r)) by (intros Q; apply N; rewrite ES'; apply in_or_app; right; right; right; exact Q).
  destruct (read_mantissa 16 (c :: r) false false 0 0) as [[[sd n] f] rest] eqn:M.
  destruct (hex_mantissa_inv _ _ _ _ _ _ _ _ _ NB M) as (ip & point & fp & EB & Fi & Ff & P & SD).
  destruct sd; [|discriminate]. destruct (SD eq_refl) as [C|NE]; [discriminate|]. cbn [andb] in R. destruct (underscoreOK _); [|discriminate].
  assert (P' : point = [46] \/ point = [] /\ fp = []) by tauto.
  destruct rest as [|ex t]; [discriminate|].
  destruct (Z.eqb_spec (lower ex) 112) as [LX|]; [|discriminate]. apply lower_letter in LX; [|lia].
  destruct (cut_sign_spec t) as (es & ds & eneg & ER & CR & SR). rewrite CR in R. destruct ds as [|c0 ds]; [discriminate|].
  destruct (is_digit c0); [|discriminate]. destruct (read_exponent (c0 :: ds) 0) as [e' r'] eqn:RX. destruct r'; [|discriminate].
  apply exponent_inv in RX.
  2:{ intros Q. apply NB. rewrite EB, ER. apply in_or_app; right. apply in_or_app; right. apply in_or_app; right. right. apply in_or_app. right. exact Q. }
  exists neg, (hex_value (ip ++ fp)), (Z.of_nat (length fp)), (if eneg then - value_of (c0 :: ds) else value_of (c0 :: ds)).
  exists sign, x0, ip, point, fp, ex, es, (c0 :: ds). split; [rewrite ES'; unfold body; rewrite EB, ER; reflexivity|].
  split; [exact SG|]. split; [exact Hx|]. split; [lia|]. split; [exact Fi|]. split; [exact Ff|]. split; [exact NE|]. split; [exact P'|]. split; [reflexivity|]. split; [reflexivity|].
  split; [discriminate|]. split; [exact RX|].
  destruct SR as [(-> & -> & _)|[[-> ->]|[-> ->]]]; [left|left|right]; auto.
Qed.

(** *** Underscores *)
Definition isD (hex : bool) (c : Z) : bool := is_digit c || (hex && (97 <=? lower c) && (lower c <=? 102)).
Lemma isD_95 hex : isD hex 95 = false. Proof. destruct hex; reflexivity. Qed.
Definition starts (hex : bool) (t : list Z) : Prop := exists c t', t = c :: t' /\ isD hex c = true.
Definition ends (hex : bool) (a : list Z) : Prop := exists a' c, a = a' ++ [c] /\ isD hex c = true.
Lemma ends_cons hex c a : a <> [] -> (ends hex (c :: a) <-> ends hex a).
Proof.
  intros N. split.
  - intros (a' & d & E & D). destruct a' as [|x a']; cbn [app] in E; injection E as -> E; [contradiction|]. subst a. exists a', d. auto.
  - intros (a' & d & -> & D). exists (c :: a'), d. auto.
Qed.
Lemma ends_tail hex c a : a <> [] -> ends hex (c :: a) -> ends hex a.
Proof. intros N. apply ends_cons, N. Qed.
Lemma ends_one hex c : ends hex [c] <-> isD hex c = true.
Proof.
  split; [|intros H; exists [], c; auto]. intros (a' & d & E & D). destruct a' as [|x [|y a']]; cbn [app] in E; try discriminate. injection E as ->. exact D.
Qed.
Definition spots (hex : bool) (t : list Z) (saw : seen) : Prop :=
  forall a b, t = a ++ 95 :: b -> match a with [] => saw = Digit | _ => ends hex a end /\ starts hex b.
Lemma ok_iff hex t : forall saw, underscores_ok hex t saw = true <-> (saw = Underscore -> starts hex t) /\ spots hex t saw.
Proof.
  induction t as [|c t IH]; intros saw.
  - cbn [underscores_ok]. split.
    + intros H. split; [intros ->; discriminate|]. intros a b E. destruct a; discriminate.
    + intros [H _]. destruct saw; try reflexivity. destruct (H eq_refl) as (? & ? & ? & _). discriminate.
  - cbn [underscores_ok]. change (is_digit c || hex && (97 <=? lower c) && (lower c <=? 102)) with (isD hex c). destruct (isD hex c) eqn:D.
    + rewrite IH. split.
      * intros [_ H]. split; [intros _; exists c, t; auto|]. intros a b E. destruct a as [|x a]; cbn [app] in E; injection E as Ec Et; subst.
        { rewrite isD_95 in D. discriminate. }
        destruct (H a b eq_refl) as [H1 H2]. split; [|exact H2]. destruct a as [|y a]; [apply ends_one, D|]. apply ends_cons; [discriminate|exact H1].
      * intros [_ H]. split; [discriminate|]. intros a b E. destruct (H (c :: a) b) as [H1 H2]; [cbn; rewrite E; reflexivity|]. split; [|exact H2].
        destruct a as [|y a]; [reflexivity|]. apply ends_tail in H1; [exact H1|discriminate].
    + destruct (Z.eqb_spec c 95) as [->|N].
      * split.
        { intros H. destruct saw; try discriminate. apply IH in H as [H1 H2]. split; [discriminate|].
          intros a b E. destruct a as [|x a]; cbn [app] in E; injection E as Ec; subst; [split; [reflexivity|apply H1; reflexivity]|].
          destruct (H2 a b eq_refl) as [H3 H4]. split; [|exact H4]. destruct a as [|y a]; [discriminate|]. apply ends_cons; [discriminate|exact H3]. }
        { intros [H1 H2]. destruct (H2 [] t eq_refl) as [-> S0]. apply IH. split; [auto|]. intros a b E.
          destruct (H2 (95 :: a) b) as [H3 H4]; [cbn; rewrite E; reflexivity|]. split; [|exact H4].
          destruct a as [|y a]; [apply ends_one in H3; rewrite isD_95 in H3; discriminate|]. apply ends_tail in H3; [exact H3|discriminate]. }
      * split.
        { intros H. assert (SW : saw <> Underscore) by (intros ->; discriminate). assert (H' : underscores_ok hex t Other = true) by (destruct saw; congruence).
          apply IH in H' as [_ H2]. split; [contradiction|]. intros a b E. destruct a as [|x a]; cbn [app] in E; injection E as Ec Et; subst; [contradiction|].
          destruct (H2 a b eq_refl) as [H3 H4]. split; [|exact H4]. destruct a as [|y a]; [discriminate|]. apply ends_cons; [discriminate|exact H3]. }
        { intros [H1 H2]. assert (SW : saw <> Underscore).
          { intros Q. destruct (H1 Q) as (c' & t' & E & D'). injection E as <- <-. congruence. }
          assert (H' : underscores_ok hex t Other = true); [|destruct saw; congruence].
          apply IH. split; [discriminate|]. intros a b E. destruct (H2 (c :: a) b) as [H3 H4]; [cbn; rewrite E; reflexivity|]. split; [|exact H4].
          destruct a as [|y a]; [apply ends_one in H3; congruence|]. apply ends_tail in H3; [exact H3|discriminate]. }
Qed.

(** Leaving the underscores out does not change what is read. *)
Lemma strip_mantissa base s : forall dot saw n f sd n' f' rest, read_mantissa base s dot saw n f = (sd, n', f', rest) ->
  read_mantissa base (ungrouped s) dot saw n f = (sd, n', f', ungrouped rest) /\ hd 0 rest <> 95 /\ exists a, s = a ++ rest.
Proof.
  induction s as [|c s IH]; intros dot saw n f sd n' f' rest E; cbn [read_mantissa] in E.
  - injection E as <- <- <- <-. split; [reflexivity|]. split; [discriminate|]. exists []. reflexivity.
  - assert (K : forall dot saw n f, read_mantissa base s dot saw n f = (sd, n', f', rest) ->
      read_mantissa base (ungrouped s) dot saw n f = (sd, n', f', ungrouped rest) /\ hd 0 rest <> 95 /\ exists a, c :: s = a ++ rest).
    { intros dot0 saw0 n0 f0 E0. destruct (IH _ _ _ _ _ _ _ _ E0) as (A & B & a & ->). split; [exact A|]. split; [exact B|]. exists (c :: a). reflexivity. }
    destruct (Z.eqb_spec c 95) as [->|N]; [unfold ungrouped; cbn [filter]; change (negb (95 =? 95)) with false; cbv iota; apply K; exact E|].
    assert (F : ungrouped (c :: s) = c :: ungrouped s) by (unfold ungrouped; cbn [filter]; destruct (Z.eqb_spec c 95); [contradiction|reflexivity]).
    assert (STOP : (saw, n, f, c :: s) = (sd, n', f', rest) -> (saw, n, f, c :: ungrouped s) = (sd, n', f', ungrouped rest) /\ hd 0 rest <> 95 /\ exists a, c :: s = a ++ rest).
    { intros E0. injection E0 as <- <- <- <-. rewrite F. split; [reflexivity|]. split; [exact N|]. exists []. reflexivity. }
    rewrite F. cbn [read_mantissa]. destruct (Z.eqb_spec c 95); [contradiction|].
    destruct (c =? 46); [destruct dot; [exact (STOP E)|apply K; exact E]|].
    destruct (digit_in base c); [apply K; exact E|exact (STOP E)].
Qed.
Lemma ungrouped_cons c s : c <> 95 -> ungrouped (c :: s) = c :: ungrouped s.
Proof. intros N. unfold ungrouped. cbn [filter]. destruct (Z.eqb_spec c 95); [contradiction|reflexivity]. Qed.
Lemma ungrouped_skip s : ungrouped (95 :: s) = ungrouped s. Proof. reflexivity. Qed.
Lemma strip_exponent s : forall e e' rest, read_exponent s e = (e', rest) -> read_exponent (ungrouped s) e = (e', ungrouped rest) /\ hd 0 rest <> 95.
Proof.
  induction s as [|c s IH]; intros e e' rest E; cbn [read_exponent] in E.
  - injection E as <- <-. split; [reflexivity|discriminate].
  - destruct (Z.eqb_spec c 95) as [->|N]; [rewrite ungrouped_skip; apply IH, E|].
    rewrite ungrouped_cons by exact N. cbn [read_exponent]. destruct (Z.eqb_spec c 95); [contradiction|].
    destruct (is_digit c); [apply IH, E|]. injection E as <- <-. rewrite ungrouped_cons by exact N. auto.
Qed.
Lemma ungrouped_free s : ~ In 95 (ungrouped s).
Proof. unfold ungrouped. rewrite filter_In. intros [_ H]. discriminate. Qed.
(** The exponent part, from its letter on. *)
Definition expo (letter : Z) (rest : list Z) (k : Z -> option spec_float) : option spec_float :=
  match rest with
  | [] => None
  | x :: r =>
      if lower x =? letter then
        let '(eneg, r) := cut_sign r in
        match r with
        | c :: _ => if is_digit c then
                      let '(e, r') := read_exponent r 0 in
                      match r' with [] => k (if eneg then - e else e) | _ => None end
                    else None
        | [] => None
        end
      else None
  end.
Lemma lower_not_digit hex letter x : lower x = letter -> letter = 112 \/ (letter = 101 /\ hex = false) -> isD hex x = false.
Proof.
  intros L H. assert (X : x = letter \/ x = letter - 32) by (apply lower_letter; [lia|exact L]).
  destruct H as [-> |[-> ->]]; destruct X as [-> | ->]; try reflexivity; destruct hex; reflexivity.
Qed.
Lemma strip_expo hex letter rest k saw pre : (letter = 112 \/ (letter = 101 /\ hex = false)) ->
  underscores_ok hex (pre ++ rest) saw = true -> hd 0 rest <> 95 ->
  expo letter (ungrouped rest) k = expo letter rest k.
Proof.
  intros HL OK HD. destruct rest as [|x r]; [reflexivity|]. cbn [hd] in HD. rewrite ungrouped_cons by exact HD. unfold expo.
  destruct (Z.eqb_spec (lower x) letter) as [L|]; [|reflexivity].
  pose proof (lower_not_digit hex letter x L HL) as DX.
  apply ok_iff in OK as [_ SP].
  (* no underscore directly after the letter or the sign *)
  assert (SPOT : forall a y b, r = a ++ 95 :: b -> x :: a = y -> ends hex y).
  { intros a y b -> <-. destruct (SP (pre ++ x :: a) b) as [H _]; [rewrite <- app_assoc; reflexivity|].
    destruct (pre ++ x :: a) as [|q l] eqn:EQ; [destruct pre; discriminate|]. rewrite <- EQ in H. clear EQ.
    clear - H. induction pre as [|z pre IH]; [exact H|]. cbn [app] in H. apply ends_tail in H; [apply IH; exact H|]. destruct pre; discriminate. }
  assert (H1 : hd 0 r <> 95).
  { intros Q. destruct r as [|c r]; [discriminate|]. cbn [hd] in Q. subst c. specialize (SPOT [] _ r eq_refl eq_refl). apply ends_one in SPOT. congruence. }
  assert (CS : cut_sign (ungrouped r) = (fst (cut_sign r), ungrouped (snd (cut_sign r))) /\ hd 0 (snd (cut_sign r)) <> 95).
  { destruct r as [|c r]; [split; [reflexivity|discriminate]|]. cbn [hd] in H1. rewrite ungrouped_cons by exact H1.
    assert (S2 : c = 45 \/ c = 43 -> hd 0 r <> 95).
    { intros Hc Q. destruct r as [|c2 r]; [discriminate|]. cbn [hd] in Q. subst c2. specialize (SPOT [c] _ r eq_refl eq_refl).
      apply ends_tail in SPOT; [|discriminate]. apply ends_one in SPOT. destruct Hc as [-> | ->]; destruct hex; discriminate. }
    destruct (Z.eq_dec c 45) as [->|N1]; [split; [reflexivity|apply S2; auto]|].
    destruct (Z.eq_dec c 43) as [->|N2]; [split; [reflexivity|apply S2; auto]|].
    rewrite !cut_sign_other by assumption. cbn [fst snd]. rewrite ungrouped_cons by exact H1. split; [reflexivity|exact H1]. }
  destruct CS as [CS H2]. rewrite CS. destruct (cut_sign r) as [eneg r1]. cbn [fst snd] in *.
  destruct r1 as [|c r1]; [reflexivity|]. cbn [hd] in H2. rewrite ungrouped_cons by exact H2.
  destruct (is_digit c); [|reflexivity]. rewrite <- ungrouped_cons by exact H2.
  destruct (read_exponent (c :: r1) 0) as [e r'] eqn:RX. apply strip_exponent in RX as [-> H3].
  destruct r' as [|d r']; [reflexivity|]. cbn [hd] in H3. rewrite ungrouped_cons by exact H3. reflexivity.
Qed.

Lemma read_dec neg s : (forall x r, s = 48 :: x :: r -> lower x <> 120) ->
  read_number neg s =
    let '(sawdigits, n, f, rest) := read_mantissa 10 s false false 0 0 in
    if sawdigits && underscoreOK s then
      match rest with [] => finish neg n (0 - f) | _ => expo 101 rest (fun e => finish neg n (e - f)) end
    else None.
Proof. intros H. rewrite read_hex by exact H. destruct (read_mantissa 10 s false false 0 0) as [[[sd n] f] rest]. destruct rest; reflexivity. Qed.
Lemma read_rest_expo neg s body :
  read_rest neg s body =
    let '(sawdigits, n, f, rest) := read_mantissa 16 body false false 0 0 in
    if sawdigits && underscoreOK s then expo 112 rest (fun e => finish2 neg n (e - 4 * f)) else None.
Proof. reflexivity. Qed.
Lemma not_ok neg s : underscoreOK s = false -> read_number neg s = None.
Proof.
  intros H. unfold read_number. destruct (match s with 48 :: x :: c :: r => _ | _ => _ end) as [hex body].
  destruct (read_mantissa _ body false false 0 0) as [[[sd n] f] rest]. rewrite H, andb_false_r. reflexivity.
Qed.
Lemma other_prefix neg y t : lower y = 98 \/ lower y = 111 -> read_number neg (48 :: y :: t) = None.
Proof.
  intros H. rewrite read_dec by (intros x r E; injection E as <- <-; lia).
  assert (Y : y <> 95 /\ y <> 46 /\ is_digit y = false).
  { assert (K : y = 98 \/ y = 66 \/ y = 111 \/ y = 79) by (destruct H as [H|H]; apply lower_letter in H; lia).
    destruct K as [-> |[-> |[-> | ->]]]; repeat split; try discriminate; reflexivity. }
  destruct Y as (Y1 & Y2 & Y3).
  assert (M : read_mantissa 10 (48 :: y :: t) false false 0 0 = (true, 0, 0, y :: t)).
  { cbn [read_mantissa]. change (48 =? 95) with false. change (48 =? 46) with false. cbv iota. rewrite !digit_in_10, Y3.
    destruct (Z.eqb_spec y 95); [contradiction|]. destruct (Z.eqb_spec y 46); [contradiction|]. reflexivity. }
  rewrite M. destruct (true && underscoreOK _); [|reflexivity]. unfold expo. destruct (Z.eqb_spec (lower y) 101); [lia|reflexivity].
Qed.
(** How [underscoreOK] looks at a text without a sign. *)
Lemma ok_cases s :
  (exists x r, s = 48 :: x :: r /\ lower x = 120 /\ underscoreOK s = underscores_ok true r Digit) \/
  (exists y r, s = 48 :: y :: r /\ (lower y = 98 \/ lower y = 111) /\ underscoreOK s = underscores_ok false r Digit) \/
  ((forall x r, s = 48 :: x :: r -> lower x <> 120) /\ underscoreOK s = underscores_ok false s Begin).
Proof.
  destruct s as [|c [|x r]].
  - right. right. split; [discriminate|reflexivity].
  - right. right. split; [discriminate|]. unfold underscoreOK. destruct c as [|p|p]; try reflexivity. do 6 (destruct p as [p|p|]; try reflexivity).
  - destruct (Z.eq_dec c 48) as [->|N].
    + destruct (Z.eq_dec (lower x) 120) as [L|L].
      { left. exists x, r. split; [reflexivity|]. split; [exact L|]. unfold underscoreOK. rewrite L. reflexivity. }
      right. destruct (Z.eq_dec (lower x) 98) as [L1|L1].
      { left. exists x, r. split; [reflexivity|]. split; [auto|]. unfold underscoreOK. rewrite L1. reflexivity. }
      destruct (Z.eq_dec (lower x) 111) as [L2|L2].
      { left. exists x, r. split; [reflexivity|]. split; [auto|]. unfold underscoreOK. rewrite L2. reflexivity. }
      right. split; [intros x' r' E; injection E as <- <-; exact L|]. unfold underscoreOK.
      destruct (Z.eqb_spec (lower x) 98), (Z.eqb_spec (lower x) 111), (Z.eqb_spec (lower x) 120); try contradiction. reflexivity.
    + right. right. split; [intros x' r' E; injection E as -> _; contradiction|].
      unfold underscoreOK. destruct c as [|p|p]; try reflexivity. do 6 (destruct p as [p|p|]; try reflexivity). contradiction.
Qed.
Lemma digit_not_95 hex c : isD hex c = true -> c <> 95.
Proof. intros D ->. rewrite isD_95 in D. discriminate. Qed.
Lemma strip_number neg s : underscoreOK s = true -> read_number neg (ungrouped s) = read_number neg s.
Proof.
  intros OK. pose proof (no_underscore_ok _ (ungrouped_free s)) as OK'.
  destruct (ok_cases s) as [(x & r & -> & L & E)|[(y & r & -> & L & _)|[NX E]]].
  - rewrite E in OK. assert (X : x <> 95) by (intros ->; discriminate).
    rewrite ungrouped_cons in * by lia. rewrite ungrouped_cons in * by exact X.
    destruct r as [|c r]; [reflexivity|].
    assert (NE : exists c' r', ungrouped (c :: r) = c' :: r').
    { destruct (Z.eq_dec c 95) as [->|N]; [|rewrite ungrouped_cons by exact N; eauto].
      apply ok_iff in OK as [_ SP]. destruct (SP [] r eq_refl) as [_ (c' & r' & -> & D)].
      rewrite ungrouped_skip, ungrouped_cons by (eapply digit_not_95; exact D). eauto. }
    destruct NE as (c' & r' & NE). pose proof OK' as OK2. rewrite NE in *. rewrite !read_number_hex by exact L. rewrite !read_rest_expo.
    rewrite OK2, E, OK. destruct (read_mantissa 16 (c :: r) false false 0 0) as [[[sd n] f] rest] eqn:M.
    apply strip_mantissa in M as (M & HD & a & EA). rewrite NE in M. rewrite M. destruct (sd && true); [|reflexivity].
    apply (strip_expo true 112 rest _ Digit a); [auto|rewrite <- EA; exact OK|exact HD].
  - assert (Y : y <> 95) by (intros ->; destruct L; discriminate). rewrite ungrouped_cons by lia. rewrite ungrouped_cons by exact Y.
    rewrite !other_prefix by exact L. reflexivity.
  - rewrite (read_dec neg s NX). assert (OKs := OK). rewrite E in OK.
    pose proof (proj1 (ok_iff false s Begin) OK) as [_ SP].
    rewrite (read_dec neg (ungrouped s)).
    2:{ intros x r EU. destruct s as [|c s]; [discriminate|]. destruct (Z.eq_dec c 95) as [->|N]; [destruct (SP [] s eq_refl); discriminate|].
        rewrite ungrouped_cons in EU by exact N. injection EU as -> EU. destruct s as [|c s]; [discriminate|].
        destruct (Z.eq_dec c 95) as [->|N'].
        - destruct (SP [48] s eq_refl) as [_ (d & s' & -> & D)]. rewrite ungrouped_skip, ungrouped_cons in EU by (eapply digit_not_95; exact D).
          injection EU as -> _. unfold isD in D. rewrite orb_false_r in D. apply is_digit_spec in D. rewrite lower_digit by exact D. unfold digit_char in D. lia.
        - rewrite ungrouped_cons in EU by exact N'. injection EU as -> _. apply (NX _ _ eq_refl). }
    rewrite OK', OKs. destruct (read_mantissa 10 s false false 0 0) as [[[sd n] f] rest] eqn:M.
    apply strip_mantissa in M as (M & HD & a & EA). rewrite M. destruct (sd && true); [|reflexivity].
    destruct rest as [|y t]; [reflexivity|].
    rewrite <- (strip_expo false 101 (y :: t) _ Begin a); [|auto|rewrite <- EA; exact OK|exact HD].
    cbn [hd] in HD. rewrite ungrouped_cons by exact HD. reflexivity.
Qed.

(** Grouped texts. *)
Lemma sign_prefix (sign sign' : list Z) x x' t : (sign = [] \/ sign = [43] \/ sign = [45]) -> (sign' = [] \/ sign' = [43] \/ sign' = [45]) ->
  sign ++ 48 :: x :: t = sign' ++ [48; x'] -> t = [].
Proof.
  intros [-> |[-> | ->]] [-> |[-> | ->]]; cbn [app]; intros E; try discriminate E; injection E; intros; subst; try reflexivity; discriminate.
Qed.
Lemma last_app {A} (a b a' : list A) c : a ++ b = a' ++ [c] -> b <> [] -> exists b', b = b' ++ [c].
Proof.
  intros E N. destruct (exists_last N) as (b' & d & ->). rewrite app_assoc in E. apply app_inj_tail in E as [_ ->]. exists b'. reflexivity.
Qed.
Lemma split_at {A} (p t a b : list A) (u : A) : p ++ t = a ++ u :: b -> ~ In u p -> exists a0, a = p ++ a0 /\ t = a0 ++ u :: b.
Proof.
  revert a. induction p as [|c p IH]; intros a E N; [exists a; auto|]. destruct a as [|d a]; cbn [app] in E; injection E as Ec E.
  - subst. destruct N. left. reflexivity.
  - subst. destruct (IH a E) as (a0 & -> & ->); [intros Q; apply N; right; exact Q|]. exists a0. auto.
Qed.
Lemma hexadecimal_body sign body : (sign = [] \/ sign = [43] \/ sign = [45]) -> (sign = [] -> hd 0 body <> 45 /\ hd 0 body <> 43) ->
  (hexadecimal (sign ++ body) <-> exists x r, body = 48 :: x :: r /\ lower x = 120).
Proof.
  intros HS HB. split.
  - intros (sign' & r & HS' & E).
    assert (E' : exists x, (x = 120 \/ x = 88) /\ sign ++ body = sign' ++ 48 :: x :: r) by (destruct E; eauto). destruct E' as (x & Hx & E').
    exists x, r. split; [|apply lower_x, Hx].
    destruct HS as [-> |[-> | ->]], HS' as [-> |[-> | ->]]; cbn [app] in E'; try discriminate E'; try (injection E' as E'; exact E'); try exact E';
      destruct (HB eq_refl) as [H1 H2]; subst body; cbn [hd] in *; congruence.
  - intros (x & r & -> & L). exists sign, r. split; [exact HS|]. apply lower_letter in L; [|lia]. destruct L as [-> | ->]; auto.
Qed.
Lemma isD_of s hex c : (hex = true <-> hexadecimal s) -> (isD hex c = true <-> digit_of s c).
Proof.
  intros H. unfold isD, digit_of. rewrite orb_true_iff, is_digit_spec. fold (digit_char c). split.
  - intros [D|D]; [left; exact D|]. destruct hex; [|discriminate]. cbn [andb] in D. right. split; [apply H; reflexivity|]. right. apply lower_range. lia.
  - intros [D|[X D]]; [left; exact D|]. apply H in X. subst hex. unfold hex_char in D. destruct (Z.le_gt_cases c 57) as [L|L]; [left; unfold digit_char; lia|].
    right. cbn [andb]. assert (R := proj2 (lower_range c) ltac:(lia)). lia.
Qed.
Lemma sign_free sign : (sign = [] \/ sign = [43] \/ sign = [45]) -> ~ In 95 sign.
Proof. intros [-> |[-> | ->]]; cbn [In]; lia. Qed.
Lemma grouped_ok sign body : (sign = [] \/ sign = [43] \/ sign = [45]) -> (sign = [] -> hd 0 body <> 45 /\ hd 0 body <> 43) ->
  grouped (sign ++ body) -> underscoreOK body = true.
Proof.
  intros HS HB G. pose proof (hexadecimal_body sign body HS HB) as HX.
  destruct (ok_cases body) as [(x & r & EB & L & ->)|[(y & r & EB & L & ->)|[NX ->]]]; apply ok_iff; (split; [discriminate|]); intros a b E.
  - assert (HH : true = true <-> hexadecimal (sign ++ body)) by (split; [intros _; apply HX; eauto|auto]).
    destruct (G (sign ++ 48 :: x :: a) b) as [P (c & b' & -> & D)]; [rewrite <- app_assoc, EB, E; reflexivity|].
    split; [|exists c, b'; split; [reflexivity|apply (isD_of _ _ _ HH), D]].
    destruct a as [|z a]; [reflexivity|]. destruct P as [(a' & d & EA & D')|(sign' & x' & HS' & _ & EA)].
    + change (sign ++ 48 :: x :: z :: a) with (sign ++ [48; x] ++ z :: a) in EA. rewrite app_assoc in EA. apply last_app in EA as [b0 EA]; [|discriminate].
      exists b0, d. split; [exact EA|]. apply (isD_of _ _ _ HH), D'.
    + apply sign_prefix in EA; [discriminate|exact HS|exact HS'].
  - assert (NH : ~ hexadecimal (sign ++ body)).
    { intros Q. apply HX in Q as (x' & r' & E' & L'). rewrite EB in E'. injection E' as <- <-. lia. }
    assert (HH : false = true <-> hexadecimal (sign ++ body)) by (split; [discriminate|contradiction]).
    destruct (G (sign ++ 48 :: y :: a) b) as [P (c & b' & -> & D)]; [rewrite <- app_assoc, EB, E; reflexivity|].
    split; [|exists c, b'; split; [reflexivity|apply (isD_of _ _ _ HH), D]].
    destruct a as [|z a]; [reflexivity|]. destruct P as [(a' & d & EA & D')|(sign' & x' & HS' & _ & EA)].
    + change (sign ++ 48 :: y :: z :: a) with (sign ++ [48; y] ++ z :: a) in EA. rewrite app_assoc in EA. apply last_app in EA as [b0 EA]; [|discriminate].
      exists b0, d. split; [exact EA|]. apply (isD_of _ _ _ HH), D'.
    + apply sign_prefix in EA; [discriminate|exact HS|exact HS'].
  - assert (NH : ~ hexadecimal (sign ++ body)).
    { intros Q. apply HX in Q as (x' & r' & E' & L'). exact (NX _ _ E' L'). }
    assert (HH : false = true <-> hexadecimal (sign ++ body)) by (split; [discriminate|contradiction]).
    destruct (G (sign ++ a) b) as [P (c & b' & EB & D)]; [rewrite <- app_assoc, E; reflexivity|].
    split; [|exists c, b'; split; [exact EB|apply (isD_of _ _ _ HH), D]].
    destruct P as [(a' & d & EA & D')|(sign' & x' & HS' & Hx & EA)].
    + destruct a as [|z a].
      * rewrite app_nil_r in EA. exfalso. assert (I : In d sign) by (rewrite EA; apply in_or_app; right; left; reflexivity).
        destruct D' as [D'|[Q _]]; [|contradiction]. unfold digit_char in D'. destruct HS as [-> |[-> | ->]]; cbn [In] in I; lia.
      * apply last_app in EA as [b0 EA]; [|discriminate]. exists b0, d. split; [exact EA|]. apply (isD_of _ _ _ HH), D'.
    + exfalso. apply NH. rewrite E, app_assoc, EA, <- app_assoc. exists sign', (95 :: b). split; [exact HS'|]. cbn [app]. destruct Hx as [-> | ->]; auto.
Qed.
Lemma ok_grouped sign body neg : (sign = [] \/ sign = [43] \/ sign = [45]) -> (sign = [] -> hd 0 body <> 45 /\ hd 0 body <> 43) ->
  read_number neg body <> None -> grouped (sign ++ body).
Proof.
  intros HS HB RN a b E. pose proof (hexadecimal_body sign body HS HB) as HX.
  assert (OK : underscoreOK body = true) by (destruct (underscoreOK body) eqn:Q; [reflexivity|apply (not_ok neg) in Q; contradiction]).
  destruct (ok_cases body) as [(x & r & EB & L & EK)|[(y & r & EB & L & _)|[NX EK]]].
  - assert (HH : true = true <-> hexadecimal (sign ++ body)) by (split; [intros _; apply HX; eauto|auto]).
    rewrite EK in OK. apply ok_iff in OK as [_ SP].
    destruct (split_at (sign ++ [48; x]) r a b 95) as (a0 & EA & ER).
    { rewrite <- app_assoc. cbn [app]. rewrite <- EB. exact E. }
    { rewrite in_app_iff. cbn [In]. intros [Q|[Q|[Q|[]]]]; [exact (sign_free sign HS Q)|discriminate|subst x; discriminate]. }
    destruct (SP a0 b ER) as [P (c & b' & -> & D)].
    split; [|exists c, b'; split; [reflexivity|apply (isD_of _ _ _ HH), D]].
    destruct a0 as [|z a0].
    + right. exists sign, x. split; [exact HS|]. split; [apply lower_letter in L; lia|]. rewrite EA, app_nil_r. reflexivity.
    + left. destruct P as (a' & d & EQ & D'). exists (sign ++ [48; x] ++ a'), d. split; [rewrite EA, EQ, <- !app_assoc; reflexivity|]. apply (isD_of _ _ _ HH), D'.
  - subst body. rewrite other_prefix in RN by exact L. contradiction.
  - assert (NH : ~ hexadecimal (sign ++ body)).
    { intros Q. apply HX in Q as (x' & r' & E' & L'). exact (NX _ _ E' L'). }
    assert (HH : false = true <-> hexadecimal (sign ++ body)) by (split; [discriminate|contradiction]).
    rewrite EK in OK. apply ok_iff in OK as [_ SP].
    destruct (split_at sign body a b 95 E (sign_free sign HS)) as (a0 & EA & ER).
    destruct (SP a0 b ER) as [P (c & b' & -> & D)].
    split; [|exists c, b'; split; [reflexivity|apply (isD_of _ _ _ HH), D]].
    destruct a0 as [|z a0]; [discriminate|]. left. destruct P as (a' & d & EQ & D'). exists (sign ++ a'), d.
    split; [rewrite EA, EQ, <- app_assoc; reflexivity|]. apply (isD_of _ _ _ HH), D'.
Qed.
Lemma not_letters t w c : Forall (fun d => 97 <= d <= 122) w -> In c t -> c = 95 \/ digit_char c -> same_letters t w = false.
Proof.
  intros F I Hc. destruct (same_letters t w) eqn:E; [|reflexivity]. exfalso. apply same_letters_spec in E; [|exact F].
  unfold digit_char in Hc. revert F I. induction E as [|x y t w HE _ IH]; intros F I; [exact I|].
  inversion F; subst. destruct I as [->|I]; [lia|]. apply IH; assumption.
Qed.
Theorem underscores_read s : In 95 s ->
  (grouped s -> ParseFloat s = ParseFloat (ungrouped s)) /\ (~ grouped s -> ParseFloat s = None).
Proof.
  intros I95. destruct letters_ok as (LI & LY & LN). destruct (cut_sign_spec s) as (sign & body & neg & ES & CS & SG).
  assert (HS : sign = [] \/ sign = [43] \/ sign = [45]) by tauto.
  assert (HB : sign = [] -> hd 0 body <> 45 /\ hd 0 body <> 43).
  { intros ->. destruct SG as [(_ & _ & H)|[[Q _]|[Q _]]]; [exact H|discriminate|discriminate]. }
  assert (IB : In 95 body) by (rewrite ES in I95; apply in_app_iff in I95 as [Q|Q]; [destruct (sign_free sign HS Q)|exact Q]).
  assert (PF : ParseFloat s = read_number neg body).
  { unfold ParseFloat. rewrite CS, (not_letters body inf_text 95), (not_letters body infinity_text 95), (not_letters s nan_text 95) by auto. reflexivity. }
  split.
  - intros G. assert (OK : underscoreOK body = true) by (rewrite ES in G; eapply grouped_ok; eassumption).
    assert (EU : ungrouped s = sign ++ ungrouped body) by (rewrite ES; destruct HS as [-> |[-> | ->]]; reflexivity).
    assert (HU : hd 0 body <> 95).
    { intros Q. destruct body as [|c body]; [discriminate|]. cbn [hd] in Q. subst c.
      destruct (G sign body ES) as [[(a' & d & EA & D)|(sign' & x & HS' & Hx & EA)] _].
      - assert (J : In d sign) by (rewrite EA; apply in_or_app; right; left; reflexivity). unfold digit_of, digit_char, hex_char in D.
        destruct HS as [-> |[-> | ->]]; cbn [In] in J; lia.
      - destruct HS as [-> |[-> | ->]], HS' as [-> |[-> | ->]]; discriminate EA. }
    assert (CU : cut_sign (ungrouped s) = (neg, ungrouped body)).
    { rewrite EU. destruct SG as [(-> & -> & H1 & H2)|[[-> ->]|[-> ->]]]; [|reflexivity|reflexivity].
      destruct body as [|c body]; [contradiction|]. cbn [hd app] in *. rewrite ungrouped_cons by exact HU. apply cut_sign_other; assumption. }
    assert (DG : exists d, In d (ungrouped body) /\ digit_char d).
    { apply in_split in IB as (a & b & EB). destruct (G (sign ++ a) b) as [_ (c & b' & -> & D)]; [rewrite ES, EB, app_assoc; reflexivity|].
      destruct D as [D|[X _]].
      - exists c. split; [|exact D]. unfold ungrouped. rewrite filter_In. split; [rewrite EB; apply in_or_app; right; right; left; reflexivity|].
        unfold digit_char in D. destruct (Z.eqb_spec c 95); [lia|reflexivity].
      - rewrite ES in X. apply hexadecimal_body in X; [|exact HS|exact HB]. destruct X as (x & r & EX & _). exists 48.
        split; [|unfold digit_char; lia]. rewrite EX, ungrouped_cons by lia. left. reflexivity. }
    destruct DG as (d & ID & DD). rewrite PF. unfold ParseFloat at 1. rewrite CU.
    rewrite (not_letters (ungrouped body) inf_text d), (not_letters (ungrouped body) infinity_text d) by auto.
    rewrite (not_letters (ungrouped s) nan_text d); [|exact LN|rewrite EU; apply in_or_app; right; exact ID|auto].
    cbn [orb]. symmetry. apply strip_number, OK.
  - intros NG. rewrite PF. destruct (read_number neg body) eqn:R; [|reflexivity]. exfalso. apply NG. rewrite ES. apply (ok_grouped sign body neg HS HB). congruence.
Qed.
