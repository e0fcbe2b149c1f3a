(** FloatParseProofs.v -- reading numerals, and reading back what was printed. *)
From Coq Require Import ZArith QArith Qabs Qpower Lqa Lia Bool List Floats.SpecFloat.
From Verif Require Import Base FloatSpec FloatOpsProofs FloatUniqueProofs
  DecimalModel DecimalSpec DecimalProofs FloatModel FloatProofs FloatTextModel FloatTextSpec FloatTextProofs.
Import ListNotations.
Local Open Scope Z_scope.

Lemma value_of_app a b : value_of (a ++ b) = value_of a * 10 ^ Z.of_nat (length b) + value_of b.
Proof.
  induction b as [|c b IH] using rev_ind.
  - rewrite app_nil_r. cbn [length]. change (10 ^ Z.of_nat 0) with 1. change (value_of []) with 0. lia.
  - rewrite app_assoc, !value_of_snoc, IH, app_length. cbn [length]. rewrite Nat2Z.inj_add, Z.pow_add_r by lia.
    change (10 ^ Z.of_nat 1) with 10. lia.
Qed.
Lemma value_of_zeros k : value_of (repeat 48 k) = 0.
Proof. induction k as [|k IH]; [reflexivity|]. cbn [repeat]. rewrite value_of_cons, IH. lia. Qed.
Lemma digits_zeros k : Forall digit_char (repeat 48 k).
Proof. apply Forall_forall. intros c H. apply repeat_spec in H. subst. unfold digit_char. lia. Qed.

(** *** What is printed *)
Lemma last_digit D r : 0 < D -> digits D = r ++ [48] -> D mod 10 = 0.
Proof.
  intros H E. destruct (digits_spec D ltac:(lia)) as (_ & _ & _ & V). rewrite E, value_of_snoc in V. subst D.
  rewrite Z.add_0_r, Z.mul_comm. apply Z_mod_mult.
Qed.
Lemma positional_plain D K : 0 < D -> D mod 10 <> 0 -> plain_numeral (positional D K) false (scaled D K).
Proof.
  intros HD HM. destruct (digits_spec D ltac:(lia)) as (A & F & C & V). unfold positional.
  assert (LEAD : forall r, digits D <> 48 :: r).
  { intros r E. specialize (C r E). subst r. rewrite E in V. cbn in V. lia. }
  destruct (Z.leb_spec 0 K) as [L|L].
  - exists (digits D ++ repeat 48 (Z.to_nat K)), []. cbn [app]. split; [rewrite app_nil_r; reflexivity|].
    split; [destruct (digits D); [contradiction|discriminate]|]. split; [apply Forall_app; split; [exact F|apply digits_zeros]|].
    split; [constructor|]. split.
    + intros r E. exfalso. destruct (digits D) as [|c ds]; [contradiction|]. injection E as -> _. exact (LEAD ds eq_refl).
    + split; [intros r E; destruct r; discriminate|]. rewrite app_nil_r, value_of_app, V, value_of_zeros, repeat_length, Z.add_0_r.
      rewrite Z2Nat.id by exact L. cbn [length]. rewrite scaled_shift by exact L. reflexivity.
  - set (f := Z.to_nat (- K)). assert (Hf : (0 < f)%nat) by (unfold f; lia).
    assert (Ef : - Z.of_nat f = K) by (unfold f; lia). destruct (Nat.ltb_spec f (length (digits D))) as [G|G].
    + set (k := (length (digits D) - f)%nat). exists (firstn k (digits D)), (skipn k (digits D)).
      assert (LS : length (skipn k (digits D)) = f) by (rewrite skipn_length; unfold k; lia).
      split; [destruct (skipn k (digits D)) as [|c r] eqn:E; [cbn in LS; lia|]; cbn [app]; reflexivity|].
      split; [intros E; apply (f_equal (@length Z)) in E; rewrite firstn_length in E; unfold k in E; cbn [length] in E; revert E; clear - Hf G; lia|].
      split; [apply Forall_forall; intros c H; rewrite Forall_forall in F; apply F; rewrite <- (firstn_skipn k); apply in_or_app; auto|].
      split; [apply Forall_forall; intros c H; rewrite Forall_forall in F; apply F; rewrite <- (firstn_skipn k); apply in_or_app; auto|].
      split; [|split].
      * intros r E. exfalso. apply (LEAD (r ++ skipn k (digits D))). rewrite <- (firstn_skipn k (digits D)) at 1. rewrite E. reflexivity.
      * intros r E. apply HM. apply (last_digit D (firstn k (digits D) ++ r) HD). rewrite <- (firstn_skipn k (digits D)) at 1. rewrite E. apply app_assoc.
      * rewrite firstn_skipn, V, LS, Ef. reflexivity.
    + exists [48], (repeat 48 (f - length (digits D)) ++ digits D).
      assert (NE : repeat 48 (f - length (digits D)) ++ digits D <> []) by (intros E; apply app_eq_nil in E; tauto).
      assert (LS : length (repeat 48 (f - length (digits D)) ++ digits D) = f) by (rewrite app_length, repeat_length; lia).
      split; [destruct (repeat 48 (f - length (digits D)) ++ digits D); [contradiction|reflexivity]|].
      split; [discriminate|]. split; [repeat constructor; lia|]. split; [apply Forall_app; split; [apply digits_zeros|exact F]|].
      split; [intros r E; injection E as <-; reflexivity|]. split.
      * intros r E. destruct (exists_last A) as (q & c & Eq). rewrite Eq, app_assoc in E. apply app_inj_tail in E. destruct E as [_ ->].
        apply HM. apply (last_digit D q HD Eq).
      * cbn [app]. rewrite value_of_cons, value_of_app, value_of_zeros, V, LS, Ef.
        replace ((48 - 48) * 10 ^ Z.of_nat f + (0 * 10 ^ Z.of_nat (length (digits D)) + D)) with D by lia. reflexivity.
Qed.
Lemma plain_sign s v : plain_numeral s false v -> plain_numeral (45 :: s) true v.
Proof. intros (ip & fp & -> & H). exists ip, fp. split; [reflexivity|exact H]. Qed.
Lemma plain_is_numeral s neg v : plain_numeral s neg v -> exists d f, numeral s neg d f 0 /\ (v == scaled d (- f))%Q /\ (0 <= d).
Proof.
  intros (ip & fp & -> & NE & Fi & Ff & _ & _ & V). exists (value_of (ip ++ fp)), (Z.of_nat (length fp)).
  split; [|split; [exact V|apply value_of_nonneg, Forall_app; auto]].
  exists (if neg then [45] else []), ip, (match fp with [] => [] | _ => [46] end), fp, [].
  split; [f_equal; f_equal; destruct fp; [reflexivity|rewrite app_nil_r; reflexivity]|].
  split; [destruct neg; auto|]. split; [exact Fi|]. split; [exact Ff|].
  split; [intros E; apply app_eq_nil in E; tauto|]. split; [destruct fp; auto|]. split; [reflexivity|]. split; [reflexivity|]. left. auto.
Qed.

(** *** Reading *)
Lemma digit_is c : digit_char c -> is_digit c = true. Proof. apply is_digit_spec. Qed.
Lemma digit_in_10 c : digit_in 10 c = if is_digit c then Some (c - 48) else None.
Proof. unfold digit_in. destruct (is_digit c); reflexivity. Qed.
Lemma read_digits s : forall r dot saw n f, Forall digit_char s ->
  read_mantissa 10 (s ++ r) dot saw n f =
  read_mantissa 10 r dot (saw || match s with [] => false | _ => true end) (n * 10 ^ Z.of_nat (length s) + value_of s) (if dot then f + Z.of_nat (length s) else f).
Proof.
  induction s as [|c s IH]; intros r dot saw n f H.
  - cbn [app length]. change (10 ^ Z.of_nat 0) with 1. change (value_of []) with 0. rewrite orb_false_r. f_equal; [lia|destruct dot; lia].
  - inversion H as [|? ? Hc Hs]; subst. cbn [app read_mantissa]. rewrite digit_in_10, (digit_is c Hc). unfold digit_char in Hc.
    destruct (Z.eqb_spec c 95); [lia|]. destruct (Z.eqb_spec c 46); [lia|]. rewrite IH by exact Hs. cbn [length].
    rewrite orb_true_r. cbn [orb]. rewrite value_of_cons, Nat2Z.inj_succ, Z.pow_succ_r by lia.
    f_equal; [lia|destruct dot; lia].
Qed.
Lemma read_expo s : forall e, 0 <= e -> Forall digit_char s -> e * 10 ^ Z.of_nat (length s) + value_of s < 100000 ->
  read_exponent s e = (e * 10 ^ Z.of_nat (length s) + value_of s, []).
Proof.
  induction s as [|c s IH]; intros e He H B.
  - cbn [length read_exponent]. change (10 ^ Z.of_nat 0) with 1. change (value_of []) with 0. f_equal. lia.
  - inversion H as [|? ? Hc Hs]; subst. cbn [read_exponent]. rewrite (digit_is c Hc). unfold digit_char in Hc.
    destruct (Z.eqb_spec c 95); [lia|]. cbn [length] in *. rewrite value_of_cons, Nat2Z.inj_succ, Z.pow_succ_r in * by lia.
    pose proof (pow10_pos (Z.of_nat (length s)) ltac:(lia)) as P. pose proof (value_of_nonneg s Hs) as V.
    destruct (Z.ltb_spec e 10000) as [L|L]; [|nia].
    rewrite IH; [f_equal; lia|lia|exact Hs|]. nia.
Qed.
Lemma read_grows s : forall e, 0 <= e -> Forall digit_char s -> exists e', read_exponent s e = (e', []) /\ e <= e' /\
  (10000 <= e * 10 ^ Z.of_nat (length s) + value_of s -> 10000 <= e').
Proof.
  induction s as [|c s IH]; intros e He H.
  - exists e. cbn [length read_exponent]. change (10 ^ Z.of_nat 0) with 1. change (value_of []) with 0. split; [reflexivity|]. lia.
  - inversion H as [|? ? Hc Hs]; subst. cbn [read_exponent]. rewrite (digit_is c Hc). unfold digit_char in Hc.
    destruct (Z.eqb_spec c 95); [lia|]. cbn [length]. rewrite value_of_cons, Nat2Z.inj_succ, Z.pow_succ_r by lia.
    destruct (Z.ltb_spec e 10000) as [L|L].
    + destruct (IH (e * 10 + (c - 48)) ltac:(lia) Hs) as (e' & E & G & B). exists e'. split; [exact E|]. split; [lia|]. intros Q. apply B. lia.
    + destruct (IH e He Hs) as (e' & E & G & _). exists e'. split; [exact E|]. lia.
Qed.
Lemma no_underscore hex s : forall saw, ~ In 95 s -> saw <> Underscore -> underscores_ok hex s saw = true.
Proof.
  induction s as [|c s IH]; intros saw N H; cbn [underscores_ok].
  - destruct saw; congruence.
  - assert (c <> 95) by (intros ->; apply N; left; reflexivity). destruct (Z.eqb_spec c 95); [contradiction|].
    assert (~ In 95 s) by (intros Q; apply N; right; exact Q).
    destruct (is_digit c || _); [apply IH; [assumption|discriminate]|]. destruct saw; try congruence; apply IH; try assumption; discriminate.
Qed.
Lemma no_underscore_ok s : ~ In 95 s -> underscoreOK s = true.
Proof.
  intros N. unfold underscoreOK.
  assert (D : underscores_ok false s Begin = true) by (apply no_underscore; [exact N|discriminate]).
  destruct s as [|c [|d r]]; try exact D.
  - destruct c as [|p|p]; try exact D. do 6 (destruct p as [p|p|]; try exact D).
  - assert (N' : ~ In 95 r) by (intros Q; apply N; right; right; exact Q).
    destruct c as [|p|p]; try exact D. do 6 (destruct p as [p|p|]; try exact D).
    destruct (_ || _); [apply no_underscore; [exact N'|discriminate]|exact D].
Qed.
(** Characters a numeral may begin with or consist of. *)
Lemma lower_digit c : digit_char c -> lower c = c.
Proof.
  intros H. unfold digit_char in H. assert (c = 48 \/ c = 49 \/ c = 50 \/ c = 51 \/ c = 52 \/ c = 53 \/ c = 54 \/ c = 55 \/ c = 56 \/ c = 57) as K by lia.
  repeat (destruct K as [-> | K]; [reflexivity|]). subst. reflexivity.
Qed.
Definition number_char (c : Z) : Prop := digit_char c \/ c = 46 \/ c = 101 \/ c = 69 \/ c = 43 \/ c = 45.
Lemma number_not_95 s : Forall number_char s -> ~ In 95 s.
Proof. intros H I. rewrite Forall_forall in H. specialize (H 95 I). unfold number_char, digit_char in H. lia. Qed.
Lemma number_not_x c : number_char c -> lower c <> 120.
Proof. intros [H|[->|[->|[->|[->| ->]]]]]; try discriminate. rewrite lower_digit by exact H. unfold digit_char in H. lia. Qed.

Definition finish (neg : bool) (d K : Z) : option spec_float :=
  match round_scaled 53 1024 10 neg d K with S754_infinity _ => None | r => Some r end.
Lemma cut_sign_other c r : c <> 45 -> c <> 43 -> cut_sign (c :: r) = (false, c :: r).
Proof.
  intros H1 H2. unfold cut_sign. destruct c as [|p|p]; try reflexivity. do 6 (destruct p as [p|p|]; try reflexivity); congruence.
Qed.
Lemma read_hex neg s : (forall x r, s = 48 :: x :: r -> lower x <> 120) ->
  read_number neg s =
    let '(sawdigits, n, f, rest) := read_mantissa 10 s false false 0 0 in
    if sawdigits && underscoreOK s then
      match rest with
      | [] => finish neg n (0 - f)
      | x :: r =>
          if lower x =? 101 then
            let '(eneg, r) := cut_sign r in
            match r with
            | c :: _ => if is_digit c then
                          let '(e, r') := read_exponent r 0 in
                          match r' with [] => finish neg n ((if eneg then - e else e) - f) | _ => None end
                        else None
            | [] => None
            end
          else None
      end
    else None.
Proof.
  intros H. unfold read_number.
  assert (E : match s with 48 :: x :: c :: r => if lower x =? 120 then (true, c :: r) else (false, s) | _ => (false, s) end = (false, s)).
  { destruct s as [|c [|x [|y r]]]; try reflexivity; try (destruct c as [|p|p]; try reflexivity; do 6 (destruct p as [p|p|]; try reflexivity)).
    specialize (H x (y :: r) eq_refl). destruct (Z.eqb_spec (lower x) 120); [contradiction|reflexivity]. }
  rewrite E. cbv beta iota zeta. destruct (read_mantissa 10 s false false 0 0) as [[[sd n] f] rest].
  destruct (sd && underscoreOK s); [|reflexivity]. unfold finish. destruct rest as [|x r]; [destruct (round_scaled _ _ _ _ _ _); reflexivity|].
  destruct (lower x =? 101); [|reflexivity]. destruct (cut_sign r) as [eneg r1]. destruct r1 as [|c r1]; [reflexivity|].
  destruct (is_digit c); [|reflexivity]. destruct (read_exponent (c :: r1) 0) as [ee r']. destruct r'; [destruct (round_scaled _ _ _ _ _ _); reflexivity|reflexivity].
Qed.
Lemma same_letters_head c s t : lower c <> hd 0 t -> t <> [] -> same_letters (c :: s) t = false.
Proof. intros H N. destruct t as [|d t]; [contradiction|]. cbn [same_letters hd] in *. destruct (Z.eqb_spec (lower c) d); [contradiction|reflexivity]. Qed.
Lemma parse_numeral s neg d f e : numeral s neg d f e -> exists e', ParseFloat s = finish neg d (e' - f) /\
  (Z.abs e < 100000 -> e' = e) /\ (10000 <= e -> 10000 <= e') /\ (e <= -10000 -> e' <= -10000).
Proof.
  intros (sign & ip & point & fp & expo & -> & HS & Fi & Ff & NE & HP & -> & -> & HX).
  set (body := ip ++ point ++ fp ++ expo).
  (* the characters *)
  assert (FE : Forall number_char expo).
  { destruct HX as [[-> _]|(c & es & ds & -> & Hc & _ & Fd & Hs)]; [constructor|].
    constructor; [unfold number_char; lia|]. apply Forall_app. split.
    - destruct Hs as [[[->| ->] _]|[-> _]]; repeat constructor; unfold number_char; lia.
    - eapply Forall_impl; [|exact Fd]. intros; left; assumption. }
  assert (FD : forall t, Forall digit_char t -> Forall number_char t) by (intros t H; eapply Forall_impl; [|exact H]; intros; left; assumption).
  assert (FP : Forall number_char point) by (destruct HP as [->|[-> _]]; repeat constructor; unfold number_char; lia).
  assert (FB : Forall number_char body) by (unfold body; repeat (apply Forall_app; split); auto).
  assert (HEAD : exists c r, body = c :: r /\ (digit_char c \/ c = 46)).
  { unfold body. destruct ip as [|c ip']; [|inversion Fi; subst; exists c; eexists; split; [reflexivity|auto]].
    destruct HP as [->|[-> ->]]; [eexists; eexists; split; [reflexivity|auto]|contradiction]. }
  destruct HEAD as (c & r & EB & HC).
  assert (LC : lower c = c) by (destruct HC as [HC| ->]; [apply lower_digit, HC|reflexivity]).
  assert (CS : cut_sign (sign ++ body) = (neg, body)).
  { rewrite EB. destruct HS as [[-> ->]|[[-> ->]|[-> ->]]]; [|reflexivity|reflexivity].
    cbn [app]. apply cut_sign_other; unfold digit_char in HC; lia. }
  unfold ParseFloat. fold body. rewrite CS.
  assert (W1 : same_letters body inf_text = false /\ same_letters body infinity_text = false).
  { rewrite EB. unfold digit_char in HC. split; apply same_letters_head; try discriminate; rewrite LC; cbn; lia. }
  destruct W1 as [-> ->]. cbn [orb].
  assert (W2 : same_letters (sign ++ body) nan_text = false).
  { destruct HS as [[-> ->]|[[-> ->]|[-> ->]]]; cbn [app]; [|reflexivity|reflexivity].
    rewrite EB. apply same_letters_head; try discriminate. rewrite LC. unfold digit_char in HC. cbn. lia. }
  rewrite W2. rewrite read_hex.
  2:{ intros x q E. rewrite E in FB. inversion FB as [|? ? _ F1]; subst. inversion F1; subst. apply number_not_x. assumption. }
  rewrite (no_underscore_ok body) by (apply number_not_95, FB).
  (* the mantissa *)
  assert (RE : forall dot saw n k, read_mantissa 10 expo dot saw n k = (saw, n, k, expo)).
  { intros dot saw n k. destruct HX as [[-> _]|(ch & es & ds & -> & Hc & _)]; [reflexivity|].
    cbn [read_mantissa]. destruct Hc as [-> | ->]; reflexivity. }
  assert (RM : read_mantissa 10 body false false 0 0 = (true, value_of (ip ++ fp), Z.of_nat (length fp), expo)).
  { unfold body. rewrite read_digits by exact Fi. rewrite Z.mul_0_l, Z.add_0_l. cbn [orb].
    destruct HP as [->|[-> ->]].
    - cbn [app read_mantissa]. change (46 =? 95) with false. change (46 =? 46) with true. cbv iota.
      rewrite read_digits by exact Ff. rewrite RE, <- value_of_app, Z.add_0_l. do 3 f_equal.
      destruct ip; [destruct fp; [contradiction|reflexivity]|reflexivity].
    - cbn [app]. rewrite RE, app_nil_r. cbn [length]. do 3 f_equal. destruct ip; [contradiction|reflexivity]. }
  rewrite RM. cbn [andb].
  destruct HX as [[-> ->]|(ch & es & ds & -> & Hc & ND & Fd & Hs)]; [exists 0; split; [reflexivity|lia]|].
  assert (LX : lower ch = 101) by (destruct Hc as [-> | ->]; reflexivity). rewrite LX. change (101 =? 101) with true. cbv iota.
  pose proof (value_of_nonneg ds Fd) as VN.
  destruct ds as [|c0 ds]; [contradiction|]. pose proof (Forall_inv Fd) as F0.
  assert (RX : exists e', read_exponent (c0 :: ds) 0 = (e', []) /\ 0 <= e' /\ (value_of (c0 :: ds) < 100000 -> e' = value_of (c0 :: ds)) /\ (10000 <= value_of (c0 :: ds) -> 10000 <= e')).
  { destruct (read_grows (c0 :: ds) 0 ltac:(lia) Fd) as (e' & E & G & B). exists e'. split; [exact E|]. split; [exact G|]. split; [|rewrite Z.mul_0_l in B; exact B].
    intros LT. rewrite read_expo in E; [injection E as <-; lia|lia|exact Fd|lia]. }
  destruct RX as (e' & RX & G & SM & LG).
  assert (D0 : is_digit c0 = true) by (apply digit_is, F0).
  destruct Hs as [[Hs ->]|[-> ->]].
  - assert (CE : cut_sign (es ++ c0 :: ds) = (false, c0 :: ds)).
    { destruct Hs as [-> | ->]; [|reflexivity]. cbn [app]. apply cut_sign_other; unfold digit_char in F0; lia. }
    rewrite CE, D0, RX. exists e'. split; [reflexivity|]. lia.
  - cbn [app cut_sign]. rewrite D0, RX. exists (- e'). split; [reflexivity|]. lia.
Qed.

(** *** The number read *)
Lemma scaled0 K : (scaled 0 K == 0)%Q. Proof. unfold scaled. change (inject_Z 0) with 0%Q. ring. Qed.
Lemma round_scaled0 neg K : round_scaled 53 1024 10 neg 0 K = S754_zero neg.
Proof. unfold round_scaled. rewrite Z.mul_0_l. destruct (0 <=? K); reflexivity. Qed.
Lemma rounds_eq prec emax v w r : (v == w)%Q -> rounds_to prec emax v r -> rounds_to prec emax w r.
Proof.
  intros E [V R]. split; [exact V|]. destruct r as [s|s| |s m e].
  - setoid_rewrite E in R. exact R.
  - destruct s; [rewrite <- E|rewrite <- E]; exact R.
  - exact R.
  - setoid_rewrite E in R. exact R.
Qed.
Lemma signed_eq neg v w : (v == w)%Q -> (signed neg v == signed neg w)%Q.
Proof. intros E. unfold signed. destruct neg; rewrite E; reflexivity. Qed.
Lemma signed_abs neg v : (0 <= v)%Q -> (Qabs (signed neg v) == v)%Q.
Proof. intros H. unfold signed. destruct neg; [rewrite Qabs_opp|]; apply Qabs_pos, H. Qed.
Lemma zero_rounds neg : rounds_to 53 1024 0 (S754_zero neg).
Proof.
  apply rounds_finite; [exact I|]. split; [reflexivity|]. split; [reflexivity|]. intros y _ _. cbn [value].
  split; [|intros _; right; exact I]. change (Qabs (0 - 0)) with 0%Q. apply Qabs_nonneg.
Qed.
(** [finish] gives the rounded number, or nothing if it is infinite. *)
Lemma finish_read neg d K : 0 <= d -> number_read neg (scaled d K) (finish neg d K).
Proof.
  intros H. unfold finish, number_read. destruct (Z.eq_dec d 0) as [->|N].
  - rewrite round_scaled0. split; [|split; [exact I|reflexivity]].
    apply (rounds_eq _ _ 0); [|apply zero_rounds]. destruct neg; cbn [signed]; rewrite scaled0; reflexivity.
  - destruct (scaled_ok 53 1024 ltac:(lia) ltac:(lia) 10 neg d K ltac:(lia) ltac:(lia)) as [R S]. fold (scaled d K) in R.
    destruct (round_scaled 53 1024 10 neg d K) as [s|s| |s m e]; cbn [negative] in S.
    + split; [exact R|]. split; [exact I|exact S].
    + subst s. destruct R as [_ R]. destruct neg; cbn [signed] in R; [rewrite Qopp_involutive in R|]; exact R.
    + destruct R as [_ []].
    + split; [exact R|]. split; [exact I|exact S].
Qed.
(** Very small numbers are read as zero, very large ones not at all. *)
Lemma tiny_rounds v neg : (Qabs v <= 2 ^ (-1075))%Q -> rounds_to 53 1024 v (S754_zero neg).
Proof.
  intros H. apply rounds_finite; [exact I|]. split; [reflexivity|].
  assert (T : (2 ^ (-1075) < limit 53 1024)%Q) by (apply Qnot_le_lt; intros C; apply Qle_bool_iff in C; vm_compute in C; discriminate).
  split; [lra|]. intros y V F. cbn [value]. split; [|intros _; right; exact I].
  assert (Y : (value y == 0 \/ 2 ^ (-1074) <= Qabs (value y))%Q).
  { destruct y as [s|s| |s m e]; try contradiction; [left; reflexivity|]. right. cbn [value].
    rewrite Qabs_Qmult. assert (A : (Qabs (2 ^ e) == 2 ^ e)%Q) by (apply Qabs_pos, Qlt_le_weak, Qpower_0_lt; reflexivity). rewrite A. clear A.
    assert (G : -1074 <= e).
    { cbn [valid_binary] in V. unfold bounded, canonical_mantissa, fexp, emin in V. apply andb_true_iff in V as [V _]. apply Zeq_bool_eq in V. lia. }
    assert (P : (2 ^ (-1074) <= 2 ^ e)%Q) by (apply Qpower_le_compat_l; [exact G|discriminate]).
    assert (M : (1 <= Qabs (inject_Z (if s then Zneg m else Zpos m)))%Q).
    { destruct s; cbn; unfold Qle; cbn; lia. }
    assert (P0 : (0 < 2 ^ e)%Q) by (apply Qpower_0_lt; reflexivity). nra. }
  assert (E2 : (2 ^ (-1074) == 2 * 2 ^ (-1075))%Q) by (vm_compute; reflexivity).
  destruct Y as [Y|Y].
  - setoid_replace (v - 0)%Q with (v - value y)%Q by (rewrite Y; ring). apply Qle_refl.
  - setoid_replace (v - 0)%Q with v by ring.
    assert (T1 : (Qabs (value y) <= Qabs (v - value y) + Qabs v)%Q).
    { setoid_replace (value y) with ((-(v - value y)) + v)%Q at 1 by ring. eapply Qle_trans; [apply Qabs_triangle|]. rewrite Qabs_opp. apply Qle_refl. }
    lra.
Qed.
Lemma finish_tiny neg d K : 0 <= d -> (scaled d K <= 2 ^ (-1075))%Q -> finish neg d K = Some (S754_zero neg).
Proof.
  intros H T. pose proof (finish_read neg d K H) as R. unfold number_read in R.
  assert (N0 : (0 <= scaled d K)%Q).
  { destruct (Z.eq_dec d 0) as [->|N]; [rewrite scaled0; apply Qle_refl|apply Qlt_le_weak, scaled_pos; lia]. }
  destruct (finish neg d K) as [r|].
  - destruct R as (R & _ & S). f_equal. apply (rounds_unique 53 1024 ltac:(lia) ltac:(lia) _ _ _ R); [|exact S].
    apply tiny_rounds. rewrite signed_abs by exact N0. exact T.
  - exfalso. assert (L : (2 ^ (-1075) < limit 53 1024)%Q) by (apply Qnot_le_lt; intros C; apply Qle_bool_iff in C; vm_compute in C; discriminate). lra.
Qed.
Lemma finish_huge neg d K : 0 <= d -> (limit 53 1024 <= scaled d K)%Q -> finish neg d K = None.
Proof.
  intros H T. pose proof (finish_read neg d K H) as R. unfold number_read in R. destruct (finish neg d K) as [r|]; [|reflexivity].
  exfalso. destruct R as (R & F & _). apply rounds_finite in R; [|exact F]. destruct R as (_ & L & _).
  assert (P : (0 < limit 53 1024)%Q) by reflexivity. rewrite signed_abs in L; lra.
Qed.

Lemma numeral_sizes s neg d f e : numeral s neg d f e -> 0 <= d < 10 ^ Z.of_nat (length s) /\ 0 <= f <= Z.of_nat (length s).
Proof.
  intros (sign & ip & point & fp & expo & -> & HS & Fi & Ff & NE & HP & -> & -> & HX).
  assert (F : Forall digit_char (ip ++ fp)) by (apply Forall_app; auto).
  assert (B : 0 <= value_of (ip ++ fp) < 10 ^ Z.of_nat (length (ip ++ fp))) by (split; [apply value_of_nonneg, F|apply value_of_bound, F]).
  rewrite !app_length in *. split; [|lia]. split; [lia|]. eapply Z.lt_le_trans; [apply B|]. apply Z.pow_le_mono_r; lia.
Qed.
Theorem parse_rounds s neg d f e : numeral s neg d f e -> Z.abs e < 100000 \/ Z.of_nat (length s) <= 9000 ->
  number_read neg (scaled d (e - f)) (ParseFloat s).
Proof.
  intros N H. destruct (parse_numeral _ _ _ _ _ N) as (e' & -> & SM & POS & NEG). destruct (numeral_sizes _ _ _ _ _ N) as [D F].
  destruct (Z.lt_ge_cases (Z.abs e) 100000) as [L|L]; [rewrite (SM L); apply finish_read; lia|].
  destruct H as [H|H]; [lia|].
  destruct (Z.eq_dec d 0) as [->|D0].
  - pose proof (finish_read neg 0 (e' - f) ltac:(lia)) as R. unfold number_read in *. destruct (finish neg 0 (e' - f)) as [r|].
    + destruct R as (R & Q). split; [|exact Q]. revert R. apply rounds_eq, signed_eq. rewrite !scaled0. reflexivity.
    + rewrite scaled0 in *. exact R.
  - assert (BIG : forall k, 10000 <= k -> (limit 53 1024 <= scaled d (k - f))%Q).
    { intros k Hk. apply Qle_trans with (scaled 1 (k - f)); [|apply scaled_le; lia].
      apply Qle_trans with (10 ^ 400)%Q; [apply Qle_bool_iff; vm_compute; reflexivity|].
      unfold scaled. change (inject_Z 1) with 1%Q. rewrite Qmult_1_l. apply Qpower_le_compat_l; [lia|discriminate]. }
    assert (SMALL : forall k, k <= -10000 -> (scaled d (k - f) <= 2 ^ (-1075))%Q).
    { intros k Hk. apply Qle_trans with (scaled (1 * 10 ^ Z.of_nat (length s)) (k - f)); [apply scaled_le; lia|].
      rewrite scaled_shift by lia. apply Qle_trans with (10 ^ (-400))%Q; [|apply Qle_bool_iff; vm_compute; reflexivity].
      unfold scaled. change (inject_Z 1) with 1%Q. rewrite Qmult_1_l. apply Qpower_le_compat_l; [lia|discriminate]. }
    destruct (Z.lt_ge_cases e 0) as [E|E].
    + rewrite finish_tiny; [|lia|apply SMALL; lia]. split; [|split; [exact I|reflexivity]].
      apply tiny_rounds. rewrite signed_abs; [apply SMALL; lia|apply Qlt_le_weak, scaled_pos; lia].
    + rewrite finish_huge; [|lia|apply BIG; lia]. apply BIG. lia.
Qed.

(** *** Names *)
Lemma lower_letter c d : 97 <= d <= 122 -> (lower c = d <-> c = d \/ c = d - 32).
Proof.
  intros H. unfold lower. split.
  - intros E. assert (C0 : 0 <= c) by (apply Z.lor_nonneg with (b := 32); lia).
    assert (CB : c < 128).
    { destruct (Z.lt_ge_cases c 128) as [|G]; [assumption|]. exfalso.
      assert (Z.log2 (Z.lor c 32) = Z.max (Z.log2 c) (Z.log2 32)) by (apply Z.log2_lor; lia).
      assert (7 <= Z.log2 c) by (apply Z.log2_le_pow2; lia). rewrite E in *. assert (Z.log2 d < 7) by (apply Z.log2_lt_pow2; lia). lia. }
    assert (K : forallb (fun n => let c := Z.of_nat n in let d := Z.lor c 32 in
              implb ((97 <=? d) && (d <=? 122)) ((c =? d) || (c =? d - 32))) (seq 0 128) = true) by (vm_compute; reflexivity).
    rewrite forallb_forall in K. specialize (K (Z.to_nat c) ltac:(apply in_seq; lia)). cbv zeta in K. rewrite Z2Nat.id, E in K by exact C0.
    destruct (Z.leb_spec 97 d), (Z.leb_spec d 122); lia.
  - assert (K : forallb (fun n => let d := Z.of_nat n in (Z.lor d 32 =? d) && (Z.lor (d - 32) 32 =? d)) (seq 97 26) = true) by (vm_compute; reflexivity).
    rewrite forallb_forall in K. specialize (K (Z.to_nat d) ltac:(apply in_seq; lia)). cbv zeta in K. rewrite Z2Nat.id in K by lia.
    apply andb_true_iff in K as [K1 K2]. apply Z.eqb_eq in K1, K2. intros [-> | ->]; assumption.
Qed.
Lemma same_letters_spec s w : Forall (fun d => 97 <= d <= 122) w -> (same_letters s w = true <-> spelled s w).
Proof.
  intros H. revert s. induction H as [|d w Hd Hw IH]; intros s.
  - destruct s; cbn [same_letters]; split; intros Q; try reflexivity; try discriminate; [constructor|inversion Q].
  - destruct s as [|c s]; cbn [same_letters]; [split; [discriminate|intros Q; inversion Q]|].
    rewrite andb_true_iff, Z.eqb_eq, (lower_letter c d Hd), IH. split; [intros [A B]; constructor; assumption|intros Q; inversion Q; auto].
Qed.
Lemma letters_ok : Forall (fun d => 97 <= d <= 122) inf_text /\ Forall (fun d => 97 <= d <= 122) infinity_text /\ Forall (fun d => 97 <= d <= 122) nan_text.
Proof. unfold inf_text, infinity_text, nan_text. repeat split; repeat constructor; lia. Qed.
Lemma cut_sign_spec s : exists sign body neg, s = sign ++ body /\ cut_sign s = (neg, body) /\
  ((sign = [] /\ neg = false /\ hd 0 body <> 45 /\ hd 0 body <> 43) \/ (sign = [43] /\ neg = false) \/ (sign = [45] /\ neg = true)).
Proof.
  destruct s as [|c s]; [exists [], [], false; cbn; repeat split; left; repeat split; lia|].
  destruct (Z.eq_dec c 45) as [->|H1]; [exists [45], s, true; repeat split; auto|]. destruct (Z.eq_dec c 43) as [->|H2]; [exists [43], s, false; repeat split; auto|].
  exists [], (c :: s), false. split; [reflexivity|]. split; [apply cut_sign_other; assumption|]. left. auto.
Qed.
Theorem parse_named s x : named s x -> ParseFloat s = Some x.
Proof.
  destruct letters_ok as (LI & LY & LN).
  intros [[-> H]|(sign & body & neg & -> & -> & HS & HB)].
  - assert (C : cut_sign s = (false, s)).
    { inversion H as [|c d s' w Hc]; subst. apply cut_sign_other; lia. }
    unfold ParseFloat. rewrite C. assert (HN := proj2 (same_letters_spec s nan_text LN) H). rewrite HN.
    assert (A : same_letters s inf_text = false /\ same_letters s infinity_text = false).
    { inversion H as [|c d s' w Hc]; subst. split; apply same_letters_head; try discriminate; destruct Hc as [-> | ->]; discriminate. }
    destruct A as [-> ->]. reflexivity.
  - assert (C : cut_sign (sign ++ body) = (neg, body)).
    { destruct HS as [[-> ->]|[[-> ->]|[-> ->]]]; try reflexivity. cbn [app].
      destruct HB as [HB|HB]; inversion HB as [|c d s' w Hc]; subst; apply cut_sign_other; lia. }
    unfold ParseFloat. rewrite C. assert (A : same_letters body inf_text || same_letters body infinity_text = true).
    { apply orb_true_iff. destruct HB as [HB|HB]; [left; apply (same_letters_spec _ _ LI), HB|right; apply (same_letters_spec _ _ LY), HB]. }
    rewrite A. reflexivity.
Qed.

(** *** Nothing else is read *)
Lemma mantissa_inv s : forall dot saw n f sd n' f' rest, ~ In 95 s -> read_mantissa 10 s dot saw n f = (sd, n', f', rest) ->
  exists ip point fp, s = ip ++ point ++ fp ++ rest /\ Forall digit_char ip /\ Forall digit_char fp /\
    (point = [46] /\ dot = false \/ point = [] /\ fp = []) /\ (sd = true -> saw = true \/ ip ++ fp <> []).
Proof.
  induction s as [|c s IH]; intros dot saw n f sd n' f' rest N E; cbn [read_mantissa] in E.
  - injection E as <- <- <- <-. exists [], [], []. repeat split; auto.
  - assert (c <> 95) by (intros ->; apply N; left; reflexivity). assert (N' : ~ In 95 s) by (intros Q; apply N; right; exact Q).
    destruct (Z.eqb_spec c 95); [contradiction|]. rewrite digit_in_10 in E. destruct (Z.eqb_spec c 46) as [->|H46].
    + destruct dot; [injection E as <- <- <- <-; exists [], [], []; repeat split; auto|].
      destruct (IH _ _ _ _ _ _ _ _ N' E) as (ip & point & fp & -> & Fi & Ff & [[_ C]|[-> ->]] & SD); [discriminate|].
      exists [], [46], ip. cbn [app] in *. rewrite app_nil_r in SD. repeat split; auto.
    + destruct (is_digit c) eqn:D; [|injection E as <- <- <- <-; exists [], [], []; repeat split; auto].
      destruct (IH _ _ _ _ _ _ _ _ N' E) as (ip & point & fp & -> & Fi & Ff & P & SD). apply is_digit_spec in D.
      exists (c :: ip), point, fp. split; [reflexivity|]. split; [constructor; assumption|]. split; [exact Ff|]. split; [exact P|].
      intros _. right. discriminate.
Qed.
Lemma exponent_inv s : forall e e', ~ In 95 s -> read_exponent s e = (e', []) -> Forall digit_char s.
Proof.
  induction s as [|c s IH]; intros e e' N E; [constructor|]. cbn [read_exponent] in E.
  assert (c <> 95) by (intros ->; apply N; left; reflexivity). destruct (Z.eqb_spec c 95); [contradiction|].
  destruct (is_digit c) eqn:D; [|discriminate]. constructor; [apply is_digit_spec, D|]. eapply IH; [|exact E]. intros Q. apply N. right. exact Q.
Qed.
Theorem parse_only s x : ~ In 95 s -> ~ hexadecimal s -> ParseFloat s = Some x ->
  named s x \/ exists neg d f e, numeral s neg d f e.
Proof.
  destruct letters_ok as (LI & LY & LN). intros N HX. destruct (cut_sign_spec s) as (sign & body & neg & ES & CS & SG).
  assert (SG' : (sign = [] /\ neg = false) \/ (sign = [43] /\ neg = false) \/ (sign = [45] /\ neg = true)) by tauto.
  unfold ParseFloat. rewrite CS.
  destruct (same_letters body inf_text || same_letters body infinity_text) eqn:A.
  - intros Q. injection Q as <-. left. right. exists sign, body, neg. split; [exact ES|]. split; [reflexivity|]. split; [exact SG'|].
    apply orb_true_iff in A as [A|A]; [left; apply (same_letters_spec _ _ LI), A|right; apply (same_letters_spec _ _ LY), A].
  - destruct (same_letters s nan_text) eqn:B.
    { intros Q. injection Q as <-. left. left. split; [reflexivity|]. apply (same_letters_spec _ _ LN), B. }
    intros R. right. assert (NB : ~ In 95 body) by (intros Q; apply N; rewrite ES; apply in_or_app; auto).
    rewrite read_hex in R.
    2:{ intros c q -> LX. apply HX. exists sign, q. split; [tauto|]. apply lower_letter in LX; [|lia]. destruct LX as [-> | ->]; [left|right]; exact ES. }
    destruct (read_mantissa 10 body false false 0 0) as [[[sd n] f] rest] eqn:M.
    destruct (mantissa_inv _ _ _ _ _ _ _ _ _ NB M) as (ip & point & fp & EB & Fi & Ff & P & SD).
    destruct sd; [|discriminate]. destruct (SD eq_refl) as [C|NE]; [discriminate|]. cbn [andb] in R. destruct (underscoreOK body); [|discriminate].
    assert (P' : point = [46] \/ point = [] /\ fp = []) by tauto.
    destruct rest as [|ex r].
    + exists neg, (value_of (ip ++ fp)), (Z.of_nat (length fp)), 0. exists sign, ip, point, fp, []. split; [rewrite ES, EB; reflexivity|].
      split; [exact SG'|]. split; [exact Fi|]. split; [exact Ff|]. split; [exact NE|]. split; [exact P'|]. split; [reflexivity|]. split; [reflexivity|]. left. auto.
    + destruct (Z.eqb_spec (lower ex) 101) as [LX|]; [|discriminate]. apply lower_letter in LX; [|lia].
      destruct (cut_sign_spec r) as (es & ds & eneg & ER & CR & SR). rewrite CR in R. destruct ds as [|c0 ds]; [discriminate|].
      destruct (is_digit c0); [|discriminate]. destruct (read_exponent (c0 :: ds) 0) as [e' r'] eqn:RX. destruct r'; [|discriminate].
      apply exponent_inv in RX.
      2:{ intros Q. apply NB. rewrite EB, ER. apply in_or_app; right. apply in_or_app; right. apply in_or_app; right. right. apply in_or_app. right. exact Q. }
      exists neg, (value_of (ip ++ fp)), (Z.of_nat (length fp)), (if eneg then - value_of (c0 :: ds) else value_of (c0 :: ds)).
      exists sign, ip, point, fp, (ex :: es ++ c0 :: ds). split; [rewrite ES, EB, ER; reflexivity|].
      split; [exact SG'|]. split; [exact Fi|]. split; [exact Ff|]. split; [exact NE|]. split; [exact P'|]. split; [reflexivity|]. split; [reflexivity|].
      right. exists ex, es, (c0 :: ds). split; [reflexivity|]. split; [lia|]. split; [discriminate|]. split; [exact RX|].
      destruct SR as [(-> & -> & _)|[[-> ->]|[-> ->]]]; [left|left|right]; auto.
Qed.

(** *** The text of a number, and reading it back *)
Section Text.
  Variable prec emax k : Z.
  Hypothesis Hprec : 1 < prec.
  Hypothesis Hemax : prec < emax.
  Hypothesis Hk : 1 <= k.
  Hypothesis Hdig : 2 ^ prec < 10 ^ (k - 1).
  Theorem text_ok x : valid_binary prec emax x = true -> number_text prec emax k x (FormatFloat prec emax x).
  Proof.
    intros V. destruct x as [s|s| |s m e]; try (destruct s; reflexivity); [reflexivity|]. cbn [FormatFloat number_text].
    destruct (shortest_found prec emax Hprec Hemax m e V) as (n & D & K & E & N1 & SD). rewrite E. exists D, K, n.
    assert (T : D mod 10 <> 0) by (eapply no_trailing_zero; eassumption).
    assert (P : 0 < D) by apply SD.
    split; [|split; [exact SD|split; [exact N1|eapply at_most; eassumption]]].
    pose proof (positional_plain D K P T) as PL. destruct s; cbn [minus app]; [apply plain_sign, PL|exact PL].
  Qed.
End Text.
Theorem round_trip x : is_F64 x -> ParseFloat (FormatFloat 53 1024 x) = Some x.
Proof.
  intros V. destruct x as [s|s| |s m e]; try (destruct s; reflexivity); [reflexivity|].
  destruct (text_ok 53 1024 17 ltac:(lia) ltac:(lia) ltac:(lia) ltac:(reflexivity) _ V) as (D & K & n & P & SD & _).
  destruct (plain_is_numeral _ _ _ P) as (d & f & N & E & D0).
  assert (R : rounds_to 53 1024 (signed s (scaled d (0 - f))) (S754_finite s m e)).
  { apply (rounds_eq _ _ (signed s (scaled D K))); [apply signed_eq; rewrite E; reflexivity|].
    destruct SD as (_ & R & _). destruct s; [|exact R]. apply (rounds_opp 53 1024) in R; [exact R]. }
  pose proof (parse_rounds _ _ _ _ _ N ltac:(left; reflexivity)) as PR. unfold number_read in PR.
  destruct (ParseFloat (FormatFloat 53 1024 (S754_finite s m e))) as [r|].
  - destruct PR as (R' & _ & S'). f_equal. apply (rounds_unique 53 1024 ltac:(lia) ltac:(lia) _ _ _ R' R S').
  - exfalso. apply rounds_finite in R; [|exact I]. destruct R as (_ & L & _).
    rewrite signed_abs in L; [lra|]. assert (0 <= limit 53 1024)%Q by discriminate. lra.
Qed.
Lemma text_head prec emax x : valid_binary prec emax x = true -> 1 < prec -> prec < emax ->
  let s := FormatFloat prec emax x in
  match s with
  | 43 :: _ | 45 :: _ => s
  | _ => 43 :: s
  end = (if match x with S754_infinity _ => true | _ => negative x end then [] else [43]) ++ s.
Proof.
  intros V Hp He. destruct x as [s|s| |s m e]; try (destruct s; reflexivity); [reflexivity|]. cbn [FormatFloat negative].
  destruct (shortest_found prec emax Hp He m e V) as (n & D & K & E & N1 & SD). rewrite E.
  destruct s; [reflexivity|]. cbn [minus app].
  assert (T : D mod 10 <> 0) by (eapply no_trailing_zero; eassumption).
  destruct (positional_plain D K ltac:(apply SD) T) as (ip & fp & -> & NE & Fi & _). cbn [app].
  destruct ip as [|c ip]; [contradiction|]. inversion Fi as [|? ? Hc _]; subst. cbn [app]. unfold digit_char in Hc.
  destruct c as [|p|p]; try reflexivity. do 6 (destruct p as [p|p|]; try reflexivity); lia.
Qed.
Lemma narrow_widen x : is_F32 x -> to32 (to64 x) = x.
Proof. intros V. destruct (widen x V) as [S W]. apply narrow_exact; assumption. Qed.

(** *** A numeral denotes one number; different numbers have different texts *)
Lemma numeral_parts s neg d f e : numeral s neg d f e -> exists body expo, cut_sign s = (neg, body) /\
  read_mantissa 10 body false false 0 0 = (true, d, f, expo).
Proof.
  intros (sign & ip & point & fp & expo & -> & HS & Fi & Ff & NE & HP & -> & -> & HX).
  exists (ip ++ point ++ fp ++ expo), expo.
  assert (HEAD : exists c r, ip ++ point ++ fp ++ expo = c :: r /\ (digit_char c \/ c = 46)).
  { destruct ip as [|c ip']; [|inversion Fi; subst; exists c; eexists; split; [reflexivity|auto]].
    destruct HP as [->|[-> ->]]; [eexists; eexists; split; [reflexivity|auto]|contradiction]. }
  split.
  - destruct HEAD as (c & r & -> & HC). destruct HS as [[-> ->]|[[-> ->]|[-> ->]]]; [|reflexivity|reflexivity].
    cbn [app]. apply cut_sign_other; unfold digit_char in HC; lia.
  - assert (RE : forall dot saw n k, read_mantissa 10 expo dot saw n k = (saw, n, k, expo)).
    { intros dot saw n k. destruct HX as [[-> _]|(ch & es & ds & -> & Hc & _)]; [reflexivity|].
      cbn [read_mantissa]. destruct Hc as [-> | ->]; reflexivity. }
    rewrite read_digits by exact Fi. rewrite Z.mul_0_l, Z.add_0_l. cbn [orb].
    destruct HP as [->|[-> ->]].
    + cbn [app read_mantissa]. change (46 =? 95) with false. change (46 =? 46) with true. cbv iota.
      rewrite read_digits by exact Ff. rewrite RE, <- value_of_app, Z.add_0_l. do 3 f_equal.
      destruct ip; [destruct fp; [contradiction|reflexivity]|reflexivity].
    + cbn [app]. rewrite RE, app_nil_r. cbn [length]. do 3 f_equal. destruct ip; [contradiction|reflexivity].
Qed.
Lemma plain_unique s neg v neg' v' : plain_numeral s neg v -> plain_numeral s neg' v' -> neg = neg' /\ (v == v')%Q.
Proof.
  intros P P'. destruct (plain_is_numeral _ _ _ P) as (d & f & N & E & _), (plain_is_numeral _ _ _ P') as (d' & f' & N' & E' & _).
  destruct (numeral_parts _ _ _ _ _ N) as (b & x & C & R), (numeral_parts _ _ _ _ _ N') as (b' & x' & C' & R').
  rewrite C in C'. injection C' as -> ->. rewrite R in R'. injection R' as -> -> _. split; [reflexivity|]. rewrite E, E'. reflexivity.
Qed.
Lemma plain_not_zero s neg v n' : plain_numeral s neg v -> s = (if n' : bool then [45] else []) ++ [48] -> (v == 0)%Q.
Proof.
  intros P ->. assert (Q : plain_numeral ((if n' then [45] else []) ++ [48]) n' 0).
  { exists [48], []. split; [reflexivity|]. split; [discriminate|]. split; [constructor; [unfold digit_char; lia|constructor]|]. split; [constructor|].
    split; [intros r E; injection E as <-; reflexivity|]. split; [intros r E; destruct r; discriminate|reflexivity]. }
  destruct (plain_unique _ _ _ _ _ P Q) as [_ E]. exact E.
Qed.
Definition text_char (c : Z) : Prop := digit_char c \/ c = 45 \/ c = 46 \/ c = 43 \/ c = 73 \/ c = 110 \/ c = 102 \/ c = 78 \/ c = 97.
Lemma text_chars prec emax k x s : number_text prec emax k x s -> Forall text_char s /\ s <> [].
Proof.
  assert (D : forall l, Forall digit_char l -> Forall text_char l) by (intros l H; eapply Forall_impl; [|exact H]; intros; left; assumption).
  destruct x as [n|n| |n m e]; cbn [number_text].
  - intros ->. split; [|destruct n; discriminate]. destruct n; repeat (apply Forall_cons; [unfold text_char, digit_char; lia|]); apply Forall_nil.
  - intros ->. split; [|destruct n; discriminate]. destruct n; repeat (apply Forall_cons; [unfold text_char, digit_char; lia|]); apply Forall_nil.
  - intros ->. split; [|discriminate]. repeat (apply Forall_cons; [unfold text_char, digit_char; lia|]); apply Forall_nil.
  - intros (DD & K & c & (ip & fp & -> & NE & Fi & Ff & _) & _). split.
    + apply Forall_app. split; [destruct n; repeat (apply Forall_cons; [unfold text_char; lia|]); apply Forall_nil|]. apply Forall_app. split; [apply D, Fi|].
      destruct fp; [constructor|]. constructor; [unfold text_char; lia|apply D, Ff].
    + destruct n; [discriminate|]. destruct ip; [contradiction|discriminate].
Qed.
Section Injective.
  Variable prec emax k : Z.
  Hypothesis Hprec : 1 < prec.
  Hypothesis Hemax : prec < emax.
  (** A plain numeral begins with a digit after the sign. *)
  Lemma plain_not_word s neg v c r : plain_numeral s neg v -> s = c :: r -> c <> 43 /\ c <> 78 /\ (c = 45 -> forall r', r <> 73 :: r').
  Proof.
    intros (ip & fp & -> & NE & Fi & _) E. destruct ip as [|d ip]; [contradiction|]. inversion Fi as [|? ? Hd _]; subst. unfold digit_char in Hd.
    destruct neg; cbn [app] in E; injection E as <- <-; (split; [lia|]); (split; [lia|]); [intros _ r' Q; injection Q; lia|lia].
  Qed.
  Theorem text_injective x y s : valid_binary prec emax x = true -> valid_binary prec emax y = true ->
    number_text prec emax k x s -> number_text prec emax k y s -> x = y.
  Proof.
    intros Vx Vy Tx Ty.
    assert (FIN : forall n m e y, number_text prec emax k (S754_finite n m e) s -> number_text prec emax k y s -> finite y /\ value y == 0 -> False).
    { intros n m e z (D & K & c & P & SD & _) Tz [Fz Ez]. destruct z as [n'|n'| |n' m' e']; try contradiction.
      - cbn [number_text] in Tz. pose proof (plain_not_zero _ _ _ _ P Tz) as E0. assert (0 < scaled D K)%Q by (apply scaled_pos, SD). lra.
      - cbn [value] in Ez. assert (P2 : (0 < 2 ^ e')%Q) by (apply Qpower_0_lt; reflexivity).
        assert (M : (~ inject_Z (if n' then Zneg m' else Zpos m') == 0)%Q) by (destruct n'; discriminate).
        apply Qmult_integral in Ez as [Ez|Ez]; [exact (M Ez)|lra]. }
    destruct x as [n|n| |n m e], y as [n'|n'| |n' m' e']; try reflexivity;
      try (exfalso; refine (FIN _ _ _ _ Tx Ty _); split; [exact I|reflexivity]);
      try (exfalso; refine (FIN _ _ _ _ Ty Tx _); split; [exact I|reflexivity]).
    - cbn in Tx, Ty. rewrite Tx in Ty. destruct n, n'; try reflexivity; discriminate.
    - cbn in Tx, Ty. rewrite Tx in Ty. destruct n, n'; discriminate.
    - cbn in Tx, Ty. rewrite Tx in Ty. destruct n; discriminate.
    - cbn in Tx, Ty. rewrite Tx in Ty. destruct n, n'; discriminate.
    - cbn in Tx, Ty. rewrite Tx in Ty. destruct n, n'; try reflexivity; discriminate.
    - cbn in Tx, Ty. rewrite Tx in Ty. destruct n; discriminate.
    - exfalso. destruct Ty as (D & K & c & P & _). cbn [number_text] in Tx. destruct n; destruct (plain_not_word _ _ _ _ _ P Tx) as (A & B & C); [apply (C eq_refl _ eq_refl)|apply A; reflexivity].
    - cbn in Tx, Ty. rewrite Tx in Ty. destruct n'; discriminate.
    - cbn in Tx, Ty. rewrite Tx in Ty. destruct n'; discriminate.
    - exfalso. destruct Ty as (D & K & c & P & _). cbn in Tx. destruct (plain_not_word _ _ _ _ _ P Tx) as (A & B & C). apply B; reflexivity.
    - exfalso. destruct Tx as (D & K & c & P & _). cbn [number_text] in Ty. destruct n'; destruct (plain_not_word _ _ _ _ _ P Ty) as (A & B & C); [apply (C eq_refl _ eq_refl)|apply A; reflexivity].
    - exfalso. destruct Tx as (D & K & c & P & _). cbn in Ty. destruct (plain_not_word _ _ _ _ _ P Ty) as (A & B & C). apply B; reflexivity.
    - destruct Tx as (D & K & c & P & SD & _), Ty as (D' & K' & c' & P' & SD' & _). destruct (plain_unique _ _ _ _ _ P P') as [-> E].
      destruct SD as (_ & R & _), SD' as (_ & R' & _). apply (rounds_eq _ _ _ _ _ E) in R.
      pose proof (rounds_unique prec emax Hprec Hemax _ _ _ R R' eq_refl) as Q. congruence.
  Qed.
End Injective.
