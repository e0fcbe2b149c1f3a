(** FloatTextProofs.v -- the shortest decimal numeral of a number. *)
From Coq Require Import ZArith QArith Qabs Qpower Lqa Lia Bool List Floats.SpecFloat.
From Verif Require Import Base FloatSpec FloatCoreProofs FloatRoundProofs FloatOpsProofs FloatUniqueProofs
  DecimalModel DecimalSpec DecimalProofs FloatModel FloatTextModel FloatTextSpec.
Import ListNotations.
Local Open Scope Q_scope.

(** *** Powers of ten *)
Lemma ten_pos k : 0 < 10 ^ k. Proof. apply Qpower_0_lt. reflexivity. Qed.
Lemma ten_add a b : 10 ^ (a + b) == 10 ^ a * 10 ^ b. Proof. apply Qpower_plus. discriminate. Qed.
Lemma base_Z (b n : Z) : (0 <= n)%Z -> (inject_Z b) ^ n == inject_Z (b ^ n).
Proof. intros H. rewrite Zpower_Qpower by exact H. reflexivity. Qed.
Lemma ten_Z n : (0 <= n)%Z -> 10 ^ n == inject_Z (10 ^ n). Proof. apply (base_Z 10). Qed.
Lemma pow10_pos n : (0 <= n -> 0 < 10 ^ n)%Z. Proof. intros H. apply Z.pow_pos_nonneg; lia. Qed.
Lemma scaled_le a b K : (a <= b)%Z -> scaled a K <= scaled b K.
Proof. intros H. apply Qmult_le_compat_r; [apply inj_le, H|apply Qlt_le_weak, ten_pos]. Qed.
Lemma scaled_lt a b K : (a < b)%Z -> scaled a K < scaled b K.
Proof. intros H. apply Qmult_lt_compat_r; [apply ten_pos|apply inj_lt, H]. Qed.
Lemma scaled_le_inv a b K : scaled a K <= scaled b K -> (a <= b)%Z.
Proof. intros H. destruct (Z.le_gt_cases a b) as [|G]; [assumption|]. apply (scaled_lt _ _ K) in G. lra. Qed.
Lemma scaled_shift a n K : (0 <= n)%Z -> scaled (a * 10 ^ n) K == scaled a (K + n).
Proof. intros H. unfold scaled. rewrite inject_Z_mult, <- ten_Z, ten_add by exact H. ring. Qed.
Lemma scaled_pos D K : (0 < D)%Z -> 0 < scaled D K.
Proof. intros H. apply (scaled_lt _ _ K) in H. unfold scaled in *. change (inject_Z 0) with 0 in H. lra. Qed.

(** *** The number of digits *)
Lemma digits_length n : (0 < n)%Z -> (10 ^ (Z.of_nat (length (digits n)) - 1) <= n < 10 ^ Z.of_nat (length (digits n)))%Z /\ (0 < Z.of_nat (length (digits n)))%Z.
Proof.
  intros H. destruct (digits_spec n ltac:(lia)) as (A & B & C & D).
  pose proof (value_of_bound _ B) as U. rewrite D in U. destruct (digits n) as [|c s]; [contradiction|].
  cbn [length] in *. rewrite Nat2Z.inj_succ in *. split; [|lia]. split; [|lia].
  rewrite value_of_cons in D. replace (Z.succ (Z.of_nat (length s)) - 1)%Z with (Z.of_nat (length s)) by lia.
  inversion B as [|? ? Bc Bs]; subst. pose proof (value_of_nonneg s Bs) as V. unfold digit_char in Bc.
  assert (c <> 48)%Z.
  { intros ->. specialize (C s eq_refl). subst. cbn in H. lia. }
  pose proof (pow10_pos (Z.of_nat (length s)) ltac:(lia)). nia.
Qed.

Section Format.
  Variable prec emax : Z.
  Hypothesis Hprec : (1 < prec)%Z.
  Hypothesis Hemax : (prec < emax)%Z.

  (** *** Rounding of fractions *)
  Lemma ratio_ok s n d : (0 < n)%Z -> (0 < d)%Z ->
    rounds_to prec emax (signed s (inject_Z n / inject_Z d)) (round_ratio prec emax s n d) /\ negative (round_ratio prec emax s n d) = s.
  Proof.
    intros Hn Hd. destruct n as [|p|p]; try lia. destruct d as [|q|q]; try lia. cbn [round_ratio].
    destruct (SFdiv_core_binary prec emax (Zpos p) 0 (Zpos q) 0) as [[mz ez] lz] eqn:E.
    destruct (div_core_ok prec emax Hprec p 0 q 0 mz ez lz E) as (V & M & B & F).
    pose proof (round_rational prec emax Hprec Hemax s _ mz ez lz V M B F) as R.
    split; [|apply R]. eapply (rounds_eq prec emax); [|apply R].
    assert (Q : inject_Z (Zpos p) * 2 ^ 0 / (inject_Z (Zpos q) * 2 ^ 0) == inject_Z (Zpos p) / inject_Z (Zpos q)).
    { change (2 ^ 0) with 1. rewrite !Qmult_1_r. reflexivity. }
    unfold signed. destruct s; rewrite Q; reflexivity.
  Qed.
  Lemma scaled_ok base s D K : (0 < base)%Z -> (0 < D)%Z ->
    rounds_to prec emax (signed s (inject_Z D * inject_Z base ^ K)) (round_scaled prec emax base s D K) /\ negative (round_scaled prec emax base s D K) = s.
  Proof.
    intros Hb HD. unfold round_scaled. destruct (Z.leb_spec 0 K) as [L|L].
    - assert (P : (0 < base ^ K)%Z) by (apply Z.pow_pos_nonneg; lia).
      destruct (ratio_ok s (D * base ^ K) 1 ltac:(nia) ltac:(lia)) as [R N]. split; [|exact N].
      eapply (rounds_eq prec emax); [|exact R]. unfold signed.
      assert (Q : inject_Z (D * base ^ K) / inject_Z 1 == inject_Z D * inject_Z base ^ K).
      { rewrite inject_Z_mult, base_Z by exact L. change (inject_Z 1) with 1. field. }
      destruct s; rewrite Q; reflexivity.
    - assert (P : (0 < base ^ (- K))%Z) by (apply Z.pow_pos_nonneg; lia).
      destruct (ratio_ok s D (base ^ (- K)) HD P) as [R N]. split; [|exact N].
      eapply (rounds_eq prec emax); [|exact R]. unfold signed.
      assert (Q : inject_Z D / inject_Z (base ^ (- K)) == inject_Z D * inject_Z base ^ K).
      { rewrite <- base_Z by lia. rewrite Qpower_opp. unfold Qdiv. rewrite Qinv_involutive. reflexivity. }
      destruct s; rewrite Q; reflexivity.
  Qed.

  Section Number.
    Variable m : positive.
    Variable e : Z.
    Hypothesis B : bounded prec emax m e = true.
    Let x := S754_finite false m e.
    Let v := value x.
    Let N := all_digits m e.
    Let P := places e.
    Let L := count m e.

    Lemma N_pos : (0 < N)%Z.
    Proof.
      unfold N, all_digits. assert (0 < 2 ^ Z.max 0 e)%Z by (apply Z.pow_pos_nonneg; lia).
      assert (0 < 5 ^ Z.max 0 (- e))%Z by (apply Z.pow_pos_nonneg; lia). nia.
    Qed.
    Lemma v_exact : v == scaled N (- P).
    Proof.
      unfold v, x, N, P, all_digits, places, scaled. cbn [value]. destruct (Z.le_gt_cases 0 e) as [H|H].
      - rewrite (Z.max_r 0 e), (Z.max_l 0 (- e)) by lia. change (5 ^ 0)%Z with 1%Z. change (10 ^ (- 0)) with 1.
        rewrite Z.mul_1_r, inject_Z_mult, <- pow2_Z by exact H. ring.
      - rewrite (Z.max_l 0 e), (Z.max_r 0 (- e)) by lia. change (2 ^ 0)%Z with 1%Z. rewrite Z.mul_1_r, Z.opp_involutive, inject_Z_mult.
        rewrite <- (base_Z 5) by lia. change 10 with (2 * inject_Z 5). rewrite Qmult_power.
        assert (I5 : inject_Z 5 ^ (- e) * inject_Z 5 ^ e == 1).
        { rewrite <- Qpower_plus by discriminate. replace (- e + e)%Z with 0%Z by lia. reflexivity. }
        setoid_replace (inject_Z (Zpos m) * inject_Z 5 ^ (- e) * (2 ^ e * inject_Z 5 ^ e)) with
          (inject_Z (Zpos m) * 2 ^ e * (inject_Z 5 ^ (- e) * inject_Z 5 ^ e)) by ring. rewrite I5. ring.
    Qed.
    Lemma L_ok : (10 ^ (L - 1) <= N < 10 ^ L)%Z /\ (0 < L)%Z.
    Proof. apply digits_length, N_pos. Qed.
    Lemma read_back_iff D K : (0 < D)%Z -> read_back prec emax m e D K = true <-> rounds_to prec emax (scaled D K) x.
    Proof.
      intros HD. destruct (scaled_ok 10 false D K ltac:(lia) HD) as [R S]. cbn [signed] in R.
      unfold read_back. set (r := round_scaled prec emax 10 false D K) in *. clearbody r. split.
      - destruct r as [| | |s' m' e']; try discriminate. cbn [negative] in S. subst s'.
        rewrite andb_true_iff, Pos.eqb_eq, Z.eqb_eq. intros [<- <-]. exact R.
      - intros R'. pose proof (rounds_unique prec emax Hprec Hemax _ _ _ R R' S) as ->. cbn. rewrite Pos.eqb_refl, Z.eqb_refl. reflexivity.
    Qed.
    Lemma read_back_exact : read_back prec emax m e N (- P) = true.
    Proof.
      apply read_back_iff; [exact N_pos|]. apply rounds_exact; [exact Hprec|exact B|exact I|]. symmetry. exact v_exact.
    Qed.

    Section At.
      Variable n : Z.
      Hypothesis Hn : (1 <= n <= L)%Z.
      Let u := (10 ^ (L - n))%Z.
      Let K := (L - n - P)%Z.
      Let lo := (N / u)%Z.
      Lemma u_pos : (0 < u)%Z. Proof. apply pow10_pos. lia. Qed.
      Lemma lo_bounds : (10 ^ (n - 1) <= lo < 10 ^ n)%Z /\ (lo * u <= N < (lo + 1) * u)%Z.
      Proof.
        destruct L_ok as [[A1 A2] A3]. pose proof u_pos as U. pose proof (Z.div_mod N u ltac:(lia)) as DM. pose proof (Z.mod_pos_bound N u U) as MB.
        fold lo in DM. assert (X : (lo * u <= N < (lo + 1) * u)%Z) by lia. split; [|exact X].
        assert (E1 : (10 ^ (L - 1) = 10 ^ (n - 1) * u)%Z) by (unfold u; rewrite <- Z.pow_add_r by lia; f_equal; lia).
        assert (E2 : (10 ^ L = 10 ^ n * u)%Z) by (unfold u; rewrite <- Z.pow_add_r by lia; f_equal; lia).
        split; [|nia]. assert (10 ^ (n - 1) < lo + 1)%Z by nia. lia.
      Qed.
      Lemma lo_pos : (0 < lo)%Z. Proof. destruct lo_bounds. pose proof (pow10_pos (n - 1) ltac:(lia)). lia. Qed.
      Lemma grid a : scaled a K == scaled (a * u) (- P).
      Proof. unfold u. rewrite scaled_shift by lia. replace (- P + (L - n))%Z with K by (unfold K; lia). reflexivity. Qed.
      Lemma lo_le : scaled lo K <= v. Proof. rewrite v_exact, grid. apply scaled_le. apply lo_bounds. Qed.
      Lemma hi_gt : v < scaled (lo + 1) K. Proof. rewrite v_exact, grid. apply scaled_lt. apply lo_bounds. Qed.
      (** Between the two neighbours there is no numeral of so few digits. *)
      Lemma below D' K' : (0 < D' < 10 ^ n)%Z -> scaled D' K' <= v -> scaled D' K' <= scaled lo K.
      Proof.
        intros HD H. destruct (Z.le_gt_cases K K') as [C|C].
        - replace K' with (K + (K' - K))%Z in * by lia. rewrite <- scaled_shift in * by lia. apply scaled_le.
          rewrite v_exact, grid in H. apply scaled_le_inv in H. destruct lo_bounds as [_ X]. pose proof u_pos. nia.
        - destruct lo_bounds as [[X _] _]. apply Qle_trans with (scaled (10 ^ (n - 1)) K); [|apply scaled_le, X].
          replace K with (K' + (K - K'))%Z by lia. rewrite <- scaled_shift by lia. apply scaled_le.
          assert (E : (10 ^ n = 10 ^ (n - 1) * 10)%Z) by (rewrite <- (Z.pow_1_r 10) at 3; rewrite <- Z.pow_add_r by lia; f_equal; lia).
          assert (10 ^ 1 <= 10 ^ (K - K'))%Z by (apply Z.pow_le_mono_r; lia). change (10 ^ 1)%Z with 10%Z in *.
          pose proof (pow10_pos (n - 1) ltac:(lia)). nia.
      Qed.
      Lemma above D' K' : (0 < D' < 10 ^ n)%Z -> v < scaled D' K' -> scaled (lo + 1) K <= scaled D' K'.
      Proof.
        intros HD H. destruct (Z.le_gt_cases K K') as [C|C].
        - replace K' with (K + (K' - K))%Z in * by lia. rewrite <- scaled_shift in * by lia. apply scaled_le.
          destruct (Z.le_gt_cases (lo + 1) (D' * 10 ^ (K' - K))) as [|G]; [assumption|exfalso].
          assert (G' : (D' * 10 ^ (K' - K) <= lo)%Z) by lia. apply (scaled_le _ _ K) in G'. pose proof lo_le. lra.
        - exfalso. destruct lo_bounds as [[X _] _]. pose proof lo_le as LE. apply (scaled_le _ _ K) in X.
          assert (scaled D' K' < scaled (10 ^ (n - 1)) K); [|lra].
          replace K with (K' + (K - K'))%Z by lia. rewrite <- scaled_shift by lia. apply scaled_lt.
          assert (E : (10 ^ n = 10 ^ (n - 1) * 10)%Z) by (rewrite <- (Z.pow_1_r 10) at 3; rewrite <- Z.pow_add_r by lia; f_equal; lia).
          assert (10 ^ 1 <= 10 ^ (K - K'))%Z by (apply Z.pow_le_mono_r; lia). change (10 ^ 1)%Z with 10%Z in *.
          pose proof (pow10_pos (n - 1) ltac:(lia)). nia.
      Qed.
      Lemma below_reads D' K' : (0 < D' < 10 ^ n)%Z -> scaled D' K' <= v -> rounds_to prec emax (scaled D' K') x ->
        read_back prec emax m e lo K = true.
      Proof.
        intros HD H R. apply read_back_iff; [exact lo_pos|]. apply (rounds_between prec emax Hprec _ _ _ R I).
        left. split; [apply below; assumption|exact lo_le].
      Qed.
      Lemma above_reads D' K' : (0 < D' < 10 ^ n)%Z -> v < scaled D' K' -> rounds_to prec emax (scaled D' K') x ->
        read_back prec emax m e (lo + 1) K = true.
      Proof.
        intros HD H R. apply read_back_iff; [pose proof lo_pos; lia|]. apply (rounds_between prec emax Hprec _ _ _ R I).
        right. split; [pose proof hi_gt; fold v; lra|apply above; assumption].
      Qed.
      Lemma neither : read_back prec emax m e lo K = false -> read_back prec emax m e (lo + 1) K = false ->
        forall D' K', (0 < D' < 10 ^ n)%Z -> ~ rounds_to prec emax (scaled D' K') x.
      Proof.
        intros H1 H2 D' K' HD R. destruct (Qlt_le_dec v (scaled D' K')) as [C|C].
        - rewrite (above_reads D' K' HD C R) in H2. discriminate.
        - rewrite (below_reads D' K' HD C R) in H1. discriminate.
      Qed.
    End At.

    (** *** The search *)
    Lemma rounds_scaled D K D' K' : scaled D K == scaled D' K' -> rounds_to prec emax (scaled D K) x -> rounds_to prec emax (scaled D' K') x.
    Proof. intros E R. eapply (rounds_eq prec emax); eassumption. Qed.
    Lemma above_hi n D' K' : (1 <= n <= L)%Z -> (0 < D' < 10 ^ n)%Z -> rounds_to prec emax (scaled D' K') x -> v < scaled D' K' ->
      Qabs (v - scaled (N / 10 ^ (L - n) + 1) (L - n - P)) <= Qabs (v - scaled D' K').
    Proof.
      intros Hn HD R C. pose proof (above n Hn D' K' HD C) as A. pose proof (hi_gt n Hn) as G.
      rewrite !Qabs_neg; lra.
    Qed.
    Lemma below_lo n D' K' : (1 <= n <= L)%Z -> (0 < D' < 10 ^ n)%Z -> rounds_to prec emax (scaled D' K') x -> scaled D' K' <= v ->
      Qabs (v - scaled (N / 10 ^ (L - n)) (L - n - P)) <= Qabs (v - scaled D' K').
    Proof.
      intros Hn HD R C. pose proof (below n Hn D' K' HD C) as A. pose proof (lo_le n Hn) as G.
      rewrite !Qabs_pos; lra.
    Qed.
    Lemma shortest_ok fuel : forall n, (1 <= n)%Z -> (Z.of_nat fuel + n = L + 1)%Z ->
      (forall D' K', (0 < D' < 10 ^ (n - 1))%Z -> ~ rounds_to prec emax (scaled D' K') x) ->
      exists n', (1 <= n')%Z /\ shortest_decimal prec emax x (fst (shortest prec emax m e fuel n)) (snd (shortest prec emax m e fuel n)) n'.
    Proof.
      induction fuel as [|fuel IH]; intros n H1 HL NO.
      - exfalso. apply (NO N (- P)%Z).
        + replace (n - 1)%Z with L by lia. split; [exact N_pos|apply L_ok].
        + apply read_back_iff; [exact N_pos|exact read_back_exact].
      - assert (Hn : (1 <= n <= L)%Z) by lia. cbn [shortest]. fold N P L.
        set (K := (L - n - P)%Z). set (u := (10 ^ (L - n))%Z). set (lo := (N / u)%Z).
        pose proof (lo_pos n Hn) as LP. pose proof (lo_bounds n Hn) as [LB LN]. fold u lo in LP, LB, LN.
        pose proof (read_back_iff lo K LP) as RD. pose proof (read_back_iff (lo + 1) K ltac:(lia)) as RU.
        assert (EXH : scaled (fst (if (lo + 1 =? 10 ^ n)%Z then (1, K + n) else (lo + 1, K))%Z) (snd (if (lo + 1 =? 10 ^ n)%Z then (1, K + n) else (lo + 1, K))%Z) == scaled (lo + 1) K
                      /\ (0 < fst (if (lo + 1 =? 10 ^ n)%Z then (1, K + n) else (lo + 1, K)) < 10 ^ n)%Z).
        { destruct (Z.eqb_spec (lo + 1) (10 ^ n)) as [E|E]; cbn [fst snd].
          - split; [rewrite <- scaled_shift by lia; rewrite Z.mul_1_l, E; reflexivity|].
            split; [lia|]. apply Z.pow_gt_1; lia.
          - split; [reflexivity|lia]. }
        set (hi := if (lo + 1 =? 10 ^ n)%Z then (1, K + n)%Z else (lo + 1, K)%Z) in *. destruct EXH as [EH BH].
        assert (UP : read_back prec emax m e (lo + 1) K = true ->
                (forall D' K', (0 < D' < 10 ^ n)%Z -> rounds_to prec emax (scaled D' K') x -> scaled D' K' <= v -> Qabs (v - scaled (lo + 1) K) <= Qabs (v - scaled D' K')) ->
                shortest_decimal prec emax x (fst hi) (snd hi) n).
        { intros OK NR. split; [exact BH|]. split; [apply (rounds_scaled (lo + 1) K); [symmetry; exact EH|apply RU, OK]|].
          split; [exact NO|]. intros D' K' HD R. fold v. rewrite EH. destruct (Qlt_le_dec v (scaled D' K')) as [C|C]; [|apply NR; assumption].
          apply (above_hi n D' K' Hn HD R C). }
        assert (DOWN : read_back prec emax m e lo K = true ->
                (forall D' K', (0 < D' < 10 ^ n)%Z -> rounds_to prec emax (scaled D' K') x -> v < scaled D' K' -> Qabs (v - scaled lo K) <= Qabs (v - scaled D' K')) ->
                shortest_decimal prec emax x lo K n).
        { intros OK NR. split; [lia|]. split; [apply RD, OK|].
          split; [exact NO|]. intros D' K' HD R. fold v. destruct (Qlt_le_dec v (scaled D' K')) as [C|C]; [apply NR; assumption|].
          apply (below_lo n D' K' Hn HD R C). }
        pose proof (lo_le n Hn) as LL. pose proof (hi_gt n Hn) as HG. fold u lo K in LL, HG.
        assert (TW : 2 * (v - scaled lo K) == scaled (2 * (N - lo * u)) (- P) /\ scaled (lo + 1) K - scaled lo K == scaled u (- P)).
        { rewrite v_exact. pose proof (grid n Hn lo) as G1. pose proof (grid n Hn (lo + 1)) as G2. fold u lo K in G1, G2. rewrite G1, G2.
          unfold scaled. unfold Z.sub. rewrite !inject_Z_mult, !inject_Z_plus, !inject_Z_opp, !inject_Z_mult. change (inject_Z 2) with 2. change (inject_Z 1) with 1. split; ring. }
        destruct TW as [T1 T2].
        destruct (read_back prec emax m e lo K) eqn:OD; destruct (read_back prec emax m e (lo + 1) K) eqn:OU; cbn [andb].
        + destruct ((2 * (N - lo * u) <? u) || (2 * (N - lo * u) =? u) && Z.even lo)%Z eqn:TIE; exists n; (split; [exact H1|]).
          * apply DOWN; [reflexivity|]. intros D' K' HD R C. pose proof (above n Hn D' K' HD C) as A. fold u lo K in A.
            assert (H2 : (2 * (N - lo * u) <= u)%Z).
            { apply orb_prop in TIE. destruct TIE as [TIE|TIE]; [apply Z.ltb_lt in TIE; lia|]. apply andb_prop in TIE. destruct TIE as [TIE _]. apply Z.eqb_eq in TIE. lia. }
            apply (scaled_le _ _ (- P)) in H2. rewrite Qabs_pos, Qabs_neg by lra. lra.
          * apply UP; [reflexivity|]. intros D' K' HD R C. pose proof (below n Hn D' K' HD C) as A. fold u lo K in A.
            assert (H2 : (u <= 2 * (N - lo * u))%Z).
            { apply orb_false_elim in TIE. destruct TIE as [TIE _]. apply Z.ltb_ge in TIE. lia. }
            apply (scaled_le _ _ (- P)) in H2. rewrite Qabs_neg, Qabs_pos by lra. lra.
        + exists n. split; [exact H1|]. apply DOWN; [reflexivity|]. intros D' K' HD R C. exfalso.
          pose proof (above_reads n Hn D' K' HD C R) as W. fold u lo K in W. congruence.
        + exists n. split; [exact H1|]. apply UP; [reflexivity|]. intros D' K' HD R C. exfalso.
          pose proof (below_reads n Hn D' K' HD C R) as W. fold u lo K in W. congruence.
        + apply IH; [lia|lia|]. replace (n + 1 - 1)%Z with n by lia. apply (neither n Hn); assumption.
    Qed.
    Lemma shortest_found : exists n D K, shortest prec emax m e (Z.to_nat (count m e)) 1 = (D, K) /\ (1 <= n)%Z /\ shortest_decimal prec emax x D K n.
    Proof.
      destruct L_ok as [_ LP]. destruct (shortest_ok (Z.to_nat L) 1 ltac:(lia) ltac:(lia)) as (n & H1 & H2).
      - intros D' K' H. change (10 ^ (1 - 1))%Z with 1%Z in H. lia.
      - exists n, (fst (shortest prec emax m e (Z.to_nat L) 1)), (snd (shortest prec emax m e (Z.to_nat L) 1)).
        split; [fold L; apply surjective_pairing|]. auto.
    Qed.
    (** It does not end in a zero. *)
    Lemma no_trailing_zero D K n : shortest_decimal prec emax x D K n -> (1 <= n)%Z -> (D mod 10 <> 0)%Z.
    Proof.
      intros (A & R & M & _) Hn Z0. pose proof (Z.div_mod D 10 ltac:(lia)) as DM. rewrite Z0 in DM.
      assert (n <> 1)%Z by (intros ->; change (10 ^ 1)%Z with 10%Z in A; lia).
      assert (E : (10 ^ n = 10 * 10 ^ (n - 1))%Z) by (rewrite <- Z.pow_succ_r by lia; f_equal; lia).
      apply (M (D / 10)%Z (K + 1)%Z); [lia|]. apply (rounds_scaled D K); [|exact R].
      rewrite <- scaled_shift by lia. change (10 ^ 1)%Z with 10%Z. replace (D / 10 * 10)%Z with D by lia. reflexivity.
    Qed.

    (** *** How many digits are enough *)
    Lemma next_below y : valid_binary prec emax y = true -> finite y -> value y < v ->
      value y + 2 ^ e <= v \/ ((SpecFloat.emin prec emax < e /\ Zpos m = 2 ^ (prec - 1))%Z /\ value y + (1 # 2) * 2 ^ e <= v).
    Proof.
      intros Vy Fy LT. apply (bounded_spec prec emax Hprec) in B. destruct B as (Ge & Bm & Hm). 
      assert (V1 : 2 ^ e <= v).
      { unfold v, x. cbn [value]. rewrite <- (Qmult_1_l (2 ^ e)) at 1. apply Qmult_le_compat_r; [change 1 with (inject_Z 1); apply inj_le; lia|apply Qlt_le_weak, pow2_pos]. }
      destruct (Qlt_le_dec 0 (value y)) as [Y0|Y0]; [|left; lra].
      destruct (valid_magnitude prec emax Hprec y Vy Fy) as (m' & e' & E & By & G). rewrite Qabs_pos in E by lra. rewrite E in *. clear E.
      unfold v, x in *. cbn [value] in *.
      destruct (Z.le_gt_cases e e') as [H|H].
      - left. rewrite (pow2_shift e e' H) in *. rewrite Qmult_assoc, <- inject_Z_mult in *. apply scale_lt_inv in LT.
        assert (K : (m' * 2 ^ (e' - e) + 1 <= Zpos m)%Z) by lia. apply (scale_le _ _ e) in K. rewrite inject_Z_plus in K. change (inject_Z 1) with 1 in K. lra.
      - assert (Gt' : (SpecFloat.emin prec emax < e)%Z) by lia. specialize (Hm Gt'). pose proof (half_power prec Hprec) as PP0.
        pose proof (half_power_pos prec Hprec) as PP1.
        assert (K : (m' + 1 <= 2 ^ prec)%Z) by lia. apply (scale_le _ _ e') in K. rewrite inject_Z_plus in K. change (inject_Z 1) with 1 in K.
        rewrite PP0, inject_Z_mult in K. change (inject_Z 2) with 2 in K.
        pose proof (pow2_mono e' (e - 1) ltac:(lia)) as K2. rewrite pow2_half in K2.
        assert (P0 : 1 <= inject_Z (2 ^ (prec - 1))) by (change 1 with (inject_Z 1); apply inj_le; lia).
        assert (K3 : inject_Z m' * 2 ^ e' + (1 # 2) * 2 ^ e <= inject_Z (2 ^ (prec - 1)) * 2 ^ e) by nra.
        destruct (Z.eq_dec (Zpos m) (2 ^ (prec - 1))) as [Em|Nm].
        + right. split; [split; assumption|]. rewrite Em. exact K3.
        + left. assert (K4 : (2 ^ (prec - 1) + 1 <= Zpos m)%Z) by lia. apply (scale_le _ _ e) in K4.
          rewrite inject_Z_plus in K4. change (inject_Z 1) with 1 in K4. pose proof (pow2_pos e). lra.
    Qed.
    Lemma close_rounds w : Qabs (v - w) < (1 # 2) * 2 ^ e -> (Zpos m = (2 ^ (prec - 1))%Z -> Qabs (v - w) < (1 # 4) * 2 ^ e) -> rounds_to prec emax w x.
    Proof.
      intros C1 C2. apply rounds_finite; [exact I|]. split; [exact B|]. pose proof B as B'. apply (bounded_spec prec emax Hprec) in B'. destruct B' as (Ge & Bm & Hm).
      pose proof (pow2_pos e) as PE. split.
      - pose proof (pow2_mono e (emax - prec) (proj2 Ge)) as ME.
        assert (K : inject_Z (Zpos m) + 1 <= inject_Z (2 ^ prec)) by (change 1 with (inject_Z 1); rewrite <- inject_Z_plus; apply inj_le; lia).
        assert (M0 : 1 <= inject_Z (Zpos m)) by (change 1 with (inject_Z 1); apply inj_le; lia).
        assert (LE : v + (1 # 2) * 2 ^ e <= limit prec emax) by (unfold limit, v, x; cbn [value]; nra).
        assert (V1 : 2 ^ e <= v) by (unfold v, x; cbn [value]; nra).
        revert C1. apply Qabs_case; intros; apply Qabs_case; intros; lra.
      - intros y Vy Fy. destruct (Q_dec (value y) v) as [[LT|GT]|EQ].
        + assert (S : Qabs (w - v) < Qabs (w - value y)).
          { destruct (next_below y Vy Fy LT) as [S|[[_ Em] S]].
            - revert C1. apply Qabs_case; intros; apply Qabs_case; intros; apply Qabs_case; intros; lra.
            - specialize (C2 Em). revert C2. apply Qabs_case; intros; apply Qabs_case; intros; apply Qabs_case; intros; lra. }
          fold v. split; intros; lra.
        + assert (S : Qabs (w - v) < Qabs (w - value y)).
          { assert (G : v + 2 ^ e <= value y).
            { pose proof (pos_scale m e) as V0. destruct (valid_magnitude prec emax Hprec y Vy Fy) as (m' & e' & E & By & G). rewrite Qabs_pos in E by (unfold v, x in GT; cbn [value] in GT; lra).
              pose proof (next_above prec emax Hprec (Zpos m) e (value y) (proj1 Ge) Hm ltac:(lia)) as NA.
              specialize (NA (ex_intro _ m' (ex_intro _ e' (conj E (conj By G)))) GT).
              rewrite inject_Z_plus in NA. change (inject_Z 1) with 1 in NA. unfold v, x. cbn [value]. lra. }
            revert C1. apply Qabs_case; intros; apply Qabs_case; intros; apply Qabs_case; intros; lra. }
          fold v. split; intros; lra.
        + fold v. rewrite EQ. split; [apply Qle_refl|]. intros _. left. reflexivity.
    Qed.
    Lemma enough_digits n : (1 <= n)%Z -> (2 ^ prec < 10 ^ (n - 1))%Z -> exists D K, (0 < D < 10 ^ n)%Z /\ rounds_to prec emax (scaled D K) x.
    Proof.
      intros Hn1 H. destruct (Z.le_gt_cases n L) as [HL|HL].
      2:{ exists N, (- P)%Z. split; [|apply read_back_iff; [exact N_pos|exact read_back_exact]].
          destruct L_ok as [[_ A] _]. pose proof N_pos. assert (10 ^ L <= 10 ^ n)%Z by (apply Z.pow_le_mono_r; lia). lia. }
      assert (Hn : (1 <= n <= L)%Z) by lia.
      pose proof (lo_le n Hn) as LL. pose proof (hi_gt n Hn) as HG. pose proof (lo_bounds n Hn) as [LB _].
      set (K := (L - n - P)%Z) in *. set (lo := (N / 10 ^ (L - n))%Z) in *.
      pose proof B as B'. apply (bounded_spec prec emax Hprec) in B'. destruct B' as (Ge & Bm & Hm). pose proof (pow2_pos e) as PE.
      set (U := 10 ^ K) in *. assert (UP : 0 < U) by apply ten_pos.
      assert (E1 : scaled (lo + 1) K == scaled lo K + U).
      { unfold scaled, U. rewrite inject_Z_plus. change (inject_Z 1) with 1. ring. }
      assert (UV : inject_Z (2 ^ prec) * U < v).
      { apply Qlt_le_trans with (scaled lo K); [|exact LL]. unfold scaled. fold U. apply Qmult_lt_compat_r; [exact UP|]. apply inj_lt. lia. }
      assert (PR : 0 < inject_Z (2 ^ prec)) by (change 0 with (inject_Z 0); apply inj_lt, Z.pow_pos_nonneg; lia).
      assert (U1 : U < 2 ^ e).
      { apply (Qmult_lt_l _ _ (inject_Z (2 ^ prec)) PR). apply Qlt_trans with v; [exact UV|]. unfold v, x. cbn [value].
        apply Qmult_lt_compat_r; [exact PE|]. apply inj_lt. exact Bm. }
      assert (U2 : Zpos m = (2 ^ (prec - 1))%Z -> U < (1 # 2) * 2 ^ e).
      { intros Em. apply (Qmult_lt_l _ _ (inject_Z (2 ^ prec)) PR). apply Qlt_le_trans with v; [exact UV|]. unfold v, x. cbn [value].
        rewrite Em, (half_power prec Hprec), inject_Z_mult. change (inject_Z 2) with 2. lra. }
      pose proof (pow10_pos (n - 1) ltac:(lia)) as TP.
      destruct (Qlt_le_dec ((1 # 2) * U) (v - scaled lo K)) as [C|C].
      - assert (R : rounds_to prec emax (scaled (lo + 1) K) x).
        { apply close_rounds; [|intros Em; specialize (U2 Em)]; rewrite Qabs_neg by lra; lra. }
        destruct (Z.eq_dec (lo + 1) (10 ^ n)) as [E|E].
        + exists 1%Z, (K + n)%Z. split; [split; [lia|apply Z.pow_gt_1; lia]|].
          apply (rounds_scaled (lo + 1) K); [|exact R]. rewrite <- scaled_shift by lia. rewrite Z.mul_1_l, E. reflexivity.
        + exists (lo + 1)%Z, K. split; [lia|exact R].
      - exists lo, K. split; [lia|]. apply close_rounds; [|intros Em; specialize (U2 Em)]; rewrite Qabs_pos by lra; lra.
    Qed.
    Lemma at_most D K n k : (1 <= k)%Z -> (2 ^ prec < 10 ^ (k - 1))%Z -> shortest_decimal prec emax x D K n -> (n <= k)%Z.
    Proof.
      intros Hk H (_ & _ & M & _). destruct (Z.le_gt_cases n k) as [|G]; [assumption|exfalso].
      destruct (enough_digits k Hk H) as (D' & K' & A & R). apply (M D' K'); [|exact R].
      assert (10 ^ k <= 10 ^ (n - 1))%Z by (apply Z.pow_le_mono_r; lia). lia.
    Qed.
  End Number.
End Format.
