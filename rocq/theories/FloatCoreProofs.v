(** FloatCoreProofs.v -- rounding in Coq's SpecFloat is rounding to nearest, ties to
    even.  The number to be rounded is given by how it compares with every dyadic
    number, so the same proof serves rational numbers and square roots. *)
From Coq Require Import ZArith Lia List Bool Floats.SpecFloat.
Local Open Scope Z_scope.

(** [c m e] compares the number with m * 2^e. *)
Record cut (c : Z -> Z -> comparison) : Prop := {
  cut_scale : forall m e, c (2 * m) e = c m (e + 1);
  cut_up : forall m m' e, m < m' -> c m e <> Gt -> c m' e = Lt;
  cut_down : forall m m' e, m < m' -> c m' e <> Lt -> c m e = Gt }.

(** The number lies in [m 2^e, (m+1) 2^e), as the location says. *)
Definition between (c : Z -> Z -> comparison) (m e : Z) (l : location) : Prop :=
  match l with
  | loc_Exact => c m e = Eq
  | loc_Inexact k => c m e = Gt /\ c (m + 1) e = Lt /\ c (2 * m + 1) (e - 1) = k
  end.

Section Core.
  Variable c : Z -> Z -> comparison.
  Hypothesis C : cut c.

  Lemma scale' m e : c (2 * m) (e - 1) = c m e.
  Proof. rewrite (cut_scale _ C). f_equal. lia. Qed.
  Lemma scale_n n : 0 <= n -> forall m e, c (m * 2 ^ n) e = c m (e + n).
  Proof.
    intros H. pattern n. apply natlike_ind; [..|exact H].
    - intros m e. rewrite Z.pow_0_r, Z.mul_1_r, Z.add_0_r. reflexivity.
    - clear n H. intros n H IH m e. rewrite Z.pow_succ_r by exact H.
      replace (m * (2 * 2 ^ n)) with (2 * (m * 2 ^ n)) by ring. rewrite (cut_scale _ C), IH. f_equal. lia.
  Qed.

  Definition holds (r : shr_record) (e : Z) : Prop := 0 <= shr_m r /\ between c (shr_m r) e (loc_of_shr_record r).
  Lemma holds_of_loc m l e : 0 <= m -> between c m e l -> holds (shr_record_of_loc m l) e.
  Proof. intros P H. destruct l as [|[| |]]; split; assumption. Qed.
  Lemma step r e : holds r e -> holds (shr_1 r) (e + 1) /\ shr_m (shr_1 r) = shr_m r / 2.
  Proof.
    destruct r as [m r s]. unfold holds. cbn [shr_m]. intros [P H].
    assert (D : forall p, 2 * p / 2 = p) by (intros p; rewrite Z.mul_comm; apply Z.div_mul; lia).
    assert (D' : forall p, (2 * p + 1) / 2 = p) by (intros p; replace (2 * p + 1) with (1 + p * 2) by ring; rewrite Z.div_add by lia; reflexivity).
    assert (S1 : forall p, c (2 * p) e = c p (e + 1)) by (intros; apply (cut_scale _ C)).
    assert (S2 : forall p, c p (e + 1 - 1) = c p e) by (intros; f_equal; lia).
    assert (K : exists p b, m = 2 * p + Z.b2z b /\ 0 <= p /\
      shr_1 {| shr_m := m; shr_r := r; shr_s := s |} = {| shr_m := p; shr_r := b; shr_s := orb r s |}).
    { destruct m as [|[m|m|]|m]; [exists 0, false|exists (Zpos m), true|exists (Zpos m), false|exists 0, true|lia];
        (split; [cbn [Z.b2z]; lia|split; [lia|reflexivity]]). }
    destruct K as (p & b & -> & Pp & ->). cbn [shr_m]. split; [|destruct b; cbn [Z.b2z]; rewrite ?Z.add_0_r; [rewrite D'|rewrite D]; reflexivity].
    split; [exact Pp|].
    pose proof (cut_up _ C) as U. pose proof (cut_down _ C) as W.
    destruct b; cbn [Z.b2z] in H.
    - destruct r, s; cbn [loc_of_shr_record orb between] in *; rewrite ?S2.
      + destruct H as (A & B & _). split; [|split; [|]].
        * rewrite <- S1. apply (W _ (2 * p + 1)); [lia|congruence].
        * rewrite <- S1. replace (2 * (p + 1)) with (2 * p + 1 + 1) by ring. exact B.
        * exact A.
      + destruct H as (A & B & _). split; [|split; [|]].
        * rewrite <- S1. apply (W _ (2 * p + 1)); [lia|congruence].
        * rewrite <- S1. replace (2 * (p + 1)) with (2 * p + 1 + 1) by ring. exact B.
        * exact A.
      + destruct H as (A & B & _). split; [|split; [|]].
        * rewrite <- S1. apply (W _ (2 * p + 1)); [lia|congruence].
        * rewrite <- S1. replace (2 * (p + 1)) with (2 * p + 1 + 1) by ring. exact B.
        * exact A.
      + split; [|split; [|]].
        * rewrite <- S1. apply (W _ (2 * p + 1)); [lia|congruence].
        * rewrite <- S1. apply (U (2 * p + 1)); [lia|congruence].
        * exact H.
    - rewrite ?Z.add_0_r in H.
      destruct r, s; cbn [loc_of_shr_record orb between] in *; rewrite ?S2; try (rewrite <- S1; exact H);
        (destruct H as (A & B & _); split; [rewrite <- S1; exact A|]; split; [rewrite <- S1; apply (U (2 * p + 1)); [lia|congruence]|exact B]).
  Qed.
  Lemma iter_step p : forall r e, holds r e ->
    holds (iter_pos shr_1 p r) (e + Zpos p) /\ shr_m (iter_pos shr_1 p r) = shr_m r / 2 ^ Zpos p.
  Proof.
    induction p as [p IH|p IH|]; intros r e H; cbn [iter_pos].
    - destruct (step _ _ H) as [H1 E1]. destruct (IH _ _ H1) as [H2 E2]. destruct (IH _ _ H2) as [H3 E3].
      split; [replace (e + Zpos p~1) with (e + 1 + Zpos p + Zpos p) by lia; exact H3|].
      rewrite E3, E2, E1, !Z.div_div by lia. f_equal.
      replace (Zpos p~1) with (1 + Zpos p + Zpos p) by lia. rewrite !Z.pow_add_r by lia. ring.
    - destruct (IH _ _ H) as [H2 E2]. destruct (IH _ _ H2) as [H3 E3].
      split; [replace (e + Zpos p~0) with (e + Zpos p + Zpos p) by lia; exact H3|].
      rewrite E3, E2, !Z.div_div by lia. f_equal.
      replace (Zpos p~0) with (Zpos p + Zpos p) by lia. rewrite !Z.pow_add_r by lia. ring.
    - apply step, H.
  Qed.
  Lemma shr_spec r e n r' e' : holds r e -> 0 <= n -> shr r e n = (r', e') ->
    holds r' e' /\ e' = e + n /\ shr_m r' = shr_m r / 2 ^ n.
  Proof.
    intros H P E. destruct n as [|p|p]; [..|lia].
    - injection E as <- <-. rewrite Z.add_0_r, Z.pow_0_r, Z.div_1_r. auto.
    - injection E as <- <-. destruct (iter_step p r e H). auto.
  Qed.
End Core.

(** *** The number of binary digits *)
Lemma digits2_bounds p : 2 ^ (Zpos (digits2_pos p) - 1) <= Zpos p < 2 ^ Zpos (digits2_pos p).
Proof.
  induction p as [p IH|p IH|]; cbn [digits2_pos].
  - rewrite Pos2Z.inj_succ. replace (Z.succ (Zpos (digits2_pos p)) - 1) with (Z.succ (Zpos (digits2_pos p) - 1)) by lia.
    rewrite !Z.pow_succ_r by lia. lia.
  - rewrite Pos2Z.inj_succ. replace (Z.succ (Zpos (digits2_pos p)) - 1) with (Z.succ (Zpos (digits2_pos p) - 1)) by lia.
    rewrite !Z.pow_succ_r by lia. lia.
  - cbn. lia.
Qed.
Lemma digits2_unique p d : 2 ^ (d - 1) <= Zpos p < 2 ^ d -> Zpos (digits2_pos p) = d.
Proof.
  intros H. pose proof (digits2_bounds p) as B. set (d' := Zpos (digits2_pos p)) in *.
  assert (0 < d) by (destruct (Z.le_gt_cases d 0); [|lia]; assert (2 ^ d <= 1) by (destruct (Z.eq_dec d 0) as [->|]; [reflexivity|rewrite Z.pow_neg_r by lia; lia]); lia).
  assert (0 < d') by lia.
  destruct (Z.lt_trichotomy d d') as [L|[L|L]]; [exfalso|lia|exfalso].
  - assert (2 ^ d <= 2 ^ (d' - 1)) by (apply Z.pow_le_mono_r; lia). lia.
  - assert (2 ^ d' <= 2 ^ (d - 1)) by (apply Z.pow_le_mono_r; lia). lia.
Qed.

Section Format.
  Variable prec emax : Z.
  Hypothesis Hprec : 1 < prec.
  Hypothesis Hemax : prec < emax.
  Let emin := emin prec emax.
  Let fexp := fexp prec emax.

  (** A magnitude of the format: any multiple m of 2^e below 2^prec, e at least emin. *)
  Definition bounded_spec m e : bounded prec emax m e = true <->
    (emin <= e <= emax - prec /\ Zpos m < 2 ^ prec /\ (emin < e -> 2 ^ (prec - 1) <= Zpos m)).
  Proof.
    unfold bounded, canonical_mantissa. rewrite andb_true_iff. rewrite <- Zeq_is_eq_bool, <- Zle_is_le_bool.
    unfold SpecFloat.fexp. fold emin. pose proof (digits2_bounds m) as B. set (d := Zpos (digits2_pos m)) in *.
    assert (0 < d) by lia. split.
    - intros [E L]. split; [lia|]. split.
      + eapply Z.lt_le_trans; [apply B|]. apply Z.pow_le_mono_r; lia.
      + intros G. assert (d = prec) by lia. rewrite <- H0. apply B.
    - intros [[G1 G2] [U L]]. split; [|exact G2].
      assert (d <= prec).
      { destruct (Z.le_gt_cases d prec) as [|X]; [assumption|exfalso].
        assert (2 ^ prec <= 2 ^ (d - 1)) by (apply Z.pow_le_mono_r; lia). lia. }
      destruct (Z.eq_dec e emin) as [E|E]; [lia|].
      specialize (L ltac:(lia)).
      assert (prec <= d).
      { destruct (Z.le_gt_cases prec d) as [|X]; [assumption|exfalso].
        assert (2 ^ d <= 2 ^ (prec - 1)) by (apply Z.pow_le_mono_r; lia). lia. }
      lia.
  Qed.

  Section Round.
    Variable c : Z -> Z -> comparison.
    Hypothesis C : cut c.
    Variable mx ex : Z.
    Variable lx : location.
    Hypothesis Hm : 0 <= mx.
    Hypothesis HB : between c mx ex lx.
    Hypothesis He : ex <= fexp (Zdigits2 mx + ex).

    (** What [binary_round_aux] computes before it looks for overflow: a mantissa and an
        exponent of the format such that the number is nearest to it. *)
    Definition nearest_pair (m e : Z) : Prop :=
      emin <= e /\ 0 <= m < 2 ^ prec /\ (emin < e -> 2 ^ (prec - 1) <= m) /\
      c (2 * m - 1) (e - 1) <> Lt /\ c (2 * m + 1) (e - 1) <> Gt /\
      (c (2 * m - 1) (e - 1) = Eq -> Z.even m = true) /\ (c (2 * m + 1) (e - 1) = Eq -> Z.even m = true) /\
      (** the lower neighbour of a power of two is nearer *)
      (emin < e -> m = 2 ^ (prec - 1) -> c (4 * m - 1) (e - 2) <> Lt).

    Lemma rne_spec m e l : 0 <= m -> between c m e l ->
      let m' := round_nearest_even m l in
      (m' = m \/ m' = m + 1) /\ c (2 * m' - 1) (e - 1) <> Lt /\ c (2 * m' + 1) (e - 1) <> Gt /\
      (c (2 * m' - 1) (e - 1) = Eq -> Z.even m' = true) /\ (c (2 * m' + 1) (e - 1) = Eq -> Z.even m' = true) /\
      (m' = m -> c m e <> Lt).
    Proof.
      intros P H. pose proof (cut_up _ C) as U. pose proof (cut_down _ C) as W. pose proof (scale' c C) as S.
      destruct l as [|k]; cbn [round_nearest_even between] in *.
      - split; [left; reflexivity|].
        assert (c (2 * m) (e - 1) = Eq) by (rewrite S; exact H).
        rewrite (W (2 * m - 1) (2 * m)) by (lia || congruence). rewrite (U (2 * m) (2 * m + 1)) by (lia || congruence).
        repeat split; congruence.
      - destruct H as (A & B & E).
        assert (A' : c (2 * m) (e - 1) = Gt) by (rewrite S; exact A).
        assert (B' : c (2 * m + 2) (e - 1) = Lt) by (replace (2 * m + 2) with (2 * (m + 1)) by ring; rewrite S; exact B).
        assert (L : c (2 * m - 1) (e - 1) = Gt) by (apply (W _ (2 * m)); [lia|congruence]).
        assert (R : c (2 * m + 3) (e - 1) = Lt) by (apply (U (2 * m + 2)); [lia|congruence]).
        destruct k.
        + destruct (Z.even m) eqn:V.
          * split; [left; reflexivity|]. rewrite E, L. repeat split; congruence.
          * split; [right; reflexivity|]. replace (2 * (m + 1) - 1) with (2 * m + 1) by ring.
            replace (2 * (m + 1) + 1) with (2 * m + 3) by ring. rewrite E, R.
            assert (Z.even (m + 1) = true) by (rewrite Z.even_add, V; reflexivity).
            repeat split; try congruence; try (intros; lia).
        + split; [left; reflexivity|]. rewrite E, L. repeat split; congruence.
        + split; [right; reflexivity|]. replace (2 * (m + 1) - 1) with (2 * m + 1) by ring.
          replace (2 * (m + 1) + 1) with (2 * m + 3) by ring. rewrite E, R.
          repeat split; try congruence; try (intros; lia).
    Qed.

    Lemma Zdigits2_bounds m : 0 < m -> 2 ^ (Zdigits2 m - 1) <= m < 2 ^ Zdigits2 m /\ 0 < Zdigits2 m.
    Proof. intros P. destruct m as [|p|p]; try lia. cbn [Zdigits2]. split; [apply digits2_bounds|lia]. Qed.

    Lemma shr_fexp_first r e : shr_fexp prec emax mx ex lx = (r, e) ->
      holds c r e /\ emin <= e /\ 0 <= shr_m r < 2 ^ prec /\ (emin < e -> 2 ^ (prec - 1) <= shr_m r).
    Proof.
      unfold shr_fexp. fold fexp. intros E.
      assert (N0 : 0 <= fexp (Zdigits2 mx + ex) - ex) by lia.
      destruct (shr_spec c C _ _ _ _ _ (holds_of_loc c mx lx ex Hm HB) N0 E) as (H & Ee & Em).
      assert (shr_m (shr_record_of_loc mx lx) = mx) as Q by (destruct lx as [|[| |]]; reflexivity).
      rewrite Q in Em. split; [exact H|].
      assert (0 < 2 ^ prec) by (apply Z.pow_pos_nonneg; lia).
      destruct (Z.eq_dec mx 0) as [Z0|NZ].
      { assert (Em' : shr_m r = 0).
        { rewrite Em. set (n := fexp (Zdigits2 mx + ex) - ex) in *. rewrite Z0. apply Z.div_0_l, Z.pow_nonzero; lia. }
        pose proof He as He'. rewrite Z0 in Ee, He'. cbn [Zdigits2] in *. replace (ex + (fexp (0 + ex) - ex)) with (fexp (0 + ex)) in Ee by ring.
        unfold fexp, SpecFloat.fexp in Ee, He'. fold emin in Ee, He'. split; [lia|]. split; [lia|]. intros; lia. }
      destruct (Zdigits2_bounds mx ltac:(lia)) as [B Pd]. set (d := Zdigits2 mx) in *.
      replace (ex + (fexp (d + ex) - ex)) with (fexp (d + ex)) in Ee by ring.
      unfold fexp, SpecFloat.fexp in Ee. fold emin in Ee.
      set (n := fexp (d + ex) - ex) in *. assert (0 <= n) by lia.
      assert (Hn : e = ex + n) by (unfold n, fexp, SpecFloat.fexp; fold emin; lia).
      split; [lia|]. split; [split|].
      - apply H.
      - rewrite Em. apply Z.div_lt_upper_bound; [apply Z.pow_pos_nonneg; lia|].
        rewrite <- Z.pow_add_r by lia. eapply Z.lt_le_trans; [apply B|]. apply Z.pow_le_mono_r; lia.
      - intros G. rewrite Em. apply Z.div_le_lower_bound; [apply Z.pow_pos_nonneg; lia|].
        rewrite <- Z.pow_add_r by lia. replace (n + (prec - 1)) with (d - 1) by lia. apply B.
    Qed.

    Lemma shr_fexp_second m e r e' : emin <= e -> 0 <= m <= 2 ^ prec -> (emin < e -> 2 ^ (prec - 1) <= m) ->
      shr_fexp prec emax m e loc_Exact = (r, e') ->
      (m < 2 ^ prec /\ shr_m r = m /\ e' = e) \/ (m = 2 ^ prec /\ shr_m r = 2 ^ (prec - 1) /\ e' = e + 1).
    Proof.
      intros G B N E. unfold shr_fexp in E. unfold SpecFloat.fexp in E. fold emin in E.
      assert (PP : 2 ^ prec = 2 * 2 ^ (prec - 1)) by (rewrite <- Z.pow_succ_r by lia; f_equal; lia).
      assert (0 < 2 ^ (prec - 1)) by (apply Z.pow_pos_nonneg; lia).
      destruct (Z.eq_dec m 0) as [->|NZ].
      - cbn [Zdigits2] in E. assert (e = emin) by (destruct (Z.eq_dec e emin); [assumption|specialize (N ltac:(lia)); lia]).
        replace (Z.max (0 + e - prec) emin - e) with 0 in E by lia. cbn [shr] in E. injection E as <- <-.
        left. split; [lia|]. split; reflexivity.
      - destruct (Zdigits2_bounds m ltac:(lia)) as [D Pd]. set (d := Zdigits2 m) in *.
        destruct (Z.eq_dec m (2 ^ prec)) as [Em|Nm].
        + assert (d = prec + 1).
          { rewrite Em in D. destruct D as [D1 D2]. apply Z.pow_le_mono_r_iff in D1; [|lia..]. apply Z.pow_lt_mono_r_iff in D2; lia. }
          replace (Z.max (d + e - prec) emin - e) with 1 in E by lia. cbn [shr iter_pos shr_record_of_loc] in E.
          injection E as <- <-. right. split; [exact Em|]. split; [|reflexivity].
          rewrite Em, PP. destruct (2 ^ (prec - 1)) as [|q|q]; try lia. reflexivity.
        + assert (d <= prec) by (destruct (Z.le_gt_cases d prec); [assumption|exfalso]; assert (2 ^ prec <= 2 ^ (d - 1)) by (apply Z.pow_le_mono_r; lia); lia).
          replace (Z.max (d + e - prec) emin - e) with 0 in E.
          * cbn [shr] in E. injection E as <- <-. left. split; [lia|]. split; reflexivity.
          * destruct (Z.eq_dec e emin); [lia|]. specialize (N ltac:(lia)).
            assert (prec <= d) by (destruct (Z.le_gt_cases prec d); [assumption|exfalso]; assert (2 ^ d <= 2 ^ (prec - 1)) by (apply Z.pow_le_mono_r; lia); lia). lia.
    Qed.

    Lemma round_aux s : exists m e, nearest_pair m e /\
      binary_round_aux prec emax s mx ex lx =
        match m with
        | Z0 => S754_zero s
        | Zpos p => if Zle_bool e (emax - prec) then S754_finite s p e else S754_infinity s
        | _ => S754_nan
        end.
    Proof.
      unfold binary_round_aux. destruct (shr_fexp prec emax mx ex lx) as [r e] eqn:E1.
      destruct (shr_fexp_first _ _ E1) as (H & Ge & B & N). destruct H as [H0 H].
      set (m1 := shr_m r) in *. set (l1 := loc_of_shr_record r) in *.
      pose proof (rne_spec m1 e l1 H0 H) as R. cbv zeta in R. set (m2 := round_nearest_even m1 l1) in *.
      destruct R as (EM & R1 & R2 & R3 & R4 & R5).
      destruct (shr_fexp prec emax m2 e loc_Exact) as [r2 e2] eqn:E2.
      assert (PP : 2 ^ prec = 2 * 2 ^ (prec - 1)) by (rewrite <- Z.pow_succ_r by lia; f_equal; lia).
      assert (0 < 2 ^ (prec - 1)) by (apply Z.pow_pos_nonneg; lia).
      destruct (shr_fexp_second m2 e r2 e2 Ge ltac:(lia) ltac:(intros; specialize (N ltac:(lia)); lia) E2) as [(A & -> & ->)|(A & -> & ->)].
      - exists m2, e. split; [|reflexivity]. unfold nearest_pair. repeat split; try assumption; try lia.
        intros G Q. specialize (N G).
          assert (Q1 : m2 = m1) by (clearbody m2 m1 l1; clear - EM N Q; lia).
          assert (K : c m2 e <> Lt) by (rewrite Q1 at 1; apply R5, Q1).
          assert (c (4 * m2) (e - 2) <> Lt).
          { replace (4 * m2) with (2 * (2 * m2)) by ring. rewrite (cut_scale _ C).
            replace (e - 2 + 1) with (e - 1) by lia. rewrite (scale' c C). exact K. }
          rewrite (cut_down _ C (4 * m2 - 1) (4 * m2) (e - 2)) by (lia || assumption). discriminate.
      - exists (2 ^ (prec - 1)), (e + 1). split; [|reflexivity].
        assert (m1 = 2 ^ prec - 1) by (clearbody m2 m1 l1; clear - EM B A; lia).
        set (P := 2 ^ (prec - 1)) in *.
        assert (EP : Z.even P = true).
        { unfold P. replace (prec - 1) with (Z.succ (prec - 2)) by lia. rewrite Z.pow_succ_r by lia. apply Z.even_mul. }
        assert (S1 : forall p, c p (e + 1 - 2) = c p (e - 1)) by (intros; f_equal; lia).
        assert (S0 : forall p, c p (e + 1 - 1) = c p e) by (intros; f_equal; lia).
        rewrite A in *. rewrite PP in *.
        unfold nearest_pair. rewrite !S0, !S1. repeat split; try assumption; try lia.
        + (* (2P-1) e : the number is at least (4P-1)(e-1) > (4P-2)(e-1) *)
          rewrite <- (scale' c C). rewrite (cut_down _ C (2 * (2 * P - 1)) (2 * (2 * P) - 1) (e - 1)) by (lia || assumption). discriminate.
        + rewrite <- (scale' c C). rewrite (cut_up _ C (2 * (2 * P) + 1) (2 * (2 * P + 1)) (e - 1)) by (lia || assumption). discriminate.
        + intros _. exact EP.
        + intros _. exact EP.
        + intros _ _. replace (4 * P - 1) with (2 * (2 * P) - 1) by ring. exact R1.
    Qed.
  End Round.
End Format.
