(** CmpProofs.v -- proofs about cmp.go and pair.go. *)
From Coq Require Import Floats.SpecFloat.
From Verif Require Import Base IntModel DecimalModel Int128Model Int128Spec Int128Proofs CmpModel CmpSpec.
Local Open Scope Z_scope.
Local Open Scope bool_scope.

Ltac zc := repeat match goal with
  | H : context [Z.ltb ?a ?b] |- _ => destruct (Z.ltb_spec a b)
  | |- context [Z.ltb ?a ?b] => destruct (Z.ltb_spec a b)
  | H : context [Z.eqb ?a ?b] |- _ => destruct (Z.eqb_spec a b)
  | |- context [Z.eqb ?a ?b] => destruct (Z.eqb_spec a b)
  end; cbn [flip andb] in *; try discriminate; try reflexivity; try lia.

Lemma Int_order : total_order everything Int_Cmp Int_Eq.
Proof.
  unfold Int_Cmp, Int_Eq. constructor; intros; zc.
  all: split; intros; try discriminate; try lia; auto.
Qed.
Lemma Byte_order : total_order everything Byte_Cmp Int_Eq.
Proof.
  unfold Byte_Cmp, Int_Eq. constructor; intros; zc.
  all: split; intros; try discriminate; try lia; auto.
Qed.
Lemma Char_order : total_order everything Char_Cmp Int_Eq.
Proof. exact Byte_order. Qed.
Lemma Bool_order : total_order everything Bool_Cmp Bool_Eq.
Proof.
  unfold Bool_Cmp, Bool_Eq. constructor; intros;
  repeat match goal with b : bool |- _ => destruct b end; cbn in *; try discriminate; auto; split; auto; discriminate.
Qed.

(** Orders induced by an integer value. *)
Lemma value_order {A} (P : A -> Prop) (val : A -> Z) cmp eqb :
  (forall a b, P a -> P b -> cmp a b = match Z.compare (val a) (val b) with Lt => Less | Eq => Equal | Gt => Greater end) ->
  (forall a b, P a -> P b -> (eqb a b = true <-> val a = val b)) ->
  total_order P cmp eqb.
Proof.
  intros HC HE. constructor; intros; rewrite ?HC in * by auto.
  - now rewrite Z.compare_refl.
  - rewrite (Z.compare_antisym (val a) (val b)). now destruct (val a ?= val b).
  - destruct (Z.compare_spec (val a) (val b)), (Z.compare_spec (val b) (val c)); try discriminate.
    destruct (Z.compare_spec (val a) (val c)); try lia; auto.
  - destruct (Z.compare_spec (val a) (val b)); try discriminate. now rewrite H3.
  - rewrite HE by auto. destruct (Z.compare_spec (val a) (val b)); split; intros; try discriminate; auto; lia.
Qed.

Lemma I128_Eq_spec a b : I128_Eq a b = true <-> a = b.
Proof.
  unfold I128_Eq. rewrite andb_true_iff, !Z.eqb_eq. destruct a, b; cbn. split; [intros [-> ->]; auto|intros E; injection E; auto].
Qed.
Lemma U128_Eq_spec a b : U128_Eq a b = true <-> a = b.
Proof.
  unfold U128_Eq. rewrite andb_true_iff, !Z.eqb_eq. destruct a, b; cbn. split; [intros [-> ->]; auto|intros E; injection E; auto].
Qed.
Lemma I128_order : total_order ivalid I128_Cmp I128_Eq.
Proof.
  apply value_order with ival. apply I128_Cmp_spec.
  intros a b Ha Hb. rewrite I128_Eq_spec. split; [congruence|now apply ival_inj].
Qed.
Lemma U128_order : total_order uvalid U128_Cmp U128_Eq.
Proof.
  apply value_order with uval. apply U128_Cmp_spec.
  intros a b Ha Hb. rewrite U128_Eq_spec. split; [congruence|now apply uval_inj].
Qed.

(** *** Strings *)
Lemma String_Eq_spec a : forall b, String_Eq a b = true <-> a = b.
Proof.
  induction a as [|x a IH]; intros [|y b]; cbn [String_Eq]; try (split; [discriminate|discriminate]).
  - split; auto.
  - rewrite andb_true_iff, Z.eqb_eq, IH. split; [intros [-> ->]; auto|intros E; injection E; auto].
Qed.
Lemma string_lt_irrefl a : string_lt a a = false.
Proof. induction a as [|x a IH]; cbn [string_lt]; auto. rewrite Z.ltb_irrefl. auto. Qed.
Lemma string_lt_asym a : forall b, string_lt a b = true -> string_lt b a = false.
Proof.
  induction a as [|x a IH]; intros [|y b]; cbn [string_lt]; auto; try discriminate.
  intros H. destruct (Z.ltb_spec x y), (Z.ltb_spec y x); try lia; auto; discriminate.
Qed.
Lemma string_lt_trans a : forall b c, string_lt a b = true -> string_lt b c = true -> string_lt a c = true.
Proof.
  induction a as [|x a IH]; intros [|y b] [|z c]; cbn [string_lt]; auto; try discriminate.
  destruct (Z.ltb_spec x y), (Z.ltb_spec y x), (Z.ltb_spec y z), (Z.ltb_spec z y); try lia; try discriminate;
  destruct (Z.ltb_spec x z), (Z.ltb_spec z x); try lia; auto.
  apply IH.
Qed.
Lemma string_lt_total a : forall b, string_lt a b = false -> string_lt b a = false -> a = b.
Proof.
  induction a as [|x a IH]; intros [|y b]; cbn [string_lt]; auto; try discriminate.
  destruct (Z.ltb_spec x y), (Z.ltb_spec y x); try lia; try discriminate. intros.
  assert (x = y) by lia. subst. f_equal. now apply IH.
Qed.
Lemma String_order : total_order everything String_Cmp String_Eq.
Proof.
  unfold String_Cmp. constructor; intros.
  - now rewrite string_lt_irrefl.
  - destruct (string_lt a b) eqn:E1, (string_lt b a) eqn:E2; auto. apply string_lt_asym in E1. congruence.
  - destruct (string_lt a b) eqn:E1; [|destruct (string_lt b a); discriminate].
    destruct (string_lt b c) eqn:E2; [|destruct (string_lt c b); discriminate].
    now rewrite (string_lt_trans a b c).
  - destruct (string_lt a b) eqn:E1; [discriminate|]. destruct (string_lt b a) eqn:E2; [discriminate|].
    apply string_lt_total in E1; auto. now subst.
  - rewrite String_Eq_spec. split.
    + intros H1. destruct (string_lt a b) eqn:E1; [discriminate|]. destruct (string_lt b a) eqn:E2; [discriminate|].
      now apply string_lt_total.
    + intros ->. now rewrite string_lt_irrefl.
Qed.
Lemma string_lt_lex a : forall b, string_lt a b = true <-> lex_less a b.
Proof.
  unfold lex_less. induction a as [|x a IH]; intros b.
  - destruct b as [|y b]; cbn [string_lt]; split; auto; try discriminate.
    + intros [(c & r & E)|(p & x & y & r & s & E1 & E2 & _)]; [discriminate|]. destruct p; discriminate.
    + intros _. left. now exists y, b.
  - destruct b as [|y b]; cbn [string_lt].
    + split; [discriminate|]. intros [(c & r & E)|(p & x' & y & r & s & E1 & E2 & _)]; [discriminate|]. destruct p; discriminate.
    + destruct (Z.ltb_spec x y).
      { split; auto. intros _. right. exists [], x, y, a, b. auto. }
      destruct (Z.ltb_spec y x).
      { split; [discriminate|]. intros [(c & r & E)|(p & x' & y' & r & s & E1 & E2 & L)].
        - injection E as E _. lia.
        - destruct p as [|q p]; [injection E1; injection E2; intros; subst; lia|].
          injection E1 as -> _. injection E2 as -> _. lia. }
      assert (x = y) by lia. subst. rewrite IH. split.
      * intros [(c & r & ->)|(p & x' & y' & r & s & -> & -> & L)].
        { left. now exists c, r. }
        { right. exists (y :: p), x', y', r, s. auto. }
      * intros [(c & r & E)|(p & x' & y' & r & s & E1 & E2 & L)].
        { left. exists c, r. now injection E. }
        { right. destruct p as [|q p].
          - injection E1; injection E2; intros; subst; lia.
          - injection E1 as _ E1. injection E2 as _ E2. exists p, x', y', r, s. auto. }
Qed.
Lemma String_Cmp_less a b : String_Cmp a b = Less <-> lex_less a b.
Proof.
  rewrite <- string_lt_lex. unfold String_Cmp. destruct (string_lt a b); split; auto.
  destruct (string_lt b a); discriminate. discriminate.
Qed.

(** *** Floats *)
Definition fvalid (prec emax : Z) (x : spec_float) : Prop :=
  valid_binary prec emax x = true /\ is_nan x = false.
(** binary32 or binary64. *)
Definition fformat (prec emax : Z) : Prop := (prec = 24 /\ emax = 128) \/ (prec = 53 /\ emax = 1024).

Lemma digits2_bounds m : 2 ^ (Z.pos (digits2_pos m) - 1) <= Z.pos m < 2 ^ Z.pos (digits2_pos m).
Proof.
  induction m as [m IH|m IH|]; cbn [digits2_pos]; try (cbn; lia);
  rewrite Pos2Z.inj_succ; replace (Z.succ (Z.pos (digits2_pos m)) - 1) with (Z.succ (Z.pos (digits2_pos m) - 1)) by lia;
  rewrite !Z.pow_succ_r by lia; lia.
Qed.

Lemma bounded_facts prec emax m e : fformat prec emax -> bounded prec emax m e = true ->
  Z.pos m < 2 ^ 53 /\ - 1074 <= e <= 971 /\
  emin prec emax <= e /\ Z.pos m < 2 ^ prec /\ (emin prec emax < e -> 2 ^ (prec - 1) <= Z.pos m).
Proof.
  intros F H. unfold bounded, canonical_mantissa in H. apply andb_true_iff in H. destruct H as [H1 H2].
  apply Zeq_bool_eq in H1. apply Z.leb_le in H2. unfold fexp in H1.
  pose proof (digits2_bounds m) as HD. set (d := Z.pos (digits2_pos m)) in *. clearbody d.
  assert (emin prec emax = -149 /\ prec = 24 /\ emax = 128 \/ emin prec emax = -1074 /\ prec = 53 /\ emax = 1024) as HF.
  { unfold emin. destruct F as [[-> ->]|[-> ->]]; [left|right]; lia. }
  set (mn := emin prec emax) in *. clearbody mn. clear F.
  assert (d <= prec) by lia.
  assert (2 ^ d <= 2 ^ prec) by (destruct (Z_le_gt_dec 0 d); [apply Z.pow_le_mono_r; lia|rewrite Z.pow_neg_r by lia; apply Z.pow_nonneg; lia]).
  assert (2 ^ prec <= 2 ^ 53) by (apply Z.pow_le_mono_r; lia).
  split; [lia|]. split; [lia|]. split; [lia|]. split; [lia|].
  intros HE. assert (d = prec) by lia. subst d. lia.
Qed.

(** Finite magnitudes compare like (exponent, mantissa). *)
Lemma mag_compare prec emax m1 e1 m2 e2 : fformat prec emax ->
  bounded prec emax m1 e1 = true -> bounded prec emax m2 e2 = true ->
  Z.compare (Z.pos m1 * 2 ^ (e1 + 1074)) (Z.pos m2 * 2 ^ (e2 + 1074)) =
  match Z.compare e1 e2 with Eq => Pos.compare_cont Eq m1 m2 | o => o end.
Proof.
  intros F H1 H2.
  destruct (bounded_facts _ _ _ _ F H1) as (_ & R1 & L1 & U1 & N1).
  destruct (bounded_facts _ _ _ _ F H2) as (_ & R2 & L2 & U2 & N2).
  assert (forall m e m' e', -1074 <= e -> Z.pos m < 2 ^ prec -> (emin prec emax < e' -> 2 ^ (prec - 1) <= Z.pos m') ->
            emin prec emax <= e -> e < e' -> Z.pos m * 2 ^ (e + 1074) < Z.pos m' * 2 ^ (e' + 1074)) as K.
  { intros m e m' e' He HU HN HL HE.
    assert (2 ^ (prec - 1) <= Z.pos m') by (apply HN; lia).
    assert (0 < 2 ^ (e + 1074)) by (apply Z.pow_pos_nonneg; lia).
    replace (e' + 1074) with ((e + 1074) + (e' - e)) by lia. rewrite (Z.pow_add_r 2 (e + 1074) (e' - e)) by lia.
    assert (2 * 2 ^ (prec - 1) = 2 ^ prec).
    { rewrite <- Z.pow_succ_r. f_equal; lia. destruct F as [[-> _]|[-> _]]; lia. }
    assert (2 <= 2 ^ (e' - e)).
    { change 2 with (2 ^ 1) at 1. apply Z.pow_le_mono_r; lia. }
    set (p := 2 ^ (e + 1074)) in *. set (q := 2 ^ (e' - e)) in *. clearbody p q.
    assert (2 ^ prec <= Z.pos m' * q) by nia. nia. }
  destruct (Z.compare_spec e1 e2) as [E|E|E].
  - subst. change (Pos.compare_cont Eq m1 m2) with (Z.pos m1 ?= Z.pos m2).
    assert (0 < 2 ^ (e2 + 1074)) by (apply Z.pow_pos_nonneg; lia).
    destruct (Z.compare_spec (Z.pos m1) (Z.pos m2)) as [Em|Em|Em]; [rewrite Em; apply Z.compare_refl|apply Z.compare_lt_iff; nia|apply Z.compare_gt_iff; nia].
  - apply Z.compare_lt_iff. apply K; auto; lia.
  - apply Z.compare_gt_iff. apply K; auto; lia.
Qed.

Lemma fin_bound prec emax m e : fformat prec emax -> bounded prec emax m e = true ->
  0 < Z.pos m * 2 ^ (e + 1074) < 2 ^ 4000.
Proof.
  intros F H. destruct (bounded_facts _ _ _ _ F H) as (HM & HE & _).
  assert (0 < 2 ^ (e + 1074)) by (apply Z.pow_pos_nonneg; lia).
  assert (2 ^ (e + 1074) <= 2 ^ 2045) by (apply Z.pow_le_mono_r; lia).
  split; [nia|]. apply Z.lt_le_trans with (2 ^ 53 * 2 ^ 2045).
  - nia.
  - rewrite <- Z.pow_add_r by lia. apply Z.pow_le_mono_r; lia.
Qed.

Lemma SFcompare_scaled prec emax a b : fformat prec emax -> fvalid prec emax a -> fvalid prec emax b ->
  SFcompare a b = Some (Z.compare (scaled a) (scaled b)).
Proof.
  intros F [Va Na] [Vb Nb].
  assert (0 < 2 ^ 4000) as HI by (apply Z.pow_pos_nonneg; lia).
  set (I := 2 ^ 4000) in *.
  assert (forall m e, bounded prec emax m e = true -> 0 < Z.pos m * 2 ^ (e + 1074) < I) as FB.
  { intros m e H. eapply fin_bound; eauto. }
  assert (forall x y, -1 * x ?= -1 * y = CompOpp (x ?= y)) as CO.
  { intros x y. destruct (Z.compare_spec x y); cbn [CompOpp]; [subst; apply Z.compare_refl|apply Z.compare_gt_iff; lia|apply Z.compare_lt_iff; lia]. }
  destruct a as [sa|sa| |sa ma ea], b as [sb|sb| |sb mb eb]; try discriminate;
    cbn [SFcompare scaled valid_binary] in *; fold I; clearbody I; f_equal; symmetry;
    repeat match goal with H : bounded _ _ ?m ?e = true |- _ => 
      let K := fresh in pose proof (FB m e H) as K; revert H end; intros;
    repeat match goal with s : bool |- _ => destruct s end;
    rewrite ?Z.mul_1_l;
    try (apply Z.compare_lt_iff; lia); try (apply Z.compare_gt_iff; lia); try (apply Z.compare_eq_iff; lia).
  - rewrite <- !Z.mul_assoc, CO, mag_compare with (prec := prec) (emax := emax) by auto.
    destruct (ea ?= eb); reflexivity.
  - rewrite mag_compare with (prec := prec) (emax := emax) by auto. destruct (ea ?= eb); reflexivity.
Qed.

Lemma Float_Cmp_scaled prec emax a b : fformat prec emax -> fvalid prec emax a -> fvalid prec emax b ->
  Float_Cmp a b = match Z.compare (scaled a) (scaled b) with Lt => Less | Eq => Equal | Gt => Greater end.
Proof.
  intros F Ha Hb. unfold Float_Cmp, SFltb.
  rewrite (SFcompare_scaled prec emax a b), (SFcompare_scaled prec emax b a) by auto.
  rewrite (Z.compare_antisym (scaled a) (scaled b)). destruct (scaled a ?= scaled b); reflexivity.
Qed.
Lemma Float_order prec emax : fformat prec emax -> total_order (fvalid prec emax) Float_Cmp Float_Eq.
Proof.
  intros F. apply value_order with scaled.
  - intros. now apply Float_Cmp_scaled with prec emax.
  - intros a b Ha Hb. unfold Float_Eq, SFeqb. rewrite (SFcompare_scaled prec emax) by auto.
    destruct (Z.compare_spec (scaled a) (scaled b)); split; intros; try discriminate; auto; lia.
Qed.

(** *** Pairs *)
Definition pair_cmp {K V} (ck : K -> K -> ordering) (cv : V -> V -> ordering) (p q : Pair K V) : ordering :=
  match ck (Key p) (Key q) with Equal => cv (Value p) (Value q) | o => o end.
Definition pair_eq {K V} (ek : K -> K -> bool) (ev : V -> V -> bool) (p q : Pair K V) : bool :=
  ek (Key p) (Key q) && ev (Value p) (Value q).
Lemma Pair_Cmp_ret {K V} ck cv (p q : Pair K V) : Pair_Cmp (Some ck) (Some cv) p q = Ret (pair_cmp ck cv p q).
Proof. unfold Pair_Cmp, pair_cmp. cbn [of_option bind]. now destruct (ck (Key p) (Key q)). Qed.
Lemma Pair_Eq_ret {K V} ek ev (p q : Pair K V) : Pair_Eq (Some ek) (Some ev) p q = Ret (pair_eq ek ev p q).
Proof. reflexivity. Qed.

Lemma total_order_trans_gt {A} (P : A -> Prop) cmp eqb (H : total_order P cmp eqb) a b c :
  P a -> P b -> P c -> cmp a b = Equal -> cmp a c = cmp b c.
Proof. intros. symmetry. eapply to_equal; eauto. Qed.

Lemma to_sym_eq {A} (P : A -> Prop) cmp eqb (H : total_order P cmp eqb) a b :
  P a -> P b -> cmp a b = Equal -> cmp b a = Equal.
Proof. intros. rewrite (to_antisym _ _ _ H a b) by auto. now rewrite H2. Qed.

Lemma to_equal_r {A} (P : A -> Prop) cmp eqb (H : total_order P cmp eqb) a b c :
  P a -> P b -> P c -> cmp b c = Equal -> cmp a b = cmp a c.
Proof.
  intros Ha Hb Hc E. rewrite (to_antisym _ _ _ H b a), (to_antisym _ _ _ H c a) by auto.
  f_equal. rewrite (to_equal _ _ _ H c b a) by (auto; eapply to_sym_eq; eauto). reflexivity.
Qed.

Lemma pair_order {K V} (PK : K -> Prop) (PV : V -> Prop) ck ek cv ev :
  total_order PK ck ek -> total_order PV cv ev ->
  total_order (fun p => PK (Key p) /\ PV (Value p)) (pair_cmp ck cv) (pair_eq ek ev).
Proof.
  intros HK HV. unfold pair_cmp, pair_eq. constructor.
  - intros a [H1 H2]. rewrite (to_refl _ _ _ HK), (to_refl _ _ _ HV); auto.
  - intros a b [H1 H2] [H3 H4]. rewrite (to_antisym _ _ _ HK (Key a) (Key b)) by auto.
    destruct (ck (Key a) (Key b)); auto. cbn [flip]. apply (to_antisym _ _ _ HV); auto.
  - intros a b c [A1 A2] [B1 B2] [C1 C2].
    destruct (ck (Key a) (Key b)) eqn:E1; try discriminate; intros H1.
    + destruct (ck (Key b) (Key c)) eqn:E2; try discriminate; intros H2.
      * now rewrite (to_trans_lt _ _ _ HK (Key a) (Key b) (Key c)).
      * rewrite <- (to_equal_r _ _ _ HK (Key a) (Key b) (Key c)) by auto. now rewrite E1.
    + destruct (ck (Key b) (Key c)) eqn:E2; try discriminate; intros H2.
      * rewrite <- (to_equal _ _ _ HK (Key a) (Key b) (Key c)) by auto. now rewrite E2.
      * rewrite <- (to_equal _ _ _ HK (Key a) (Key b) (Key c)) by auto. rewrite E2.
        apply (to_trans_lt _ _ _ HV (Value a) (Value b) (Value c)); auto.
  - intros a b c [A1 A2] [B1 B2] [C1 C2].
    destruct (ck (Key a) (Key b)) eqn:E1; try discriminate. intros E2.
    rewrite (to_equal _ _ _ HK (Key a) (Key b) (Key c)) by auto.
    destruct (ck (Key a) (Key c)); auto. eapply (to_equal _ _ _ HV); eauto.
  - intros a b [A1 A2] [B1 B2]. rewrite andb_true_iff, <- (to_eq _ _ _ HK), <- (to_eq _ _ _ HV) by auto.
    destruct (ck (Key a) (Key b)); split; try discriminate; intuition; discriminate.
Qed.
