(** CmpProps.v -- theorems C25, C26, C69 (comparison and pairs).  [total_order],
    [lex_less], [scaled] are in CmpSpec. *)
From Coq Require Import ZArith Lia List Floats.SpecFloat.
From Verif Require Import Base IntModel DecimalModel Int128Model Int128Spec CmpModel CmpSpec CmpProofs TextSpec.
Import ListNotations.
Local Open Scope Z_scope.

(** C25: total orders, with Eq as their equality, for every scalar type but the floats. *)
Theorem C25_scalar_total_orders :
  total_order everything Int_Cmp Int_Eq /\ total_order everything Byte_Cmp Int_Eq /\
  total_order everything Char_Cmp Int_Eq /\ total_order everything Bool_Cmp Bool_Eq /\
  total_order everything String_Cmp String_Eq /\
  total_order ivalid I128_Cmp I128_Eq /\ total_order uvalid U128_Cmp U128_Eq.
Proof.
  exact (conj Int_order (conj Byte_order (conj Char_order (conj Bool_order (conj String_order (conj I128_order U128_order)))))).
Qed.
Print Assumptions C25_scalar_total_orders.
(** ... and they are the expected orders, with Eq being equality of values. *)
Theorem C25_scalar_order_meaning :
  (forall a b, (Int_Cmp a b = Less <-> a < b) /\ (Byte_Cmp a b = Less <-> a < b) /\ (Char_Cmp a b = Less <-> a < b) /\
               (Int_Eq a b = true <-> a = b)) /\
  (forall a b, (Bool_Cmp a b = Less <-> a = false /\ b = true) /\ (Bool_Eq a b = true <-> a = b)) /\
  (forall a b, (String_Cmp a b = Less <-> lex_less a b) /\ (String_Eq a b = true <-> a = b)) /\
  (forall a b, ivalid a -> ivalid b -> (I128_Cmp a b = Less <-> ival a < ival b) /\ (I128_Eq a b = true <-> ival a = ival b)) /\
  (forall a b, uvalid a -> uvalid b -> (U128_Cmp a b = Less <-> uval a < uval b) /\ (U128_Eq a b = true <-> uval a = uval b)).
Proof.
  split; [|split; [|split; [|split]]].
  - intros a b. unfold Int_Cmp, Byte_Cmp, Char_Cmp, Int_Eq. rewrite Z.eqb_eq.
    destruct (Z.ltb_spec a b), (Z.ltb_spec b a), (Z.eqb_spec a b); repeat split; intros; try discriminate; try lia; auto.
  - intros [] []; unfold Bool_Cmp, Bool_Eq; cbn; split; split; intros; try discriminate; auto; intuition; discriminate.
  - intros a b. split; [apply String_Cmp_less|apply String_Eq_spec].
  - intros a b Ha Hb. rewrite Int128Proofs.I128_Cmp_spec, I128_Eq_spec by auto. split.
    + destruct (Z.compare_spec (ival a) (ival b)); split; intros; try discriminate; auto; lia.
    + split; [congruence|now apply Int128Proofs.ival_inj].
  - intros a b Ha Hb. rewrite Int128Proofs.U128_Cmp_spec, U128_Eq_spec by auto. split.
    + destruct (Z.compare_spec (uval a) (uval b)); split; intros; try discriminate; auto; lia.
    + split; [congruence|now apply Int128Proofs.uval_inj].
Qed.
Print Assumptions C25_scalar_order_meaning.
Example C25_nonvacuous :
  String_Cmp [97; 98] [97; 98; 0] = Less /\ String_Cmp [98] [97; 98; 0] = Greater /\
  I128_Cmp (mkI (-1) 5) (mkI 0 1) = Less /\ ivalid (mkI (-1) 5) /\ Bool_Cmp true false = Greater.
Proof. unfold ivalid, IntSpec.in_range; repeat split; vm_compute; congruence. Qed.

(** C26: pairs.  [Pair_Cmp] takes the component comparisons ([Some f], or [None]
    when the component type has none). *)
Theorem C26_pair_lexicographic : forall K V (ck : K -> K -> ordering) (cv : V -> V -> ordering) (p q : Pair K V),
  Pair_Cmp (Some ck) (Some cv) p q =
  Ret (match ck (Key p) (Key q) with Less => Less | Greater => Greater | Equal => cv (Value p) (Value q) end).
Proof. intros. rewrite Pair_Cmp_ret. unfold pair_cmp. now destruct (ck (Key p) (Key q)). Qed.
Print Assumptions C26_pair_lexicographic.
Theorem C26_pair_total_order : forall K V (PK : K -> Prop) (PV : V -> Prop) ck ek cv ev,
  total_order PK ck ek -> total_order PV cv ev ->
  exists (cmp : Pair K V -> Pair K V -> ordering) (eq : Pair K V -> Pair K V -> bool),
    (forall p q, Pair_Cmp (Some ck) (Some cv) p q = Ret (cmp p q)) /\
    (forall p q, Pair_Eq (Some ek) (Some ev) p q = Ret (eq p q)) /\
    (forall p q, eq p q = true <-> ek (Key p) (Key q) = true /\ ev (Value p) (Value q) = true) /\
    total_order (fun p => PK (Key p) /\ PV (Value p)) cmp eq.
Proof.
  intros K V PK PV ck ek cv ev HK HV. exists (pair_cmp ck cv), (pair_eq ek ev).
  split; [intros; apply Pair_Cmp_ret|]. split; [intros; apply Pair_Eq_ret|]. split.
  - intros p q. unfold pair_eq. apply andb_true_iff.
  - now apply pair_order.
Qed.
Print Assumptions C26_pair_total_order.
(** Clone gives an equal pair when the components' Clone does. *)
Theorem C26_pair_clone_equal : forall K V (clk : K -> K) (clv : V -> V) ek ev (p : Pair K V),
  (forall k, ek k (clk k) = true) -> (forall v, ev v (clv v) = true) ->
  exists q, Pair_Clone (Some clk) (Some clv) p = Ret q /\ Pair_Eq (Some ek) (Some ev) p q = Ret true /\
            Key q = clk (Key p) /\ Value q = clv (Value p).
Proof.
  intros K V clk clv ek ev p HK HV. eexists. split; [reflexivity|]. split; [|auto].
  cbn. now rewrite HK, HV.
Qed.
Print Assumptions C26_pair_clone_equal.
(** What happens when a component lacks the trait: Eq and Clone panic; Cmp panics
    if the key has none, or if the value has none and the keys tie. *)
Theorem C26_pair_missing_trait : forall K V (p q : Pair K V),
  (forall ev, Pair_Eq None ev p q = Panic) /\ (forall ek, Pair_Eq (Some ek) None p q = Panic) /\
  (forall cv, Pair_Clone None cv p = Panic) /\ (forall ck, Pair_Clone (Some ck) None p = Panic) /\
  (forall cv, Pair_Cmp None cv p q = Panic) /\
  (forall ck, Pair_Cmp (Some ck) None p q = Panic <-> ck (Key p) (Key q) = Equal).
Proof.
  intros. repeat split; try reflexivity; cbn; destruct (ck (Key p) (Key q)); auto; discriminate.
Qed.
Print Assumptions C26_pair_missing_trait.
Example C26_nonvacuous :
  Pair_Cmp (Some Int_Cmp) (Some String_Cmp) (mkPair 1 [97]) (mkPair 1 [98]) = Ret Less /\
  Pair_Cmp (Some Int_Cmp) (Some String_Cmp) (mkPair 2 [97]) (mkPair 1 [98]) = Ret Greater /\
  Pair_Eq (Some Int_Eq) (Some String_Eq) (mkPair 2 [97]) (mkPair 2 [97]) = Ret true /\
  Pair_Eq (Some Int_Eq) (Some String_Eq) (mkPair 2 [97]) (mkPair 2 [98]) = Ret false.
Proof. repeat split; vm_compute; reflexivity. Qed.

(** The text of a pair: Pair[key, value], each part by its own ToString, or by fmt's %v
    if it has none. *)
Theorem C26_pair_text : forall K V (sk : K -> list Z) (sv : V -> list Z) fk fv (p : Pair K V),
  Pair_ToString (Some sk) (Some sv) fk fv p = zs "Pair[" ++ sk (Key p) ++ zs ", " ++ sv (Value p) ++ zs "]" /\
  Pair_ToString None (Some sv) fk fv p = zs "Pair[" ++ fk (Key p) ++ zs ", " ++ sv (Value p) ++ zs "]" /\
  Pair_ToString (Some sk) None fk fv p = zs "Pair[" ++ sk (Key p) ++ zs ", " ++ fv (Value p) ++ zs "]".
Proof. intros. repeat split. Qed.
Print Assumptions C26_pair_text.

(** C69: floats.  False with NaN: NaN compares Equal to everything, although Eq
    says false, and that makes Cmp non-transitive. *)
Definition one : spec_float := S754_finite false 4503599627370496 (-52).
Definition two : spec_float := S754_finite false 4503599627370496 (-51).
Theorem C69_float_nan_refuted :
  Float_Cmp S754_nan S754_nan = Equal /\ Float_Eq S754_nan S754_nan = false /\
  Float_Cmp one S754_nan = Equal /\ Float_Cmp S754_nan two = Equal /\ Float_Cmp one two = Less /\
  ~ total_order everything Float_Cmp Float_Eq.
Proof.
  repeat (split; [vm_compute; reflexivity|]). intros H.
  pose proof (to_eq _ _ _ H S754_nan S754_nan I I) as [E _]. discriminate (E eq_refl).
Qed.
Print Assumptions C69_float_nan_refuted.
Theorem C69_float_nan_characterised : forall x,
  Float_Cmp S754_nan x = Equal /\ Float_Cmp x S754_nan = Equal /\
  Float_Eq S754_nan x = false /\ Float_Eq x S754_nan = false.
Proof. intros [[]|[]| |[] m e]; repeat split; reflexivity. Qed.
Print Assumptions C69_float_nan_characterised.
(** On all other binary32 and binary64 values Cmp is the numeric total order and
    Eq its equality (so 0 and -0 are equal).  Missing from the full statement:
    NaN, where it is false. *)
Theorem C69_float_total_order_partial : forall prec emax,
  (prec = 24 /\ emax = 128) \/ (prec = 53 /\ emax = 1024) ->
  let number x := valid_binary prec emax x = true /\ is_nan x = false in
  total_order number Float_Cmp Float_Eq /\
  forall a b, number a -> number b ->
    (Float_Cmp a b = Less <-> scaled a < scaled b) /\
    (Float_Cmp a b = Equal <-> scaled a = scaled b) /\ (Float_Eq a b = true <-> scaled a = scaled b).
Proof.
  intros prec emax F number. pose proof (Float_order prec emax F) as HO. split; [exact HO|].
  intros a b Ha Hb. rewrite <- (to_eq _ _ _ HO a b) by auto. rewrite (Float_Cmp_scaled prec emax) by auto.
  destruct (Z.compare_spec (scaled a) (scaled b)); repeat split; intros; try discriminate; auto; lia.
Qed.
Print Assumptions C69_float_total_order_partial.
Example C69_nonvacuous :
  valid_binary 53 1024 one = true /\ valid_binary 53 1024 (S754_infinity true) = true /\
  Float_Cmp one two = Less /\ Float_Cmp (S754_infinity true) (SFopp two) = Less /\
  Float_Cmp (S754_zero true) (S754_zero false) = Equal /\
  Float_Cmp (S754_finite false 1 (-1074)) one = Less /\ valid_binary 53 1024 (S754_finite false 1 (-1074)) = true.
Proof. repeat split; vm_compute; reflexivity. Qed.
