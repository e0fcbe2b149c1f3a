(** ShowProofs.v -- Display gives the text of the structure; texts can be told apart. *)
From Coq Require Import ZArith Lia Bool List Floats.SpecFloat.
From Verif Require Import Base IntModel IntSpec DecimalModel DecimalSpec DecimalProofs Int128Model Int128Spec Int128Proofs
  FloatSpec FloatModel FloatTextModel FloatTextSpec FloatParseProofs StringModel HashModel TextSpec ShowModel ShowSpec.
Import ListNotations.
Local Open Scope Z_scope.

(** Induction over values, with the elements of containers. *)
Section Induction.
  Variable P : value -> Prop.
  Hypothesis Hprim : forall p, P (VPrim p).
  Hypothesis Hnone : P (VOption None).
  Hypothesis Hsome : forall x, P x -> P (VOption (Some x)).
  Hypothesis Hok : forall x, P x -> P (VOk x).
  Hypothesis Herr : forall t, P (VErr t).
  Hypothesis Hpair : forall x y, P (VPair x y).
  Hypothesis Hseq : forall k l, Forall P l -> P (VSeq k l).
  Hypothesis Hmap : forall k l, Forall (fun e => P (fst e) /\ P (snd e)) l -> P (VMap k l).
  Hypothesis Hgo : forall t, P (VGo t).
  Fixpoint value_induction (v : value) : P v :=
    match v with
    | VPrim p => Hprim p
    | VOption None => Hnone
    | VOption (Some x) => Hsome x (value_induction x)
    | VOk x => Hok x (value_induction x)
    | VErr t => Herr t
    | VPair x y => Hpair x y
    | VSeq k l => Hseq k l ((fix go (l : list value) : Forall P l :=
        match l with [] => Forall_nil _ | x :: r => Forall_cons _ (value_induction x) (go r) end) l)
    | VMap k l => Hmap k l ((fix go (l : list (value * value)) : Forall (fun e => P (fst e) /\ P (snd e)) l :=
        match l with [] => Forall_nil _ | (x, y) :: r => Forall_cons (x, y) (conj (value_induction x) (value_induction y)) (go r) end) l)
    | VGo t => Hgo t
    end.
End Induction.

(** *** Equations of Display *)
Section Elements.
  Variable k : seq_kind.
  Fixpoint elements (l : list value) : out (list (list Z)) :=
    match l with
    | [] => Ret []
    | x :: r => t <- element k (Display x) ;; ts <- elements r ;; Ret (t :: ts)
    end.
End Elements.
Fixpoint entries (l : list (value * value)) : out (list (list Z)) :=
  match l with
  | [] => Ret []
  | (x, y) :: r => t <- Format [123; 125; 58; 32; 123; 125] [param (Display x); param (Display y)] ;; ts <- entries r ;; Ret (t :: ts)
  end.
Lemma Display_seq k l : (k = BTreeSet -> l <> []) -> Display (VSeq k l) = (ts <- elements k l ;; Ret (seq_head k ++ join ts ++ seq_end k)).
Proof. intros H. destruct k, l; try reflexivity. exfalso. apply H; reflexivity. Qed.
Lemma Display_map k l : Display (VMap k l) = (ts <- entries l ;; Ret (map_head k ++ join ts ++ [125])).
Proof. reflexivity. Qed.
Lemma element_same k m : m <> Diverge -> element k m = m.
Proof. intros H. destruct k; try reflexivity; destruct m; try reflexivity; contradiction. Qed.
Lemma Format_entry a b : a <> Diverge -> b <> Diverge ->
  Format [123; 125; 58; 32; 123; 125] [param a; param b] = (x <- a ;; y <- b ;; Ret (x ++ [58; 32] ++ y)).
Proof.
  intros Ha Hb. destruct a as [x| |]; [|reflexivity|contradiction].
  destruct b as [y| |]; [|reflexivity|contradiction]. cbn. rewrite <- !app_assoc. reflexivity.
Qed.
Lemma separated_join ts s : separated ts s <-> s = join ts.
Proof.
  split.
  - induction 1 as [|t|t u ts s H IH]; [reflexivity|reflexivity|]. rewrite IH. reflexivity.
  - intros ->. induction ts as [|t [|u ts] IH]; [constructor|constructor|]. apply (sep_more t u ts (join (u :: ts)) IH).
Qed.
Lemma Display_total v : Display v <> Diverge.
Proof.
  induction v as [p| |x IH|x IH|t|x y|k l IH|k l IH|t] using value_induction; try discriminate.
  - cbn [Display]. destruct (Display x); try discriminate. contradiction.
  - cbn [Display]. destruct (Display x); try discriminate. contradiction.
  - assert (E : elements k l <> Diverge).
    { induction IH as [|x l Hx _ IHl]; [discriminate|]. cbn [elements]. rewrite element_same by exact Hx.
      destruct (Display x); try discriminate; [|contradiction]. cbn. destruct (elements k l); try discriminate. contradiction. }
    destruct k, l; try discriminate; rewrite Display_seq by discriminate; destruct (elements _ _); try discriminate; contradiction.
  - rewrite Display_map. assert (E : entries l <> Diverge).
    { induction IH as [|[x y] l [Hx Hy] _ IHl]; [discriminate|]. cbn [entries fst snd] in *. rewrite Format_entry by assumption.
      destruct (Display x); try discriminate; [|contradiction]. cbn. destruct (Display y); try discriminate; [|contradiction]. cbn.
      destruct (entries l); try discriminate. contradiction. }
    destruct (entries l); try discriminate. contradiction.
Qed.
Lemma elements_shown k l : Forall (fun x => forall t, Display x = Ret t <-> shown x t) l ->
  forall ts, elements k l = Ret ts <-> Forall2 shown l ts.
Proof.
  induction 1 as [|x l Hx _ IH]; intros ts.
  - cbn [elements]. split; [intros E; injection E as <-; constructor|intros E; inversion E; reflexivity].
  - cbn [elements]. rewrite element_same by apply Display_total. split.
    + intros E. destruct (Display x) as [t| |]; try discriminate. cbn in E. destruct (elements k l) as [us| |]; try discriminate.
      cbn in E. injection E as <-. constructor; [apply Hx; reflexivity|apply IH; reflexivity].
    + intros E. inversion E as [|? t ? us S1 S2]; subst. apply Hx in S1. rewrite S1. cbn. apply IH in S2. rewrite S2. reflexivity.
Qed.
Lemma entries_shown l : Forall (fun e => (forall t, Display (fst e) = Ret t <-> shown (fst e) t) /\ (forall t, Display (snd e) = Ret t <-> shown (snd e) t)) l ->
  forall ts, entries l = Ret ts <-> exists ks vs, Forall2 shown (map fst l) ks /\ Forall2 shown (map snd l) vs /\
    Forall2 (fun t kv => t = fst kv ++ zs ": " ++ snd kv) ts (combine ks vs).
Proof.
  induction 1 as [|[x y] l [Hx Hy] _ IH]; intros ts.
  - cbn [entries]. split; [intros E; injection E as <-; exists [], []; repeat constructor|].
    intros (ks & vs & A & B & C). inversion A; subst. inversion C; reflexivity.
  - cbn [entries map fst snd] in *. rewrite Format_entry by apply Display_total. split.
    + intros E. destruct (Display x) as [t| |]; try discriminate. cbn in E. destruct (Display y) as [u| |]; try discriminate. cbn in E.
      destruct (entries l) as [us| |]; try discriminate. cbn in E. injection E as <-. destruct (proj1 (IH us) eq_refl) as (ks & vs & A & B & C).
      exists (t :: ks), (u :: vs). split; [constructor; [apply Hx; reflexivity|exact A]|]. split; [constructor; [apply Hy; reflexivity|exact B]|].
      constructor; [reflexivity|exact C].
    + intros (ks & vs & A & B & C). inversion A as [|? t ? ks' A1 A2]; subst. inversion B as [|? u ? vs' B1 B2]; subst. inversion C as [|w ? us ? C1 C2]; subst.
      apply Hx in A1. apply Hy in B1. rewrite A1, B1. cbn. rewrite (proj2 (IH us) (ex_intro _ ks' (ex_intro _ vs' (conj A2 (conj B2 C2))))). reflexivity.
Qed.
Theorem Display_shown v : forall t, Display v = Ret t <-> shown v t.
Proof.
  induction v as [p| |x IH|x IH|e|x y|k l IH|k l IH|e] using value_induction; intros t.
  - cbn [Display]. split; [intros E; injection E as <-; destruct p; constructor|intros E; inversion E; destruct p; reflexivity].
  - cbn [Display]. split; [intros E; injection E as <-; constructor|intros E; inversion E; reflexivity].
  - cbn [Display]. split.
    + intros E. destruct (Display x) as [u| |]; try discriminate. cbn in E. injection E as <-. apply (shown_some x u). apply IH. reflexivity.
    + intros E. inversion E as [| |? u S| | | |]; subst. apply IH in S. rewrite S. reflexivity.
  - cbn [Display]. split.
    + intros E. destruct (Display x) as [u| |]; try discriminate. cbn in E. injection E as <-. apply (shown_ok x u). apply IH. reflexivity.
    + intros E. inversion E as [| | |? u S| | |]; subst. apply IH in S. rewrite S. reflexivity.
  - cbn [Display]. split; [intros E; injection E as <-; constructor|intros E; inversion E; reflexivity].
  - cbn [Display]. split; [discriminate|intros E; inversion E].
  - assert (ENDS : seq_head k = opening k /\ seq_end k = closing k) by (destruct k; split; reflexivity). destruct ENDS as [E1 E2].
    split.
    + intros E. assert (NE : k = BTreeSet -> l <> []) by (intros -> ->; discriminate E). rewrite Display_seq, E1, E2 in E by exact NE.
      destruct (elements k l) as [ts| |] eqn:EL; try discriminate. cbn in E. injection E as <-.
      apply (shown_seq k l ts); [exact NE|apply (elements_shown k l IH), EL|apply separated_join; reflexivity].
    + intros E. inversion E as [| | | | |? ? ts s NE F SP|]; subst. rewrite Display_seq, E1, E2 by exact NE.
      apply (elements_shown k l IH) in F. rewrite F. apply separated_join in SP. subst. reflexivity.
  - assert (E1 : map_head k = map_opening k) by (destruct k; reflexivity). rewrite Display_map, E1. split.
    + intros E. destruct (entries l) as [ts| |] eqn:EL; try discriminate. cbn in E. injection E as <-.
      apply (entries_shown l IH) in EL. destruct EL as (ks & vs & A & B & C). apply (shown_map k l ks vs ts); [exact A|exact B|exact C|apply separated_join; reflexivity].
    + intros E. inversion E as [| | | | | |? ? ks vs ts s A B C SP]; subst.
      rewrite (proj2 (entries_shown l IH ts)) by (exists ks, vs; auto). apply separated_join in SP. subst. reflexivity.
  - cbn [Display]. split; [discriminate|intros E; inversion E].
Qed.
Theorem Display_panics v : Display v = Panic <-> ~ displayable v.
Proof.
  assert (H : displayable v <-> exists t, Display v = Ret t).
  { induction v as [p| |x IH|x IH|e|x y|k l IH|k l IH|e] using value_induction; try (cbn; split; [eexists; reflexivity|auto]); try (cbn; split; [contradiction|intros [t E]; discriminate]).
    - cbn. rewrite IH. split; intros [t E]; [rewrite E; eexists; reflexivity|]. destruct (Display x) as [u| |]; try discriminate. exists u. reflexivity.
    - cbn. rewrite IH. split; intros [t E]; [rewrite E; eexists; reflexivity|]. destruct (Display x) as [u| |]; try discriminate. exists u. reflexivity.
    - assert (EL : (fix all (l : list value) : Prop := match l with [] => True | x :: r => displayable x /\ all r end) l <-> exists ts, elements k l = Ret ts).
      { induction IH as [|x l Hx _ IHl]; [split; [exists []; reflexivity|auto]|]. rewrite Hx, IHl. cbn [elements]. rewrite element_same by apply Display_total. split.
        - intros [[t E] [ts F]]. rewrite E, F. eexists. reflexivity.
        - intros [ts E]. destruct (Display x) as [t| |]; try discriminate. cbn in E. destruct (elements k l) as [us| |]; try discriminate. split; [exists t|exists us]; reflexivity. }
      cbn [displayable]. rewrite EL. split.
      + intros [NE [ts E]]. rewrite Display_seq, E by exact NE. eexists. reflexivity.
      + intros [t E]. assert (NE : k = BTreeSet -> l <> []) by (intros -> ->; discriminate E). split; [exact NE|]. rewrite Display_seq in E by exact NE.
        destruct (elements k l) as [ts| |]; try discriminate. exists ts. reflexivity.
    - assert (EL : (fix all (l : list (value * value)) : Prop := match l with [] => True | (x, y) :: r => displayable x /\ displayable y /\ all r end) l <-> exists ts, entries l = Ret ts).
      { induction IH as [|[x y] l [Hx Hy] _ IHl]; [split; [exists []; reflexivity|auto]|]. cbn [fst snd] in *. rewrite Hx, Hy, IHl. cbn [entries]. rewrite Format_entry by apply Display_total. split.
        - intros ([t E] & [u F] & [ts G]). rewrite E, F, G. eexists. reflexivity.
        - intros [ts E]. destruct (Display x) as [t| |]; try discriminate. cbn in E. destruct (Display y) as [u| |]; try discriminate. cbn in E.
          destruct (entries l) as [us| |]; try discriminate. split; [exists t|split; [exists u|exists us]]; reflexivity. }
      cbn [displayable]. rewrite EL, Display_map. split; intros [t E]; [rewrite E; eexists; reflexivity|]. destruct (entries l) as [ts| |]; try discriminate. exists ts. reflexivity. }
  rewrite H. pose proof (Display_total v) as T. destruct (Display v) as [t| |]; [|split; [intros _ [t E]; discriminate|reflexivity]|contradiction].
  split; [discriminate|intros N; exfalso; apply N; exists t; reflexivity].
Qed.

(** *** Telling texts apart *)
(** Characters that end the text of an element: , ] ) } : *)
Definition stops (c : Z) : Prop := c = 44 \/ c = 93 \/ c = 41 \/ c = 125 \/ c = 58.
Definition ends (r : list Z) : Prop := match r with [] => True | c :: _ => stops c end.
Lemma cut_at_stop a : forall b r r', Forall (fun c => ~ stops c) a -> Forall (fun c => ~ stops c) b -> ends r -> ends r' ->
  a ++ r = b ++ r' -> a = b /\ r = r'.
Proof.
  induction a as [|c a IH]; intros [|d b] r r' A B E E' H; cbn [app] in H.
  - auto.
  - subst r. inversion B; subst. cbn in E. contradiction.
  - subst r'. inversion A; subst. cbn in E'. contradiction.
  - injection H as -> H. inversion A; inversion B; subst. destruct (IH _ _ _ H3 H7 E E' H) as [-> ->]. auto.
Qed.
Lemma canonical_chars s z : canonical s z -> Forall (fun c => ~ stops c) s /\ s <> [].
Proof.
  assert (D : forall l, Forall digit_char l -> Forall (fun c => ~ stops c) l).
  { intros l H. eapply Forall_impl; [|exact H]. intros c Hc. unfold digit_char in Hc. unfold stops. lia. }
  intros [[_ (A & B & _)]|[_ (s' & -> & (A & B & _))]]; [split; [apply D, B|exact A]|]. split; [|discriminate]. constructor; [unfold stops; lia|apply D, B].
Qed.
Lemma text_no_stop prec emax k x s : number_text prec emax k x s -> Forall (fun c => ~ stops c) s /\ s <> [].
Proof.
  intros H. apply text_chars in H as [H NE]. split; [|exact NE]. eapply Forall_impl; [|exact H]. intros c Hc.
  unfold text_char, digit_char in Hc. unfold stops. lia.
Qed.
Lemma ToString_injective t x y : in_range t x -> in_range t y -> ToString t x = ToString t y -> x = y.
Proof.
  assert (C : forall x, in_range t x -> canonical (ToString t x) x \/ (t = USize /\ highest I64 < x /\ canonical (ToString t x) (x - 2 ^ 64))).
  { intros z H. destruct (Z.le_gt_cases z (highest I64)) as [L|L]; [left; apply ToString_canonical; auto|].
    assert (D : t = USize \/ t <> USize) by (destruct t; auto; right; discriminate). destruct D as [->|D]; [|left; apply ToString_canonical; [exact H|contradiction]].
    right. split; [reflexivity|]. split; [exact L|]. apply ToString_USize_big. split; [exact L|apply H]. }
  intros Hx Hy E. destruct (C x Hx) as [Cx|(-> & Lx & Cx)], (C y Hy) as [Cy|(EU & Ly & Cy)]; rewrite E in Cx;
    pose proof (canonical_functional _ _ _ Cx Cy) as Q; try lia; try (subst t); unfold in_range in *; cbn [lowest highest] in *; lia.
Qed.
Lemma ToString_chars t x : in_range t x -> Forall (fun c => ~ stops c) (ToString t x) /\ ToString t x <> [].
Proof.
  intros H. destruct t; try (eapply canonical_chars, ToString_canonical; [exact H|discriminate]).
  destruct (Z.le_gt_cases x (highest I64)); [eapply canonical_chars, ToString_canonical; auto|eapply canonical_chars, ToString_USize_big; split; [assumption|apply H]].
Qed.
Lemma F32_text x : is_F32 x -> number_text 24 128 9 x (F32_ToString x).
Proof. intros V. unfold F32_ToString. rewrite narrow_widen by exact V. apply text_ok; auto; lia. Qed.
Lemma F64_text x : is_F64 x -> number_text 53 1024 17 x (F64_ToString x).
Proof. intros V. apply text_ok; auto; lia. Qed.
Definition no_stop (s : list Z) : Prop := Forall (fun c => ~ stops c) s /\ s <> [].
Ltac literal := split; [repeat (apply Forall_cons; [unfold stops; lia|]); apply Forall_nil|discriminate].
Lemma prim_no_stop p t : of_type (VPrim p) t -> no_stop (prim_ToString p).
Proof.
  intros H. inversion H; subst; cbn [prim_ToString].
  - apply ToString_chars; assumption.
  - rewrite U128_ToString_Itoa by assumption. eapply canonical_chars, Itoa_canonical.
  - eapply text_no_stop, F32_text; assumption.
  - eapply text_no_stop, F64_text; assumption.
  - eapply canonical_chars, Itoa_canonical.
  - eapply canonical_chars, Itoa_canonical.
  - destruct b; literal.
Qed.
Lemma Itoa_injective x y : Itoa x = Itoa y -> x = y.
Proof. intros E. pose proof (Itoa_canonical x) as A. rewrite E in A. exact (canonical_functional _ _ _ A (Itoa_canonical y)). Qed.
Lemma prim_injective p q t : of_type (VPrim p) t -> of_type (VPrim q) t -> prim_ToString p = prim_ToString q -> p = q.
Proof.
  intros H H' E. inversion H; subst; inversion H'; subst; cbn [prim_ToString] in E.
  - f_equal. eapply ToString_injective; eassumption.
  - f_equal. rewrite !U128_ToString_Itoa in E by assumption. apply Itoa_injective in E. apply uval_inj; assumption.
  - f_equal. match goal with A : is_F32 x, B : is_F32 x0 |- _ => refine (text_injective 24 128 9 ltac:(lia) ltac:(lia) x x0 (F32_ToString x) A B (F32_text x A) _); rewrite E; exact (F32_text x0 B) end.
  - f_equal. match goal with A : is_F64 x, B : is_F64 x0 |- _ => refine (text_injective 53 1024 17 ltac:(lia) ltac:(lia) x x0 (F64_ToString x) A B (F64_text x A) _); rewrite E; exact (F64_text x0 B) end.
  - f_equal. apply Itoa_injective, E.
  - f_equal. apply Itoa_injective, E.
  - f_equal. destruct b, b0; try reflexivity; discriminate.
Qed.
(** Texts do not begin with a stopping character. *)
Lemma shown_head v t s : of_type v t -> shown v s -> exists c r, s = c :: r /\ ~ stops c.
Proof.
  intros H S. inversion S; subst; try (inversion H; fail).
  - destruct (prim_no_stop _ _ H) as [F NE]. destruct (prim_ToString p) as [|c r]; [contradiction|]. inversion F; subst. exists c, r. auto.
  - eexists; eexists; split; [reflexivity|unfold stops; cbn; lia].
  - eexists; eexists; split; [reflexivity|unfold stops; cbn; lia].
  - destruct k; eexists; eexists; (split; [reflexivity|unfold stops; cbn; lia]).
  - destruct k; eexists; eexists; (split; [reflexivity|unfold stops; cbn; lia]).
Qed.

Lemma app_prefix {A} (p a b : list A) : p ++ a = p ++ b -> a = b. Proof. apply app_inv_head. Qed.
Lemma stop_comma : zs ", " = [44; 32]. Proof. reflexivity. Qed.
(** A list of element texts is followed by the closing bracket. *)
Lemma items_unambiguous (P : list Z -> list Z -> Prop) :
  (* what is known about one element's texts *)
  (forall a b r r', P a b -> ends r -> ends r' -> a ++ r = b ++ r' -> a = b /\ r = r') ->
  forall ts us s s' c r r', (forall a b, In a ts -> In b us -> P a b) ->
    (forall a, In a ts \/ In a us -> exists x y, a = x :: y /\ ~ stops x) -> stops c -> c <> 44 ->
    separated ts s -> separated us s' -> s ++ c :: r = s' ++ c :: r' -> ts = us /\ r = r'.
Proof.
  intros HP ts us s s' c r r' HI HH SC NC S. revert us s' HI HH.
  induction S as [|a|a u ts s S IH]; intros us s' HI HH S' E.
  - inversion S' as [|b|b v vs s2 S2]; subst; cbn [app] in E.
    + injection E as ->. auto.
    + destruct (HH s' (or_intror (or_introl eq_refl))) as (x & y & -> & N). injection E as -> _. contradiction.
    + destruct (HH b (or_intror (or_introl eq_refl))) as (x & y & -> & N). injection E as -> _. contradiction.
  - inversion S' as [|b|b v vs s2 S2]; subst.
    + destruct (HH a (or_introl (or_introl eq_refl))) as (x & y & -> & N). injection E as <- _. contradiction.
    + destruct (HP a s' (c :: r) (c :: r') (HI _ _ (or_introl eq_refl) (or_introl eq_refl)) SC SC E) as [-> Q]. injection Q as ->. auto.
    + rewrite <- !app_assoc in E. rewrite stop_comma in E. cbn [app] in E.
      destruct (HP a b (c :: r) (44 :: 32 :: s2 ++ c :: r') (HI _ _ (or_introl eq_refl) (or_introl eq_refl)) SC ltac:(left; reflexivity) E) as [-> Q].
      injection Q as -> _. contradiction.
  - rewrite <- !app_assoc in E. rewrite stop_comma in E. cbn [app] in E. inversion S' as [|b|b v vs s2 S2]; subst.
    + destruct (HH a (or_introl (or_introl eq_refl))) as (x & y & -> & N). injection E as <- _. contradiction.
    + destruct (HP a s' (44 :: 32 :: s ++ c :: r) (c :: r') (HI _ _ (or_introl eq_refl) (or_introl eq_refl)) ltac:(left; reflexivity) SC E) as [-> Q].
      injection Q as <- _. contradiction.
    + rewrite <- !app_assoc in E. rewrite stop_comma in E. cbn [app] in E.
      destruct (HP a b (44 :: 32 :: s ++ c :: r) (44 :: 32 :: s2 ++ c :: r') (HI _ _ (or_introl eq_refl) (or_introl eq_refl)) ltac:(left; reflexivity) ltac:(left; reflexivity) E) as [-> Q].
      injection Q as Q. destruct (IH (v :: vs) s2) as [-> ->]; auto.
      * intros a' b' A B. apply HI; right; assumption.
      * intros a' [A|A]; apply HH; [left|right]; right; assumption.
Qed.

Lemma forall2_in_r {A B} (R : A -> B -> Prop) l m b : Forall2 R l m -> In b m -> exists a, In a l /\ R a b.
Proof. induction 1 as [|x y l m H _ IH]; intros I; [destruct I|]. destruct I as [->|I]; [exists x; split; [left; reflexivity|exact H]|]. destruct (IH I) as (a & A1 & A2). exists a. split; [right; exact A1|exact A2]. Qed.
Lemma forall2_inj {A B} (R : A -> B -> Prop) (Q : A -> Prop) : (forall x y b, Q x -> Q y -> R x b -> R y b -> x = y) ->
  forall l l' m, Forall Q l -> Forall Q l' -> Forall2 R l m -> Forall2 R l' m -> l = l'.
Proof.
  intros H l l' m QL QL' F. revert l' QL'. induction F as [|x b l m Rx _ IH]; intros l' QL' F'; inversion F' as [|y ? l2 ? Ry F2]; subst; [reflexivity|].
  inversion QL; inversion QL'; subst. f_equal; [eapply H; eassumption|apply IH; assumption].
Qed.
Definition shows_as (t : ty) (a : list Z) : Prop := exists x, of_type x t /\ shown x a.
Definition unambiguous (t : ty) : Prop := forall v w a b r r', of_type v t -> of_type w t -> shown v a -> shown w b -> ends r -> ends r' ->
  a ++ r = b ++ r' -> v = w /\ a = b /\ r = r'.
Lemma unambiguous_all t : unambiguous t.
Proof.
  induction t as [i| | | | | | |t IH|k t IH|k t1 IH1 t2 IH2]; intros v w a b r r' Tv Tw Sv Sw Er Er' E;
    try (inversion Tv; subst; inversion Tw; subst; inversion Sv; subst; inversion Sw; subst;
         match goal with Pv : of_type (VPrim ?p) _, Pw : of_type (VPrim ?q) _ |- VPrim ?p = VPrim ?q /\ _ =>
           destruct (cut_at_stop _ _ _ _ (proj1 (prim_no_stop _ _ Pv)) (proj1 (prim_no_stop _ _ Pw)) Er Er' E) as [E1 E2];
           assert (EQ : p = q) by (eapply prim_injective; eassumption); rewrite EQ; auto end; fail).
  - inversion Tv; subst; inversion Sv; subst; inversion Tw; subst; inversion Sw; subst; cbn in E; try discriminate.
    + injection E as ->. auto.
    + rewrite <- !app_assoc in E. cbn [app] in E. injection E as E.
      match goal with A : of_type x t, B : of_type x0 t, C : shown x _, D : shown x0 _ |- _ => destruct (IH _ _ _ _ (41 :: r) (41 :: r') A B C D ltac:(right; right; left; reflexivity) ltac:(right; right; left; reflexivity) E) as (-> & -> & Q) end.
      injection Q as ->. auto.
  - inversion Tv as [| | | | | | | | |? l ? Fl|]; subst. inversion Tw as [| | | | | | | | |? l' ? Fl'|]; subst.
    inversion Sv as [| | | | |? ? ts s _ F S|]; subst. inversion Sw as [| | | | |? ? ts' s' _ F' S'|]; subst.
    assert (HC : exists c, closing k = [c] /\ stops c /\ c <> 44) by (destruct k; eexists; (split; [reflexivity|split; [unfold stops; cbn; lia|discriminate]])).
    destruct HC as (c & HC & SC & NC). rewrite HC in *. rewrite <- !app_assoc in E. apply app_prefix in E. cbn [app] in E.
    assert (IN : forall ts l a, Forall2 shown l ts -> Forall (fun x => of_type x t) l -> In a ts -> shows_as t a).
    { intros us m u F2 Fm I. destruct (forall2_in_r _ _ _ _ F2 I) as (x & X1 & X2). exists x. split; [|exact X2]. rewrite Forall_forall in Fm. apply Fm, X1. }
    destruct (items_unambiguous (fun u u' => shows_as t u /\ shows_as t u')) with (ts := ts) (us := ts') (s := s) (s' := s') (c := c) (r := r) (r' := r') as [-> ->]; auto.
    { intros u u' q q' [(x & X1 & X2) (y & Y1 & Y2)] Eq Eq' EE. destruct (IH _ _ _ _ _ _ X1 Y1 X2 Y2 Eq Eq' EE) as (_ & -> & ->). auto. }
    { intros u u' I I'. split; [exact (IN _ _ _ F Fl I)|exact (IN _ _ _ F' Fl' I')]. }
    { intros u [I|I]; [destruct (IN _ _ _ F Fl I) as (x & X1 & X2)|destruct (IN _ _ _ F' Fl' I) as (x & X1 & X2)]; exact (shown_head _ _ _ X1 X2). }
    assert (EL : l = l').
    { apply (forall2_inj shown (fun x => of_type x t)) with (m := ts'); auto. intros x y u X Y Sx Sy.
      destruct (IH x y u u [] [] X Y Sx Sy I I eq_refl) as [-> _]. reflexivity. }
    subst l'. apply separated_join in S, S'. subst. auto.
  - inversion Tv as [| | | | | | | | | |? l ? ? Fa Fb]; subst. inversion Tw as [| | | | | | | | | |? l' ? ? Fa' Fb']; subst.
    inversion Sv as [| | | | | |? ? ks vs ts s A B C S]; subst. inversion Sw as [| | | | | |? ? ks' vs' ts' s' A' B' C' S']; subst.
    rewrite <- !app_assoc in E. apply app_prefix in E. change (zs "}") with [125] in E. cbn [app] in E.
    set (P := fun u => exists x y p q, of_type x t1 /\ of_type y t2 /\ shown x p /\ shown y q /\ u = p ++ zs ": " ++ q).
    assert (IN : forall l ks vs ts u, Forall (fun e => of_type (fst e) t1) l -> Forall (fun e => of_type (snd e) t2) l -> Forall2 shown (map fst l) ks -> Forall2 shown (map snd l) vs ->
              Forall2 (fun t kv => t = fst kv ++ zs ": " ++ snd kv) ts (combine ks vs) -> In u ts -> P u).
    { clear. induction l as [|[x y] l IH]; intros ks vs ts u Fa Fb A B C I; cbn [map fst snd] in *.
      - inversion A; subst. inversion C; subst. destruct I.
      - inversion A; subst. inversion B; subst. inversion C; subst. inversion Fa; subst. inversion Fb; subst. destruct I as [<-|I]; [|eapply IH; eassumption].
        exists x, y. do 2 eexists. cbn [fst snd] in *. repeat (split; [eassumption|]). reflexivity. }
    destruct (items_unambiguous (fun u u' => P u /\ P u')) with (ts := ts) (us := ts') (s := s) (s' := s') (c := 125) (r := r) (r' := r') as [-> ->]; auto.
    { intros u u' q q' [(x & y & p1 & p2 & X1 & X2 & X3 & X4 & ->) (x' & y' & p1' & p2' & Y1 & Y2 & Y3 & Y4 & ->)] Eq Eq' EE.
      rewrite <- !app_assoc in EE. change (zs ": ") with [58; 32] in *. cbn [app] in EE.
      destruct (IH1 _ _ _ _ (58 :: 32 :: p2 ++ q) (58 :: 32 :: p2' ++ q') X1 Y1 X3 Y3 ltac:(right; right; right; right; reflexivity) ltac:(right; right; right; right; reflexivity) EE) as (_ & -> & Q).
      injection Q as Q. destruct (IH2 _ _ _ _ _ _ X2 Y2 X4 Y4 Eq Eq' Q) as (_ & -> & ->). auto. }
    { intros u u' I I'. split; [exact (IN _ _ _ _ _ Fa Fb A B C I)|exact (IN _ _ _ _ _ Fa' Fb' A' B' C' I')]. }
    { intros u [I|I]; [pose proof (IN _ _ _ _ _ Fa Fb A B C I) as Q|pose proof (IN _ _ _ _ _ Fa' Fb' A' B' C' I) as Q];
        destruct Q as (x & y & p & q & X1 & _ & X3 & _ & ->); destruct (shown_head _ _ _ X1 X3) as (c0 & q0 & -> & N); exists c0; eexists; (split; [reflexivity|exact N]). }
    { unfold stops. lia. }
    { lia. }
    assert (EL : l = l').
    { clear - Fa Fb Fa' Fb' A B C A' B' C' IH1 IH2. revert l' ks vs ks' vs' ts' Fa Fb Fa' Fb' A B C A' B' C'.
      induction l as [|[x y] l IHl]; intros l' ks vs ks' vs' ts' Fa Fb Fa' Fb' A B C A' B' C'; destruct l' as [|[x' y'] l']; cbn [map fst snd] in *; try reflexivity.
      - inversion A; subst. inversion C; subst. inversion A'; subst. inversion B'; subst. inversion C'.
      - inversion A; subst. inversion B; subst. inversion C; subst. inversion A'; subst. inversion C'.
      - inversion A as [|? p ? ps A1 A2]; subst. inversion B as [|? q ? qs B1 B2]; subst. inversion C as [|u ? us ? C1 C2]; subst.
        inversion A' as [|? p' ? ps' A1' A2']; subst. inversion B' as [|? q' ? qs' B1' B2']; subst. inversion C' as [|u' ? us' ? C1' C2']; subst.
        inversion Fa; inversion Fb; inversion Fa'; inversion Fb'; subst. cbn [fst snd] in *. change (zs ": ") with [58; 32] in *. cbn [app] in C1'.
        match goal with X : of_type x t1, X' : of_type x' t1, Y : of_type y t2, Y' : of_type y' t2 |- _ =>
          destruct (IH1 _ _ _ _ (58 :: 32 :: q) (58 :: 32 :: q') X X' A1 A1' ltac:(right; right; right; right; reflexivity) ltac:(right; right; right; right; reflexivity) C1') as (-> & -> & Q);
          injection Q as ->; destruct (IH2 y y' q' q' [] [] Y Y' B1 B1' I I eq_refl) as [-> _] end.
        f_equal. eapply IHl; eassumption. }
    subst l'. apply separated_join in S, S'. subst. auto.
Qed.
Theorem Display_injective t v w a : of_type v t -> of_type w t -> Display v = Ret a -> Display w = Ret a -> v = w.
Proof.
  intros Tv Tw Dv Dw. apply Display_shown in Dv, Dw. destruct (unambiguous_all t v w a a [] [] Tv Tw Dv Dw I I eq_refl) as [E _]. exact E.
Qed.
