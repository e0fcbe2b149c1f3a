(** ListShareSafeProofs.v -- copies of linked lists that are used like any other variable: no
    call panics and every walk ends. *)
From Verif Require Import Base BaseLemmas Effect ListModel ListProofs ListIterProofs ListRunProofs.
From Verif Require Import ListHistory ListShareSpec ListShareModel ListShareProofs.
From Verif Require ListSpec.
Local Open Scope Z_scope.
Import ListSpec(forward, forward_nil, forward_node).

Section Safe.
  Context {T : Type}.
  Variable eqb : T -> T -> bool.
  Variable clone : T -> T.
  Implicit Types (h : heap T) (fam : nat -> nat) (rank : nat -> Z).

  (** Links stay inside the heap and inside a family; next leads upwards. *)
  Definition links_ok h fam rank : Prop :=
    forall a n, nth_error h a = Some n ->
      (forall b, next n = Some b -> (b < length h)%nat /\ fam b = fam a /\ rank a < rank b) /\
      (forall b, prev n = Some b -> (b < length h)%nat /\ fam b = fam a).
  Definition var_ok h fam (f : nat) (l : LinkedList) : Prop :=
    (head l = None <-> tail l = None) /\
    (forall a, head l = Some a -> (a < length h)%nat /\ fam a = f) /\
    (forall a, tail l = Some a -> (a < length h)%nat /\ fam a = f).
  Definition fine h (ls : list LinkedList) (fs : list nat) : Prop :=
    length ls = length fs /\ exists fam rank, links_ok h fam rank /\
      forall v l, nth_error ls v = Some l -> var_ok h fam (family fs v) l.
  Definition grows h fam h' fam' : Prop := (length h <= length h')%nat /\ forall a, (a < length h)%nat -> fam' a = fam a.

  Lemma grows_refl : forall h fam, grows h fam h fam.
  Proof. split; auto. Qed.
  Lemma grows_trans : forall h1 f1 h2 f2 h3 f3, grows h1 f1 h2 f2 -> grows h2 f2 h3 f3 -> grows h1 f1 h3 f3.
  Proof. intros h1 f1 h2 f2 h3 f3 [L1 E1] [L2 E2]. split; [lia|]. intros a La. rewrite E2 by lia. auto. Qed.
  Lemma var_ok_grows : forall h fam h' fam' f l, var_ok h fam f l -> grows h fam h' fam' -> var_ok h' fam' f l.
  Proof.
    intros h fam h' fam' f l (E & H1 & H2) [L G]. split; [auto|]. split; intros a Ha.
    - destruct (H1 a Ha). split; [lia|]. now rewrite G.
    - destruct (H2 a Ha). split; [lia|]. now rewrite G.
  Qed.

  Lemma at_least : forall h a, (a < length h)%nat -> exists n, nth_error h a = Some n.
  Proof. intros h a L. destruct (nth_error h a) eqn:E; [eauto|]. apply nth_error_None in E. lia. Qed.
  Lemma set_next_ok : forall h fam rank a q, links_ok h fam rank -> (a < length h)%nat ->
    (forall b, q = Some b -> (b < length h)%nat /\ fam b = fam a /\ rank a < rank b) ->
    exists n, nth_error h a = Some n /\ let h' := list_set h a (mkNode (value n) q (prev n)) in
      set_next (Some a) q h = Ret (tt, h') /\ links_ok h' fam rank /\ length h' = length h.
  Proof.
    intros h fam rank a q K La Q. destruct (at_least h a La) as [n N]. exists n. split; [exact N|]. cbv zeta.
    split; [now apply set_next_spec|]. rewrite list_set_length. split; [|reflexivity].
    intros c m Hc. rewrite list_set_length. destruct (Nat.eq_dec a c) as [<-|D].
    - rewrite nth_error_list_set_eq in Hc by auto. injection Hc as <-. cbn [next prev]. split; [auto|]. apply (K a n N).
    - rewrite nth_error_list_set_neq in Hc by auto. now apply K.
  Qed.
  Lemma set_prev_ok : forall h fam rank a q, links_ok h fam rank -> (a < length h)%nat ->
    (forall b, q = Some b -> (b < length h)%nat /\ fam b = fam a) ->
    exists n, nth_error h a = Some n /\ let h' := list_set h a (mkNode (value n) (next n) q) in
      set_prev (Some a) q h = Ret (tt, h') /\ links_ok h' fam rank /\ length h' = length h.
  Proof.
    intros h fam rank a q K La Q. destruct (at_least h a La) as [n N]. exists n. split; [exact N|]. cbv zeta.
    split; [now apply set_prev_spec|]. rewrite list_set_length. split; [|reflexivity].
    intros c m Hc. rewrite list_set_length. destruct (Nat.eq_dec a c) as [<-|D].
    - rewrite nth_error_list_set_eq in Hc by auto. injection Hc as <-. cbn [next prev]. split; [|auto]. apply (K a n N).
    - rewrite nth_error_list_set_neq in Hc by auto. now apply K.
  Qed.
  Definition put {A} (f : nat -> A) (a : nat) (y : A) (b : nat) : A := if Nat.eqb b a then y else f b.
  Lemma put_eq : forall A (f : nat -> A) a y, put f a y a = y.
  Proof. intros. unfold put. now rewrite Nat.eqb_refl. Qed.
  Lemma put_neq : forall A (f : nat -> A) a y b, b <> a -> put f a y b = f b.
  Proof. intros A f a y b N. unfold put. apply Nat.eqb_neq in N. now rewrite N. Qed.
  Lemma alloc_ok : forall h fam rank n f r, links_ok h fam rank ->
    (forall b, next n = Some b -> (b < length h)%nat /\ fam b = f /\ r < rank b) ->
    (forall b, prev n = Some b -> (b < length h)%nat /\ fam b = f) ->
    links_ok (h ++ [n]) (put fam (length h) f) (put rank (length h) r) /\ grows h fam (h ++ [n]) (put fam (length h) f).
  Proof.
    intros h fam rank n f r K Hn Hp. split.
    - intros a m Hm. rewrite app_length. cbn [length]. destruct (Nat.lt_ge_cases a (length h)) as [L|L].
      + rewrite nth_error_app1 in Hm by auto. destruct (K a m Hm) as [K1 K2]. rewrite (put_neq _ fam) by lia. rewrite (put_neq _ rank) by lia.
        split; intros b Hb.
        * destruct (K1 b Hb) as (B1 & B2 & B3). rewrite !put_neq by lia. split; [lia|auto].
        * destruct (K2 b Hb) as (B1 & B2). rewrite !put_neq by lia. split; [lia|auto].
      + rewrite nth_error_app2 in Hm by auto. destruct (a - length h)%nat as [|j] eqn:E; [|destruct j; discriminate].
        injection Hm as <-. assert (a = length h) as -> by lia. rewrite !put_eq. split; intros b Hb.
        * destruct (Hn b Hb) as (B1 & B2 & B3). rewrite !put_neq by lia. split; [lia|auto].
        * destruct (Hp b Hb) as (B1 & B2). rewrite !put_neq by lia. split; [lia|auto].
    - split; [rewrite app_length; lia|]. intros a L. apply put_neq. lia.
  Qed.

  (** *** The methods *)
  Lemma PushBack_ok : forall h fam rank f l x, links_ok h fam rank -> var_ok h fam f l ->
    exists l' h' fam' rank', PushBack l x h = Ret (l', h') /\ links_ok h' fam' rank' /\ var_ok h' fam' f l' /\ grows h fam h' fam' /\
      (forall a, (a < length h)%nat -> fam a <> f -> nth_error h' a = nth_error h a).
  Proof.
    intros h fam rank f l x K (E & V1 & V2). unfold PushBack, alloc, mbind at 1.
    set (r := match tail l with Some t => rank t + 1 | None => 0 end).
    destruct (alloc_ok h fam rank (mkNode x None (tail l)) f r K) as [K1 G1].
    { discriminate. } { cbn [prev]. exact V2. }
    assert (Ln : (length h < length (h ++ [mkNode x None (tail l)]))%nat) by (rewrite app_length; cbn [length]; lia).
    destruct (tail l) as [t|] eqn:Et; cbn [when].
    - destruct (V2 t eq_refl) as [Lt Ft].
      destruct (set_next_ok _ _ _ t (Some (length h)) K1 ltac:(lia)) as (n & Nn & Es & K2 & L2).
      { intros b Hb. injection Hb as <-. split; [lia|]. rewrite put_eq, !(put_neq _ _ _ _ t) by lia. split; [auto|].
        unfold put, r. rewrite Nat.eqb_refl. lia. }
      rewrite (mb_Ret _ _ _ _ _ _ _ _ Es). unfold mret. eexists _, _, _, _. split; [reflexivity|]. split; [exact K2|].
      split; [|split].
      + unfold var_ok. cbn [head tail]. rewrite L2. destruct (head l) as [a|] eqn:Eh.
        2:{ destruct E as [E _]. now specialize (E eq_refl). }
        split; [split; discriminate|]. split; intros c Hc; injection Hc as <-.
        * destruct (V1 a eq_refl). split; [lia|]. now rewrite put_neq by lia.
        * split; [lia|]. apply put_eq.
      + destruct G1 as [G1 G2]. split; [lia|auto].
      + intros a La Na. rewrite nth_error_list_set_neq by (intros ->; auto). now apply nth_error_app1.
    - unfold mbind, mret. eexists _, _, _, _. split; [reflexivity|]. split; [exact K1|]. split; [|split; [exact G1|]].
      + unfold var_ok. cbn [head tail]. destruct (head l) as [a|] eqn:Eh; [destruct E as [_ E]; now specialize (E eq_refl)|].
        split; [split; discriminate|]. split; intros c Hc; injection Hc as <-; (split; [lia|apply put_eq]).
      + intros a La _. now apply nth_error_app1.
  Qed.
  Lemma PushFront_ok : forall h fam rank f l x, links_ok h fam rank -> var_ok h fam f l ->
    exists l' h' fam' rank', PushFront l x h = Ret (l', h') /\ links_ok h' fam' rank' /\ var_ok h' fam' f l' /\ grows h fam h' fam'.
  Proof.
    intros h fam rank f l x K (E & V1 & V2). unfold PushFront, alloc, mbind at 1.
    set (r := match head l with Some t => rank t - 1 | None => 0 end).
    destruct (alloc_ok h fam rank (mkNode x (head l) None) f r K) as [K1 G1].
    { cbn [next]. intros b Hb. destruct (V1 b Hb). split; [auto|]. split; [auto|]. unfold r. rewrite Hb. lia. } { discriminate. }
    assert (Ln : (length h < length (h ++ [mkNode x (head l) None]))%nat) by (rewrite app_length; cbn [length]; lia).
    destruct (head l) as [t|] eqn:Et; cbn [when].
    - destruct (V1 t eq_refl) as [Lt Ft].
      destruct (set_prev_ok _ _ _ t (Some (length h)) K1 ltac:(lia)) as (n & Nn & Es & K2 & L2).
      { intros b Hb. injection Hb as <-. split; [lia|]. rewrite put_eq, !(put_neq _ _ _ _ t) by lia. auto. }
      rewrite (mb_Ret _ _ _ _ _ _ _ _ Es). unfold mret. eexists _, _, _, _. split; [reflexivity|]. split; [exact K2|]. split.
      + unfold var_ok. cbn [head tail]. rewrite L2. destruct (tail l) as [a|] eqn:Eh.
        2:{ destruct E as [_ E]. now specialize (E eq_refl). }
        split; [split; discriminate|]. split; intros c Hc; injection Hc as <-.
        * split; [lia|]. apply put_eq.
        * destruct (V2 a eq_refl). split; [lia|]. now rewrite put_neq by lia.
      + destruct G1 as [G1 G2]. split; [lia|auto].
    - unfold mbind, mret. eexists _, _, _, _. split; [reflexivity|]. split; [exact K1|]. split; [|exact G1].
      unfold var_ok. cbn [head tail]. destruct (tail l) as [a|] eqn:Eh; [destruct E as [E _]; now specialize (E eq_refl)|].
      split; [split; discriminate|]. split; intros c Hc; injection Hc as <-; (split; [lia|apply put_eq]).
  Qed.
  Lemma PopBack_ok : forall h fam rank f l, links_ok h fam rank -> var_ok h fam f l ->
    exists l' o h', PopBack l h = Ret (l', o, h') /\ links_ok h' fam rank /\ var_ok h' fam f l' /\ grows h fam h' fam.
  Proof.
    intros h fam rank f l K (E & V1 & V2). unfold PopBack. destruct (tail l) as [t|] eqn:Et.
    2:{ exists l, None, h. split; [reflexivity|]. split; [auto|]. split; [|apply grows_refl]. unfold var_ok. rewrite Et. auto. }
    destruct (V2 t eq_refl) as [Lt Ft]. destruct (at_least h t Lt) as [n N].
    rewrite (mb_Ret _ _ _ _ _ _ _ _ (load_spec _ _ _ N)). destruct (K t n N) as [_ Kp].
    destruct (prev n) as [p|] eqn:Ep; cbn [when].
    - destruct (Kp p eq_refl) as [Lp Fp]. destruct (set_next_ok _ _ _ p None K Lp ltac:(discriminate)) as (m & Nm & Es & K2 & L2).
      rewrite (mb_Ret _ _ _ _ _ _ _ _ Es). unfold mret. eexists _, _, _. split; [reflexivity|]. split; [exact K2|].
      split; [|split; [lia|auto]]. unfold var_ok. cbn [head tail]. rewrite L2. destruct (head l) as [a|] eqn:Eh.
      2:{ destruct E as [E _]. now specialize (E eq_refl). }
      split; [split; discriminate|]. split; intros c Hc; injection Hc as <-; [now apply V1|]. split; [lia|congruence].
    - unfold mbind, mret. eexists _, _, _. split; [reflexivity|]. split; [exact K|]. split; [|apply grows_refl].
      unfold var_ok. cbn [head tail]. split; [tauto|]. split; discriminate.
  Qed.
  Lemma PopFront_ok : forall h fam rank f l, links_ok h fam rank -> var_ok h fam f l ->
    exists l' o h', PopFront l h = Ret (l', o, h') /\ links_ok h' fam rank /\ var_ok h' fam f l' /\ grows h fam h' fam.
  Proof.
    intros h fam rank f l K (E & V1 & V2). unfold PopFront. destruct (head l) as [t|] eqn:Et.
    2:{ exists l, None, h. split; [reflexivity|]. split; [auto|]. split; [|apply grows_refl]. unfold var_ok. rewrite Et. auto. }
    destruct (V1 t eq_refl) as [Lt Ft]. destruct (at_least h t Lt) as [n N].
    rewrite (mb_Ret _ _ _ _ _ _ _ _ (load_spec _ _ _ N)). destruct (K t n N) as [Kn _].
    destruct (next n) as [p|] eqn:Ep; cbn [when].
    - destruct (Kn p eq_refl) as (Lp & Fp & _). destruct (set_prev_ok _ _ _ p None K Lp ltac:(discriminate)) as (m & Nm & Es & K2 & L2).
      rewrite (mb_Ret _ _ _ _ _ _ _ _ Es). unfold mret. eexists _, _, _. split; [reflexivity|]. split; [exact K2|].
      split; [|split; [lia|auto]]. unfold var_ok. cbn [head tail]. rewrite L2. destruct (tail l) as [a|] eqn:Eh.
      2:{ destruct E as [_ E]. now specialize (E eq_refl). }
      split; [split; discriminate|]. split; intros c Hc; injection Hc as <-; [|now apply V2]. split; [lia|congruence].
    - unfold mbind, mret. eexists _, _, _. split; [reflexivity|]. split; [exact K|]. split; [|apply grows_refl].
      unfold var_ok. cbn [head tail]. split; [tauto|]. split; discriminate.
  Qed.
  (** Two families become one. *)
  Definition joined fam (f g : nat) (a : nat) : nat := if Nat.eqb (fam a) g then f else fam a.
  Lemma Append_ok : forall h fam rank f g l m, links_ok h fam rank -> var_ok h fam f l -> var_ok h fam g m -> f <> g ->
    exists l' m' h' rank', Append l m h = Ret (l', m', h') /\ links_ok h' (joined fam f g) rank' /\ length h' = length h /\
      var_ok h' (joined fam f g) f l' /\ (forall f', var_ok h' (joined fam f g) f' m').
  Proof.
    intros h fam rank f g l m K (E & V1 & V2) (E' & W1 & W2) D.
    assert (Jf : forall a, fam a = f \/ fam a = g -> joined fam f g a = f).
    { intros a [H|H]; unfold joined; rewrite H; [apply Nat.eqb_neq in D; now rewrite D|now rewrite Nat.eqb_refl]. }
    assert (KJ : forall rk, (forall a b, fam a = fam b -> rank a < rank b -> rk a < rk b) -> links_ok h (joined fam f g) rk).
    { intros rk Hr a n N. destruct (K a n N) as [K1 K2]. split; intros b Hb.
      - destruct (K1 b Hb) as (B1 & B2 & B3). split; [auto|]. split; [unfold joined; now rewrite B2|auto].
      - destruct (K2 b Hb) as (B1 & B2). split; [auto|unfold joined; now rewrite B2]. }
    assert (VC : forall h0 f', var_ok h0 (joined fam f g) f' (ListModel.Clear m)).
    { intros h0 f'. unfold var_ok, ListModel.Clear. cbn [head tail]. split; [tauto|]. split; discriminate. }
    unfold Append. destruct (head m) as [b|] eqn:Eb.
    2:{ exists l, m, h, rank. split; [reflexivity|]. split; [apply KJ; auto|]. split; [reflexivity|]. split.
        - split; [auto|]. split; intros a Ha.
          + destruct (V1 a Ha). auto.
          + destruct (V2 a Ha). auto.
        - intros f'. destruct E' as [E' _]. specialize (E' eq_refl). unfold var_ok. rewrite Eb, E'. split; [tauto|]. split; discriminate. }
    destruct (tail m) as [u|] eqn:Eu; [|destruct E' as [_ E']; now specialize (E' eq_refl)].
    destruct (W1 b eq_refl) as [Lb Fb]. destruct (W2 u eq_refl) as [Lu Fu].
    destruct (head l) as [a|] eqn:Ea.
    2:{ exists (mkList (Some b) (Some u) (len m)), (ListModel.Clear m), h, rank. split; [reflexivity|]. split; [apply KJ; auto|]. split; [reflexivity|]. split; [|auto].
        unfold var_ok. cbn [head tail]. split; [split; discriminate|]. split; intros c Hc; injection Hc as <-; auto. }
    destruct (tail l) as [t|] eqn:Et; [|destruct E as [_ E]; now specialize (E eq_refl)].
    destruct (V1 a eq_refl) as [La Fa]. destruct (V2 t eq_refl) as [Lt Ft].
    set (C := rank t - rank b + 1).
    set (rk := fun x => if Nat.eqb (fam x) g then rank x + C else rank x).
    assert (K0 : links_ok h (joined fam f g) rk).
    { apply KJ. intros x y Fxy Lxy. unfold rk. rewrite Fxy. destruct (Nat.eqb (fam y) g); lia. }
    destruct (set_next_ok _ _ _ t (Some b) K0 Lt) as (n & Nn & Es & K1 & L1).
    { intros c Hc. injection Hc as <-. split; [auto|]. split; [rewrite !Jf by auto; reflexivity|].
      unfold rk. rewrite Fb, Ft, Nat.eqb_refl. apply Nat.eqb_neq in D. rewrite D. unfold C. lia. }
    rewrite (mb_Ret _ _ _ _ _ _ _ _ Es).
    destruct (set_prev_ok _ _ _ b (Some t) K1 ltac:(lia)) as (n2 & Nn2 & Es2 & K2 & L2).
    { intros c Hc. injection Hc as <-. split; [lia|]. rewrite !Jf by auto. reflexivity. }
    rewrite (mb_Ret _ _ _ _ _ _ _ _ Es2). unfold mret. eexists _, _, _, _. split; [reflexivity|]. split; [exact K2|]. split; [lia|].
    split; [|auto]. unfold var_ok. cbn [head tail]. rewrite L2, L1. split; [split; discriminate|].
    split; intros c Hc; injection Hc as <-; auto.
  Qed.

  (** *** Walks *)
  Lemma filter_fewer : forall (P Q : nat -> bool) l y, (forall x, P x = true -> Q x = true) -> In y l -> Q y = true -> P y = false ->
    (length (filter P l) < length (filter Q l))%nat.
  Proof.
    intros P Q l y I. assert (Le : forall l, (length (filter P l) <= length (filter Q l))%nat).
    { induction l0 as [|x l0 IH]; cbn [filter]; [lia|]. destruct (P x) eqn:Px; [rewrite (I x Px); cbn [length]; lia|].
      destruct (Q x); cbn [length]; lia. }
    induction l as [|x l IH]; intros Hy Qy Py; cbn [In filter] in *; [tauto|]. destruct Hy as [->|Hy].
    - rewrite Py, Qy. cbn [length]. specialize (Le l). lia.
    - specialize (IH Hy Qy Py). destruct (P x) eqn:Px; [rewrite (I x Px); cbn [length]; lia|]. destruct (Q x); cbn [length]; lia.
  Qed.
  Lemma walk_ends : forall h fam rank, links_ok h fam rank -> forall k a, (a < length h)%nat ->
    (length (filter (fun b => (rank a <? rank b)%Z) (seq 0 (length h))) <= k)%nat ->
    exists A v, forward h (Some a) A v /\ Forall (fun b => fam b = fam a) A.
  Proof.
    intros h fam rank K. induction k as [|k IH]; intros a La Hk; destruct (at_least h a La) as [n N]; destruct (K a n N) as [Kn _].
    - destruct (next n) as [b|] eqn:En.
      + destruct (Kn b eq_refl) as (Lb & Fb & Rb). exfalso.
        assert (I : In b (filter (fun b => (rank a <? rank b)%Z) (seq 0 (length h)))).
        { apply filter_In. split; [apply in_seq; lia|]. now apply Z.ltb_lt. }
        destruct (filter _ _); [destruct I|cbn [length] in Hk; lia].
      + exists [a], [value n]. split; [|constructor; auto]. eapply forward_node; [exact N|]. rewrite En. constructor.
    - destruct (next n) as [b|] eqn:En.
      + destruct (Kn b eq_refl) as (Lb & Fb & Rb).
        assert (F : (length (filter (fun c => (rank b <? rank c)%Z) (seq 0 (length h))) < length (filter (fun c => (rank a <? rank c)%Z) (seq 0 (length h))))%nat).
        { apply (filter_fewer _ _ _ b).
          - intros x Hx. apply Z.ltb_lt in Hx. apply Z.ltb_lt. lia.
          - apply in_seq. lia.
          - now apply Z.ltb_lt.
          - apply Z.ltb_irrefl. }
        destruct (IH b Lb ltac:(lia)) as (A & v & Fw & FA). exists (a :: A), (value n :: v).
        split; [eapply forward_node; [exact N|]; now rewrite En|]. constructor; auto.
        eapply Forall_impl; [|exact FA]. intros c Hc. cbv beta in Hc. congruence.
      + exists [a], [value n]. split; [|constructor; auto]. eapply forward_node; [exact N|]. rewrite En. constructor.
  Qed.
  Lemma head_walk : forall h fam rank f l, links_ok h fam rank -> var_ok h fam f l ->
    exists A v, forward h (head l) A v /\ Forall (fun b => fam b = f) A.
  Proof.
    intros h fam rank f l K (_ & V1 & _). destruct (head l) as [a|] eqn:E.
    - destruct (V1 a eq_refl) as [La Fa]. destruct (walk_ends h fam rank K _ a La (le_n _)) as (A & v & F & G). exists A, v. rewrite Fa in G. auto.
    - exists [], []. split; constructor.
  Qed.

  Definition clone_body (n : LinkedList) (e : T) : M (heap T * unit) LinkedList :=
    c <~ (fun s => f <- of_option (Some clone) ;; Ret (f e, s)) ;; onheap (PushBack n c).
  Lemma clone_loop_ok : forall v p A fuel h fam rank f n, forward h p A v -> Forall (fun b => fam b <> f) A -> (length v < fuel)%nat ->
    links_ok h fam rank -> var_ok h fam f n ->
    exists n' h' fam' rank', loop fuel (mkIter p) clone_body n (h, tt) = Ret (n', (h', tt)) /\ links_ok h' fam' rank' /\ var_ok h' fam' f n' /\
      grows h fam h' fam'.
  Proof.
    induction v as [|x v IH]; intros p A fuel h fam rank f n F D Hf K V; (destruct fuel as [|k]; [lia|]); cbn [loop].
    - pose proof (Next_spec _ _ _ _ F) as N. cbv beta iota in N. rewrite (mb_Ret _ _ _ _ _ _ _ _ (onheap_Ret _ _ _ _ tt _ _ N)). cbn [snd].
      exists n, h, fam, rank. split; [reflexivity|]. split; [auto|]. split; [auto|apply grows_refl].
    - pose proof (Next_spec _ _ _ _ F) as (q & A' & N & F' & EA). rewrite (mb_Ret _ _ _ _ _ _ _ _ (onheap_Ret _ _ _ _ tt _ _ N)). cbn [snd fst].
      destruct (PushBack_ok h fam rank f n (clone x) K V) as (n1 & h1 & fam1 & rank1 & Ep & K1 & V1 & G1 & S1).
      assert (Eb : clone_body n x (h, tt) = Ret (n1, (h1, tt))).
      { unfold clone_body, mbind. cbn [of_option bind]. now apply onheap_Ret. }
      rewrite (mb_Ret _ _ _ _ _ _ _ _ Eb). subst A. inversion D as [|? ? D1 D2]; subst. cbn [length] in Hf.
      assert (Bd : forall b, In b A' -> (b < length h)%nat) by (intros b Hb; exact (forward_bound _ _ _ _ F' b Hb)).
      destruct (IH q A' k h1 fam1 rank1 f n1) as (n2 & h2 & fam2 & rank2 & El & K2 & V2 & G2); auto; try lia.
      + apply (forward_extends h); auto. intros b Hb. apply S1; [auto|]. rewrite Forall_forall in D2. now apply D2.
      + rewrite Forall_forall in *. intros b Hb. destruct G1 as [_ G1]. rewrite G1 by auto. now apply D2.
      + exists n2, h2, fam2, rank2. split; [exact El|]. split; [auto|]. split; [auto|]. eapply grows_trans; eauto.
  Qed.
  Lemma Clone_ok : forall h fam rank f g l, links_ok h fam rank -> var_ok h fam g l -> g <> f ->
    exists n' h' fam' rank', ListModel.Clone (Some clone) l h = Ret (n', h') /\ links_ok h' fam' rank' /\ var_ok h' fam' f n' /\ grows h fam h' fam'.
  Proof.
    intros h fam rank f g l K V D. destruct (head_walk _ _ _ _ _ K V) as (A & v & F & G).
    destruct (clone_loop_ok v (head l) A (length h + 1) h fam rank f LinkedListNew F) as (n' & h' & fam' & rank' & E & K' & V' & G'); auto.
    - eapply Forall_impl; [|exact G]. intros b Hb. cbv beta in Hb. congruence.
    - pose proof (forward_short _ _ _ _ F). lia.
    - unfold var_ok, LinkedListNew. cbn [head tail]. split; [tauto|]. split; discriminate.
    - exists n', h', fam', rank'. split; [|auto]. unfold ListModel.Clone, plain, for_each, IntoIter. cbn [fst]. fold clone_body.
      change (fun (n : LinkedList) (e : T) => c <~ (fun s : heap T * unit => f0 <- of_option (Some clone);; Ret (f0 e, s));; onheap (PushBack n c)) with clone_body.
      rewrite E. reflexivity.
  Qed.

  (** *** One call *)
  Lemma fine_var : forall h ls fs v, fine h ls fs -> (v < length fs)%nat -> exists l, nth_error ls v = Some l.
  Proof. intros h ls fs v (L & _) H. destruct (nth_error ls v) eqn:E; [eauto|]. apply nth_error_None in E. lia. Qed.
  Lemma fine_set : forall ls fs h h' fam fam' rank' v l', length ls = length fs ->
    (forall u l, nth_error ls u = Some l -> var_ok h fam (family fs u) l) -> grows h fam h' fam' -> links_ok h' fam' rank' ->
    (v < length ls)%nat -> var_ok h' fam' (family fs v) l' -> fine h' (list_set ls v l') fs.
  Proof.
    intros ls fs h h' fam fam' rank' v l' L V G K Lv V'. split; [now rewrite list_set_length|]. exists fam', rank'. split; [auto|].
    intros u l Hu. rewrite nth_set in Hu by auto. destruct (Nat.eqb_spec u v) as [->|D].
    - injection Hu as <-. exact V'.
    - eapply var_ok_grows; eauto.
  Qed.
  Lemma fine_add : forall ls fs h h' fam fam' rank' f l', length ls = length fs ->
    (forall u l, nth_error ls u = Some l -> var_ok h fam (family fs u) l) -> grows h fam h' fam' -> links_ok h' fam' rank' ->
    var_ok h' fam' f l' -> fine h' (ls ++ [l']) (fs ++ [f]).
  Proof.
    intros ls fs h h' fam fam' rank' f l' L V G K V'. split; [rewrite !app_length; cbn [length]; lia|]. exists fam', rank'. split; [auto|].
    intros u l Hu. unfold family in *. destruct (Nat.lt_ge_cases u (length ls)) as [Lu|Lu].
    - rewrite nth_error_app1 in Hu by auto. rewrite app_nth1 by lia. eapply var_ok_grows; eauto.
    - rewrite nth_error_app2 in Hu by auto. destruct (u - length ls)%nat as [|j] eqn:Eu; [|destruct j; discriminate].
      injection Hu as <-. rewrite app_nth2 by lia. replace (u - length fs)%nat with 0%nat by lia. exact V'.
  Qed.
  Lemma family_fresh : forall fs v, (v < length fs)%nat -> family fs v <> fresh fs.
  Proof.
    intros fs v L. unfold family, fresh. assert (H : (nth v fs 0 <= list_max fs)%nat); [|lia].
    pose proof (proj1 (list_max_le fs (list_max fs)) (le_n _)) as H. rewrite Forall_forall in H. apply H. now apply nth_In.
  Qed.

  Lemma gexec_ok : forall w fs o, fine (cells w) (vars w) fs -> known fs o ->
    match o with GCall (ListSpec.Append v u) => family fs v <> family fs u | _ => True end ->
    (exists w' a, gexec eqb clone w o = Ret (w', a) /\ fine (cells w') (vars w') (families fs o)) \/
    (gexec eqb clone w o = Panic /\ writes o = true).
  Proof.
    intros w fs o F Kn Ap. pose proof F as (L & fam & rank & K & V).
    assert (Var : forall v, (v < length fs)%nat -> exists l, nth_error (vars w) v = Some l /\ var_ok (cells w) fam (family fs v) l).
    { intros v Hv. destruct (fine_var _ _ _ _ F Hv) as [l Hl]. eauto. }
    assert (New : forall f, var_ok (cells w) fam f LinkedListNew).
    { intros f. unfold var_ok, LinkedListNew. cbn [head tail]. split; [tauto|]. split; discriminate. }
    assert (Same : forall v l, nth_error (vars w) v = Some l -> fine (cells w) (list_set (vars w) v l) fs).
    { intros v l Hl. rewrite (list_set_same _ _ _ Hl). exact F. }
    destruct o as [v|o]; [|destruct o as [|v x|v x|v|v|v|v|v x|v x|v|v|v|v u|v|v u|v]]; cbn [known families gexec exec writes] in *.
    - destruct (Var v Kn) as (l & Hl & Vl). left. unfold idx. rewrite Hl. cbn [of_option bind]. eexists _, _. split; [reflexivity|]. cbn [cells vars].
      eapply fine_add; eauto using grows_refl.
    - left. eexists _, _. split; [reflexivity|]. cbn [cells vars]. eapply fine_add; eauto using grows_refl.
    - destruct (Var v Kn) as (l & Hl & Vl). destruct (PushFront_ok _ _ _ _ _ x K Vl) as (l' & h' & fam' & rank' & E & K' & V' & G'). left.
      eexists _, _. split; [eapply modify_Ret; eauto|]. cbn [cells vars]. eapply fine_set; eauto. lia.
    - destruct (Var v Kn) as (l & Hl & Vl). destruct (PushBack_ok _ _ _ _ _ x K Vl) as (l' & h' & fam' & rank' & E & K' & V' & G' & _). left.
      eexists _, _. split; [eapply modify_Ret; eauto|]. cbn [cells vars]. eapply fine_set; eauto. lia.
    - destruct (Var v Kn) as (l & Hl & Vl). destruct (PopFront_ok _ _ _ _ _ K Vl) as (l' & r & h' & E & K' & V' & G'). left.
      eexists _, _. split; [eapply method_Ret; eauto; cbv beta; rewrite (mb_Ret _ _ _ _ _ _ _ _ E); reflexivity|]. cbn [cells vars fst]. eapply fine_set; eauto. lia.
    - destruct (Var v Kn) as (l & Hl & Vl). destruct (PopBack_ok _ _ _ _ _ K Vl) as (l' & r & h' & E & K' & V' & G'). left.
      eexists _, _. split; [eapply method_Ret; eauto; cbv beta; rewrite (mb_Ret _ _ _ _ _ _ _ _ E); reflexivity|]. cbn [cells vars fst]. eapply fine_set; eauto. lia.
    - destruct (Var v Kn) as (l & Hl & Vl). destruct (head_walk _ _ _ _ _ K Vl) as (A & xs & Fw & _). left.
      eexists _, _. split; [eapply method_Ret; eauto; cbv beta; unfold Front; rewrite (mb_Ret _ _ _ _ _ _ _ _ (peek_Ret _ _ _ _ Fw)); reflexivity|]. cbn [cells vars]. auto.
    - destruct (Var v Kn) as (l & Hl & Vl). pose proof Vl as (_ & _ & Vt). left. destruct (tail l) as [t|] eqn:Et.
      + destruct (Vt t eq_refl) as [Lt _]. destruct (at_least _ _ Lt) as [n N].
        eexists _, _. split; [eapply method_Ret; eauto; cbv beta; unfold Back, peek; rewrite Et; unfold mbind at 1 2; rewrite (load_spec _ _ _ N); reflexivity|].
        cbn [cells vars]. auto.
      + eexists _, _. split; [eapply method_Ret; eauto; cbv beta; unfold Back, peek; rewrite Et; reflexivity|]. cbn [cells vars]. auto.
    - destruct (Var v Kn) as (l & Hl & Vl). pose proof Vl as (_ & Vh & _). destruct (head l) as [t|] eqn:Et.
      + left. destruct (Vh t eq_refl) as [Lt _]. destruct (at_least _ _ Lt) as [n N].
        eexists _, _. split; [eapply modify_Ret; eauto; cbv beta; unfold Front; rewrite Et, (mb_Ret _ _ _ _ _ _ _ _ (store_spec _ _ _ x N)); reflexivity|].
        cbn [cells vars]. rewrite (list_set_same _ _ _ Hl). split; [auto|]. exists fam, rank. split.
        * intros a m Ha. rewrite list_set_length. destruct (Nat.eq_dec t a) as [<-|D].
          -- rewrite nth_error_list_set_eq in Ha by auto. injection Ha as <-. cbn [next prev]. exact (K t n N).
          -- rewrite nth_error_list_set_neq in Ha by auto. exact (K a m Ha).
        * intros u k Hu. eapply var_ok_grows; [eauto|]. split; [rewrite list_set_length; lia|auto].
      + right. split; [|reflexivity]. unfold modify, method, idx. rewrite Hl. cbn [of_option bind]. unfold Front. rewrite Et. reflexivity.
    - destruct (Var v Kn) as (l & Hl & Vl). pose proof Vl as (_ & _ & Vh). destruct (tail l) as [t|] eqn:Et.
      + left. destruct (Vh t eq_refl) as [Lt _]. destruct (at_least _ _ Lt) as [n N].
        eexists _, _. split; [eapply modify_Ret; eauto; cbv beta; unfold Back; rewrite Et, (mb_Ret _ _ _ _ _ _ _ _ (store_spec _ _ _ x N)); reflexivity|].
        cbn [cells vars]. rewrite (list_set_same _ _ _ Hl). split; [auto|]. exists fam, rank. split.
        * intros a m Ha. rewrite list_set_length. destruct (Nat.eq_dec t a) as [<-|D].
          -- rewrite nth_error_list_set_eq in Ha by auto. injection Ha as <-. cbn [next prev]. exact (K t n N).
          -- rewrite nth_error_list_set_neq in Ha by auto. exact (K a m Ha).
        * intros u k Hu. eapply var_ok_grows; [eauto|]. split; [rewrite list_set_length; lia|auto].
      + right. split; [|reflexivity]. unfold modify, method, idx. rewrite Hl. cbn [of_option bind]. unfold Back. rewrite Et. reflexivity.
    - destruct (Var v Kn) as (l & Hl & Vl). left. eexists _, _. split; [eapply modify_Ret; eauto; reflexivity|]. cbn [cells vars].
      eapply fine_set; eauto using grows_refl. lia.
    - destruct (Var v Kn) as (l & Hl & Vl). left. eexists _, _. split; [eapply method_Ret; eauto; reflexivity|]. cbn [cells vars]. auto.
    - destruct (Var v Kn) as (l & Hl & Vl). left. eexists _, _. split; [eapply method_Ret; eauto; reflexivity|]. cbn [cells vars]. auto.
    - destruct Kn as [Kv Ku]. destruct (Var v Kv) as (l & Hl & Vl). destruct (Var u Ku) as (m & Hm & Vm). left.
      destruct (Nat.eqb_spec v u) as [->|D]; [congruence|].
      destruct (Append_ok _ _ _ _ _ _ _ K Vl Vm Ap) as (l' & m' & h' & rank' & E & K' & Lh & Vl' & Vm').
      unfold idx. rewrite Hl, Hm. cbn [of_option bind]. rewrite E. cbn [bind fst snd].
      rewrite upd_Ret by lia. cbn [bind]. rewrite upd_Ret by (rewrite list_set_length; lia). cbn [bind].
      eexists _, _. split; [reflexivity|]. cbn [cells vars]. split; [now rewrite !list_set_length, map_length|].
      exists (joined fam (family fs v) (family fs u)), rank'. split; [exact K'|].
      assert (Fm : forall i, (i < length fs)%nat -> family (map (fun f => if Nat.eqb f (family fs u) then family fs v else f) fs) i =
                     if Nat.eqb (family fs i) (family fs u) then family fs v else family fs i).
      { intros i Hi. unfold family at 1. rewrite nth_indep with (d' := (fun f => if Nat.eqb f (family fs u) then family fs v else f) 0%nat) by now rewrite map_length.
        rewrite (map_nth (fun f => if Nat.eqb f (family fs u) then family fs v else f)). reflexivity. }
      intros i k Hi. rewrite !nth_set in Hi by (rewrite ?list_set_length; lia).
      destruct (Nat.eqb_spec i u) as [->|Nu]; [injection Hi as <-; apply Vm'|].
      destruct (Nat.eqb_spec i v) as [->|Nv].
      + injection Hi as <-. rewrite Fm by auto. apply Nat.eqb_neq in Ap. rewrite Ap. exact Vl'.
      + assert (Li : (i < length fs)%nat) by (rewrite <- L; apply nth_error_Some; congruence).
        rewrite Fm by auto. destruct (V i k Hi) as (E1 & E2 & E3). split; [auto|]. unfold joined. rewrite Lh.
        split; intros a Ha; [destruct (E2 a Ha) as [? ->]|destruct (E3 a Ha) as [? ->]]; auto.
    - destruct (Var v Kn) as (l & Hl & Vl). left.
      destruct (Clone_ok _ _ _ (fresh fs) _ _ K Vl) as (n' & h' & fam' & rank' & E & K' & V' & G'); [now apply family_fresh|].
      unfold idx. rewrite Hl. cbn [of_option bind]. rewrite E. cbn [bind fst snd]. eexists _, _. split; [reflexivity|]. cbn [cells vars].
      eapply fine_add; eauto.
    - destruct Kn as [Kv Ku]. destruct (Var v Kv) as (l & Hl & Vl). destruct (Var u Ku) as (m & Hm & Vm). left.
      destruct (head_walk _ _ _ _ _ K Vl) as (A & xs & Fw & _). destruct (head_walk _ _ _ _ _ K Vm) as (B & ys & Fw2 & _).
      unfold idx. rewrite Hl, Hm. cbn [of_option bind]. rewrite (Eq_agree eqb _ _ _ _ _ _ _ Fw Fw2). cbn [bind fst snd].
      eexists _, _. split; [reflexivity|]. cbn [cells vars]. auto.
    - destruct (Var v Kn) as (l & Hl & Vl). destruct (head_walk _ _ _ _ _ K Vl) as (A & xs & Fw & _). left.
      eexists _, _. split; [eapply method_Ret; eauto; cbv beta; unfold IntoIter; rewrite (mb_Ret _ _ _ _ _ _ _ _ (It_CollectToVec_spec _ _ _ _ Fw)); reflexivity|].
      cbn [cells vars]. auto.
  Qed.

  Lemma grun_ok : forall p w fs, fine (cells w) (vars w) fs -> orderly fs p ->
    (exists w' l, grun eqb clone w p = Ret (w', l) /\ length l = length p) \/
    (grun eqb clone w p = Panic /\ existsb writes p = true).
  Proof.
    induction p as [|o p IH]; intros w fs F O; cbn [grun existsb orderly] in *.
    - left. eexists _, _. split; reflexivity.
    - destruct O as (Kn & Ap & O). destruct (gexec_ok w fs o F Kn Ap) as [(w' & a & E & F')|[E W]].
      + rewrite E. cbn [bind fst snd]. destruct (IH w' _ F' O) as [(w2 & l & E2 & Ll)|[E2 W]].
        * rewrite E2. cbn [bind fst snd]. left. eexists _, _. split; [reflexivity|]. cbn [length]. now rewrite Ll.
        * rewrite E2, W. right. split; [reflexivity|apply orb_true_r].
      + rewrite E, W. right. split; reflexivity.
  Qed.
  Lemma fine_start : fine [] [] [].
  Proof. split; [reflexivity|]. exists (fun _ => 0%nat), (fun _ => 0). split; intros [|a]; discriminate. Qed.
End Safe.
