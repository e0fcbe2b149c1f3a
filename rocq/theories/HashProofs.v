(** HashProofs.v -- proofs about HashMap, HashSet and their iterators. *)
From Coq Require Import Permutation.
From Verif Require Import Base BaseLemmas Effect HashModel HashSpec HashHistory.
Local Open Scope Z_scope.

Lemma push_all {E T} (g : E -> T) l : forall acc, fold_left (fun vec e => vec ++ [g e]) l acc = acc ++ map g l.
Proof.
  induction l as [|e r IH]; intros acc; cbn [fold_left map].
  - now rewrite app_nil_r.
  - rewrite IH, <- app_assoc. reflexivity.
Qed.

Section Laws.
  Context {K V : Type}.
  Variable keqb : K -> K -> bool.
  Variable HE : equivalence keqb.
  Notation HashMap := (HashMap K V).
  Implicit Types (m rhs : HashMap) (es : list (K * V)) (v : V).

  Lemma k_refl a : keqb a a = true. Proof. apply (proj1 HE). Qed.
  Lemma k_sym a b : keqb a b = keqb b a.
  Proof.
    destruct (keqb a b) eqn:E1, (keqb b a) eqn:E2; auto.
    - apply (proj1 (proj2 HE)) in E1. congruence.
    - apply (proj1 (proj2 HE)) in E2. congruence.
  Qed.
  Lemma k_trans a b c : keqb a b = true -> keqb b c = true -> keqb a c = true. Proof. apply (proj2 (proj2 HE)). Qed.
  Lemma k_left a b c : keqb a b = true -> keqb a c = keqb b c.
  Proof.
    intros H. destruct (keqb a c) eqn:E1, (keqb b c) eqn:E2; auto.
    - rewrite k_sym in H. pose proof (k_trans _ _ _ H E1). congruence.
    - pose proof (k_trans _ _ _ H E2). congruence.
  Qed.
  Lemma k_right a b c : keqb a b = true -> keqb c a = keqb c b.
  Proof. intros H. rewrite (k_sym c a), (k_sym c b). now apply k_left. Qed.

  Definition wf (m : HashMap) : Prop := distinct keqb (map fst m).

  Lemma lookup_same m k k' : keqb k k' = true -> lookup keqb m k = lookup keqb m k'.
  Proof.
    intros H. induction m as [|[a v] r IH]; cbn [lookup]; [reflexivity|].
    rewrite (k_right _ _ a H). now rewrite IH.
  Qed.
  Lemma lookup_absent m k : (forall e, In e m -> keqb (fst e) k = false) <-> lookup keqb m k = None.
  Proof.
    induction m as [|[a v] r IH]; cbn [lookup]; [split; [reflexivity|intros _ e []]|].
    split.
    - intros H. pose proof (H (a, v) (or_introl eq_refl)) as Ha. cbn [fst] in Ha. rewrite Ha.
      apply IH. intros e He. apply H. now right.
    - intros H e [<-|He]; cbn [fst].
      + destruct (keqb a k); congruence.
      + destruct (keqb a k); [congruence|]. now apply (proj2 IH H).
  Qed.
  Lemma lookup_lists m : wf m -> lists keqb (lookup keqb m) m.
  Proof.
    intros Hw. split; [exact Hw|]. induction m as [|[a v] r IH]; intros k x; cbn [lookup].
    - split; [discriminate|]. intros (k' & [] & _).
    - destruct Hw as [Ha Hr]. specialize (IH Hr k x). destruct (keqb a k) eqn:E.
      + split.
        * intros H. injection H as <-. exists a. split; [now left|exact E].
        * intros (k' & [H|H] & Hk).
          -- congruence.
          -- exfalso. assert (keqb a k' = false) as Hf.
             { apply Ha. apply in_map_iff. exists (k', x). auto. }
             rewrite <- (k_right _ _ a Hk) in E. congruence.
      + rewrite IH. split.
        * intros (k' & H & Hk). exists k'. split; [now right|exact Hk].
        * intros (k' & [H|H] & Hk).
          -- congruence.
          -- exists k'. auto.
  Qed.

  Lemma assign_keys m k v x : In x (map fst (assign keqb m k v)) -> x = k \/ In x (map fst m).
  Proof.
    induction m as [|[a w] r IH]; cbn [assign map].
    - cbn [fst]. intros [<-|[]]. now left.
    - destruct (keqb a k); cbn [map fst].
      + intros [<-|H]; [now left|right; now right].
      + intros [<-|H]; [right; now left|]. destruct (IH H); [now left|right; now right].
  Qed.
  Lemma assign_wf m k v : wf m -> wf (assign keqb m k v).
  Proof.
    unfold wf. induction m as [|[a w] r IH]; cbn [assign map distinct].
    - intros _. split; [intros ? []|exact I].
    - cbn [fst]. intros [Ha Hr]. destruct (keqb a k) eqn:E; cbn [map fst distinct].
      + split; [|exact Hr]. intros x Hx. rewrite <- (k_left _ _ x E). now apply Ha.
      + split; [|now apply IH]. intros x Hx. destruct (assign_keys _ _ _ _ Hx) as [->|H]; auto.
  Qed.
  Lemma lookup_assign m k v x : lookup keqb (assign keqb m k v) x = with_ keqb (lookup keqb m) k v x.
  Proof.
    unfold with_. induction m as [|[a w] r IH]; cbn [assign lookup]; [reflexivity|].
    destruct (keqb a k) eqn:E; cbn [lookup].
    - rewrite (k_left _ _ x E). now destruct (keqb k x).
    - rewrite IH. destruct (keqb a x) eqn:E1; [|reflexivity].
      destruct (keqb k x) eqn:E2; [|reflexivity].
      rewrite <- (k_right _ _ a E2) in E1. congruence.
  Qed.
  Lemma delete_keys m k x : In x (map fst (delete keqb m k)) -> In x (map fst m).
  Proof.
    induction m as [|[a w] r IH]; cbn [delete map]; [auto|].
    destruct (keqb a k); cbn [map fst]; [intros H; now right|].
    intros [<-|H]; [now left|right; auto].
  Qed.
  Lemma delete_wf m k : wf m -> wf (delete keqb m k).
  Proof.
    unfold wf. induction m as [|[a w] r IH]; cbn [delete map distinct]; [auto|].
    cbn [fst]. intros [Ha Hr]. destruct (keqb a k); [exact Hr|].
    cbn [map fst distinct]. split; [|now apply IH].
    intros x Hx. apply Ha. now apply delete_keys in Hx.
  Qed.
  Lemma lookup_delete m k x : wf m -> lookup keqb (delete keqb m k) x = without keqb (lookup keqb m) k x.
  Proof.
    unfold wf, without. induction m as [|[a w] r IH]; cbn [delete lookup map distinct]; [now destruct (keqb k x)|].
    cbn [fst]. intros [Ha Hr]. destruct (keqb a k) eqn:E; cbn [lookup].
    - rewrite (k_left _ _ x E). destruct (keqb k x) eqn:E2; [|reflexivity].
      apply lookup_absent. intros e He.
      rewrite <- (k_right _ _ (fst e) E2), <- (k_right _ _ (fst e) E), k_sym. apply Ha, in_map, He.
    - rewrite (IH Hr). destruct (keqb a x) eqn:E1; [|reflexivity].
      destruct (keqb k x) eqn:E2; [|reflexivity].
      rewrite <- (k_right _ _ a E2) in E1. congruence.
  Qed.

  Lemma distinct_perm ks ks' : Permutation ks ks' -> distinct keqb ks -> distinct keqb ks'.
  Proof.
    induction 1; cbn [distinct]; auto.
    - intros [Ha Hr]. split; [|auto]. intros k' Hk. apply Ha. eapply Permutation_in; [apply Permutation_sym; eassumption|assumption].
    - intros [Hy [Hx Hr]]. split; [|split; [|exact Hr]].
      + intros k' [<-|Hk]; [rewrite k_sym; apply Hy; now left|auto].
      + intros k' Hk. apply Hy. now right.
  Qed.
  Lemma lists_perm (f : K -> option V) es es' : Permutation es es' -> lists keqb f es -> lists keqb f es'.
  Proof.
    intros P [Hd Hf]. split.
    - eapply distinct_perm; [apply Permutation_map, P|exact Hd].
    - intros k v. rewrite Hf. split; intros (k' & Hin & Hk); exists k'; (split; [|exact Hk]).
      + eapply Permutation_in; eassumption.
      + eapply Permutation_in; [apply Permutation_sym|]; eassumption.
  Qed.
  Lemma lists_ext (f g : K -> option V) es : (forall k, f k = g k) -> lists keqb f es -> lists keqb g es.
  Proof. intros H [Hd Hf]. split; [exact Hd|]. intros k v. rewrite <- H. apply Hf. Qed.

  Lemma IntoIter_vec_eq ord (m : HashMap) : IntoIter_vec ord m = ord m.
  Proof. unfold IntoIter_vec. rewrite (push_all (fun e : K * V => e)), map_id. reflexivity. Qed.
  Lemma Keys_vec_eq ord (m : HashMap) : Keys_vec ord m = map fst (ord m).
  Proof. unfold Keys_vec. now rewrite push_all. Qed.
  Lemma Values_vec_eq ord (m : HashMap) : Values_vec ord m = map snd (ord m).
  Proof. unfold Values_vec. now rewrite push_all. Qed.

  (** *** Histories.  The specification is run from a function the map looks like. *)
  Lemma exec_step ord m o f : fair ord -> wf m -> (forall k, lookup keqb m k = f k) ->
    exists g, mstep keqb f o g (snd (exec keqb ord m o)) /\ wf (fst (exec keqb ord m o)) /\
              forall k, lookup keqb (fst (exec keqb ord m o)) k = g k.
  Proof.
    intros Ho Hw Hf.
    assert (forall es, Permutation es m -> lists keqb f es) as Hl.
    { intros es P. eapply lists_ext; [exact Hf|]. eapply lists_perm; [apply Permutation_sym, P|]. now apply lookup_lists. }
    destruct o; cbn [exec fst snd].
    - exists (with_ keqb f k v). unfold Insert. cbn [fst snd]. rewrite (Hf k).
      split; [constructor|]. split; [now apply assign_wf|]. intros x. rewrite lookup_assign. unfold with_. now rewrite Hf.
    - exists (without keqb f k). unfold Remove. cbn [fst snd]. rewrite (Hf k).
      split; [constructor|]. split; [now apply delete_wf|]. intros x. rewrite lookup_delete by assumption. unfold without. now rewrite Hf.
    - exists f. unfold Get. rewrite (Hf k). split; [constructor|]. auto.
    - exists f. split; [|auto]. constructor. unfold ContainsKey. rewrite Hf. destruct (f k); split; congruence.
    - exists nothing. split; [constructor|]. split; [exact I|reflexivity].
    - exists f. split; [|auto]. constructor. apply Hl. reflexivity.
    - exists f. split; [|auto]. constructor. unfold IsEmpty, Len. destruct m as [|[a v] r].
      + cbn. split; [intros _ k; symmetry; apply Hf|reflexivity].
      + split; [cbn [length]; intros H; apply Z.eqb_eq in H; lia|].
        intros H. specialize (Hf a). cbn [lookup] in Hf. rewrite k_refl, H in Hf. discriminate.
    - exists f. split; [|auto]. rewrite IntoIter_vec_eq. constructor. apply Hl, Ho.
    - exists f. split; [|auto]. rewrite Keys_vec_eq. constructor. apply Hl, Ho.
    - exists f. split; [|auto]. rewrite Values_vec_eq. constructor. apply Hl, Ho.
  Qed.
  Lemma run_history ops : forall ords n m f, (forall i, fair (ords i)) -> wf m -> (forall k, lookup keqb m k = f k) ->
    exists g, mhistory keqb f ops g (snd (run keqb ords n m ops)) /\ wf (fst (run keqb ords n m ops)) /\
              forall k, Get keqb (fst (run keqb ords n m ops)) k = g k.
  Proof.
    induction ops as [|o r IH]; intros ords n m f Ho Hw Hf; cbn [run].
    - exists f. split; [constructor|]. auto.
    - destruct (exec_step (ords n) m o f (Ho n) Hw Hf) as (g & Hs & Hw' & Hg).
      destruct (exec keqb (ords n) m o) as [m' a] eqn:E. cbn [fst snd] in *.
      destruct (IH ords (S n) m' g Ho Hw' Hg) as (h & Hh & Hw'' & Hgh).
      destruct (run keqb ords (S n) m' r) as [m'' rs] eqn:E2. cbn [fst snd] in *.
      exists h. split; [econstructor; eassumption|]. auto.
  Qed.

  (** *** Eq *)
  Lemma pigeonhole (A : list K) : forall B, distinct keqb A -> distinct keqb B ->
    (forall a, In a A -> exists b, In b B /\ keqb a b = true) ->
    (length A <= length B)%nat /\
    ((length B <= length A)%nat -> forall b, In b B -> exists a, In a A /\ keqb a b = true).
  Proof.
    induction A as [|a A IH]; intros B HA HB Hin.
    - cbn [length]. split; [lia|]. intros H b Hb. destruct B; [destruct Hb|cbn [length] in H; lia].
    - destruct HA as [Ha HA]. destruct (Hin a (or_introl eq_refl)) as (b0 & Hb0 & E0).
      destruct (in_split _ _ Hb0) as (B1 & B2 & ->).
      assert (Permutation (B1 ++ b0 :: B2) (b0 :: B1 ++ B2)) as P by (symmetry; apply Permutation_middle).
      pose proof (distinct_perm _ _ P HB) as [Hb HB'].
      destruct (IH (B1 ++ B2) HA HB') as [L1 L2].
      + intros a' Ha'. destruct (Hin a' (or_intror Ha')) as (b & Hb1 & E1).
        apply (Permutation_in _ P) in Hb1. destruct Hb1 as [<-|Hb1].
        * exfalso. pose proof (Ha a' Ha') as Hf. rewrite k_sym in E1.
          pose proof (k_trans _ _ _ E0 E1). congruence.
        * exists b. auto.
      + apply Permutation_length in P. cbn [length] in *. split; [lia|]. intros H b Hb1.
        apply Permutation_in with (l' := b0 :: B1 ++ B2) in Hb1; [|symmetry; apply Permutation_middle].
        destruct Hb1 as [<-|Hb1].
        * exists a. split; [now left|exact E0].
        * destruct (L2 ltac:(lia) b Hb1) as (a' & Ha' & E1). exists a'. split; [now right|exact E1].
  Qed.
  Lemma lookup_Some_in m k v : lookup keqb m k = Some v -> exists k', In (k', v) m /\ keqb k' k = true.
  Proof.
    induction m as [|[a w] r IH]; cbn [lookup]; [discriminate|]. destruct (keqb a k) eqn:E.
    - intros H. injection H as <-. exists a. split; [now left|exact E].
    - intros H. destruct (IH H) as (k' & Hin & Hk). exists k'. split; [now right|exact Hk].
  Qed.
  Lemma present_in m k : In k (map fst m) -> lookup keqb m k <> None.
  Proof.
    intros H Hn. apply in_map_iff in H. destruct H as (e & <- & He).
    pose proof (proj2 (lookup_absent m (fst e)) Hn e He) as Hf. rewrite k_refl in Hf. discriminate.
  Qed.
  Lemma domain_included (m rhs : HashMap) : wf m -> wf rhs ->
    (forall k, In k (map fst m) -> lookup keqb rhs k <> None) ->
    (length m <= length rhs)%nat /\
    ((length rhs <= length m)%nat -> forall k, lookup keqb rhs k <> None -> lookup keqb m k <> None).
  Proof.
    intros Hm Hr Hin. destruct (pigeonhole (map fst m) (map fst rhs) Hm Hr) as [L1 L2].
    - intros a Ha. specialize (Hin a Ha). destruct (lookup keqb rhs a) as [v|] eqn:E; [|congruence].
      apply lookup_Some_in in E. destruct E as (k' & Hk' & E). exists k'. split; [apply in_map_iff; exists (k', v); auto|].
      now rewrite k_sym.
    - rewrite !map_length in *. split; [exact L1|]. intros H k Hk.
      destruct (lookup keqb rhs k) as [v|] eqn:E; [|congruence].
      apply lookup_Some_in in E. destruct E as (k' & Hk' & E).
      destruct (L2 H k') as (a & Ha & E1); [apply in_map_iff; exists (k', v); auto|].
      rewrite <- (lookup_same m _ _ (k_trans _ _ _ E1 E)). now apply present_in.
  Qed.
  Lemma eq_loop_spec eqv es rhs : exists b, eq_loop keqb (Some eqv) es rhs = Ret b /\
    (b = true <-> forall k v, In (k, v) es -> exists w, lookup keqb rhs k = Some w /\ eqv v w = true).
  Proof.
    induction es as [|[k v] r IH]; cbn [eq_loop of_option bind].
    - exists true. split; [reflexivity|]. split; [intros _ ? ? []|reflexivity].
    - destruct (lookup keqb rhs k) as [w|] eqn:E.
      + destruct (eqv v w) eqn:E2; cbn [negb].
        * destruct IH as (b & Hb & HH). exists b. split; [exact Hb|]. rewrite HH. split.
          -- intros H k' v' [Hin|Hin]; [injection Hin as <- <-; eauto|eauto].
          -- intros H k' v' Hin. apply H. now right.
        * exists false. split; [reflexivity|]. split; [discriminate|]. intros H.
          destruct (H k v (or_introl eq_refl)) as (w' & Hw & He). congruence.
      + exists false. split; [reflexivity|]. split; [discriminate|]. intros H.
        destruct (H k v (or_introl eq_refl)) as (w' & Hw & He). congruence.
  Qed.
  Lemma Eq_spec ord eqv m rhs : fair ord -> wf m -> wf rhs ->
    exists b, Eq keqb ord (Some eqv) m rhs = Ret b /\
      (b = true <-> forall k, agree eqv (lookup keqb m k) (lookup keqb rhs k)).
  Proof.
    intros Ho Hm Hr.
    assert ((forall k, agree eqv (lookup keqb m k) (lookup keqb rhs k)) -> length m = length rhs) as Hlen.
    { intros H.
      destruct (domain_included m rhs Hm Hr) as [L1 _].
      { intros k Hk. apply present_in in Hk. specialize (H k). destruct (lookup keqb m k), (lookup keqb rhs k); cbn in H; congruence || tauto. }
      destruct (domain_included rhs m Hr Hm) as [L2 _].
      { intros k Hk. apply present_in in Hk. specialize (H k). destruct (lookup keqb m k), (lookup keqb rhs k); cbn in H; congruence || tauto. }
      lia. }
    unfold Eq, Len. destruct (Z.of_nat (length m) =? Z.of_nat (length rhs)) eqn:E; cbn [negb].
    - apply Z.eqb_eq in E. destruct (eq_loop_spec eqv (ord m) rhs) as (b & Hb & HH).
      exists b. split; [exact Hb|]. rewrite HH. pose proof (proj2 (lookup_lists m Hm)) as Hl. split.
      + intros H k.
        assert (forall k v, In (k, v) m -> exists w, lookup keqb rhs k = Some w /\ eqv v w = true) as H'.
        { intros k0 v0 Hin. apply H. eapply Permutation_in; [apply Permutation_sym, Ho|exact Hin]. }
        destruct (domain_included m rhs Hm Hr) as [_ L2].
        { intros k0 Hk0. apply in_map_iff in Hk0. destruct Hk0 as ([k1 v1] & <- & Hin).
          destruct (H' _ _ Hin) as (w & Hw & _). cbn [fst]. congruence. }
        specialize (L2 ltac:(lia) k).
        destruct (lookup keqb m k) as [v|] eqn:Ek.
        * apply Hl in Ek. destruct Ek as (k' & Hin & Hk'). destruct (H' _ _ Hin) as (w & Hw & He).
          rewrite <- (lookup_same rhs _ _ Hk'), Hw. exact He.
        * destruct (lookup keqb rhs k); [exfalso; apply L2; congruence|exact I].
      + intros H k v Hin. apply (Permutation_in _ (Ho m)) in Hin.
        assert (lookup keqb m k = Some v) as Ek by (apply Hl; exists k; split; [exact Hin|apply k_refl]).
        specialize (H k). rewrite Ek in H. destruct (lookup keqb rhs k) as [w|]; [|destruct H]. eauto.
    - exists false. split; [reflexivity|]. split; [discriminate|]. intros H. apply Hlen in H. rewrite H, Z.eqb_refl in E. discriminate.
  Qed.
  Lemma Eq_no_trait ord m rhs : fair ord -> Len m = Len rhs ->
    (exists k, In k (map fst m) /\ lookup keqb rhs k <> None) ->
    Eq keqb ord None m rhs = Panic \/ Eq keqb ord None m rhs = Ret false.
  Proof.
    intros Ho HL (k & Hk & Hr). unfold Eq. rewrite HL, Z.eqb_refl. cbn [negb].
    assert (exists e, In e (ord m)) as (e & He).
    { apply in_map_iff in Hk. destruct Hk as (e & _ & He). exists e. eapply Permutation_in; [apply Permutation_sym, Ho|exact He]. }
    destruct (ord m) as [|[a v] r]; [destruct He|]. cbn [eq_loop]. destruct (lookup keqb rhs a); cbn; auto.
  Qed.

  (** *** Clone *)
  Lemma clone_loop_spec ck cv es : forall m, wf m ->
    exists m', clone_loop keqb (Some ck) (Some cv) es m = Ret m' /\ wf m' /\
      forall k, lookup keqb m' k = fold_left (fun f e => with_ keqb f (ck (fst e)) (cv (snd e))) es (lookup keqb m) k.
  Proof.
    induction es as [|[k v] r IH]; intros m Hw; cbn [clone_loop of_option bind fold_left fst snd].
    - exists m. auto.
    - destruct (IH (assign keqb m (ck k) (cv v)) (assign_wf _ _ _ Hw)) as (m' & E & Hw' & HH).
      exists m'. split; [exact E|]. split; [exact Hw'|]. intros x. rewrite HH.
      assert (forall es f g, (forall x, f x = g x) -> forall x,
        fold_left (fun f e => with_ keqb f (ck (fst e)) (cv (snd e))) es f x =
        fold_left (fun f e => with_ keqb f (ck (fst e)) (cv (snd e))) es g x) as Hext.
      { clear. induction es as [|e r IH]; intros f g H x; cbn [fold_left]; [apply H|].
        apply IH. intros y. unfold with_. now rewrite H. }
      apply Hext. intros y. apply lookup_assign.
  Qed.
  Lemma with_all_spec (cv : V -> V) ck es : (forall k, keqb (ck k) k = true) -> distinct keqb (map fst es) -> forall f k,
    fold_left (fun f e => with_ keqb f (ck (fst e)) (cv (snd e))) es f k =
    match lookup keqb es k with Some v => Some (cv v) | None => f k end.
  Proof.
    intros Hc. induction es as [|[a v] r IH]; intros Hd f k; cbn [fold_left lookup fst snd]; [reflexivity|].
    destruct Hd as [Ha Hd]. rewrite (IH Hd). unfold with_. rewrite (k_left _ _ k (Hc a)).
    destruct (keqb a k) eqn:E; [|reflexivity].
    destruct (lookup keqb r k) eqn:El; [|reflexivity].
    apply lookup_Some_in in El. destruct El as (k' & Hin & Hk).
    pose proof (Ha k' (in_map fst _ _ Hin)) as Hf. cbn [fst] in Hf. rewrite (k_right _ _ a Hk) in Hf. congruence.
  Qed.
  Lemma lookup_perm (m m' : HashMap) : wf m -> Permutation m m' -> forall k, lookup keqb m k = lookup keqb m' k.
  Proof.
    intros Hw P k. pose proof (lookup_lists m Hw) as L1.
    assert (wf m') as Hw' by (eapply distinct_perm; [apply Permutation_map, P|exact Hw]).
    pose proof (lookup_lists m' Hw') as L2. apply (lists_perm _ _ _ P) in L1.
    destruct L1 as [_ L1], L2 as [_ L2].
    destruct (lookup keqb m k) as [v|] eqn:E1.
    - apply L1 in E1. symmetry. now apply L2.
    - destruct (lookup keqb m' k) as [v|] eqn:E2; [|reflexivity]. apply L2, L1 in E2. congruence.
  Qed.
  Lemma Clone_spec ord ck cv m : fair ord -> wf m -> (forall k, keqb (ck k) k = true) ->
    exists m', Clone keqb ord (Some ck) (Some cv) m = Ret m' /\ wf m' /\
      forall k, lookup keqb m' k = match lookup keqb m k with Some v => Some (cv v) | None => None end.
  Proof.
    intros Ho Hw Hc. destruct (clone_loop_spec ck cv (ord m) [] I) as (m' & E & Hw' & HH).
    exists m'. split; [exact E|]. split; [exact Hw'|]. intros k. rewrite HH.
    rewrite with_all_spec; [|exact Hc|eapply distinct_perm; [apply Permutation_map, Permutation_sym, Ho|exact Hw]].
    now rewrite (lookup_perm m (ord m) Hw (Permutation_sym (Ho m))).
  Qed.
  Lemma Clone_missing ord ck cv m : fair ord -> ck = None \/ cv = None ->
    Clone keqb ord ck cv m = match m with [] => Ret [] | _ => Panic end.
  Proof.
    intros Ho Hc. unfold Clone. pose proof (Permutation_length (Ho m)) as HL.
    destruct m as [|e m]; destruct (ord _) as [|[a v] r]; cbn [length] in HL; try lia; cbn [clone_loop]; [reflexivity|].
    destruct Hc as [->| ->]; cbn [of_option bind]; [reflexivity|]. now destruct ck.
  Qed.

  (** *** Keys that are not == themselves *)
End Laws.

Section Nan.
  Context {K V : Type}.
  Variable keqb : K -> K -> bool.
  Hypothesis Hsym : forall a b, keqb a b = true -> keqb b a = true.
  Hypothesis Htrans : forall a b c, keqb a b = true -> keqb b c = true -> keqb a c = true.
  Lemma nan_equals_nothing k : keqb k k = false -> forall k', keqb k' k = false.
  Proof.
    intros H k'. destruct (keqb k' k) eqn:E; [|reflexivity].
    rewrite (Htrans _ _ _ (Hsym _ _ E) E) in H. discriminate.
  Qed.
  Lemma nan_lookup (m : HashMap K V) k : keqb k k = false -> lookup keqb m k = None.
  Proof.
    intros H. induction m as [|[a v] r IH]; cbn [lookup]; [reflexivity|].
    now rewrite (nan_equals_nothing k H).
  Qed.
  Lemma nan_assign (m : HashMap K V) k v : keqb k k = false -> assign keqb m k v = m ++ [(k, v)].
  Proof.
    intros H. induction m as [|[a w] r IH]; cbn [assign]; [reflexivity|].
    rewrite (nan_equals_nothing k H), IH. reflexivity.
  Qed.
  Lemma nan_delete (m : HashMap K V) k : keqb k k = false -> delete keqb m k = m.
  Proof.
    intros H. induction m as [|[a w] r IH]; cbn [delete]; [reflexivity|].
    rewrite (nan_equals_nothing k H), IH. reflexivity.
  Qed.
End Nan.
