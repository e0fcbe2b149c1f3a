(** IterShareProofs.v -- proofs for C107: iterators next to their containers. *)
From Verif Require Import Base BaseLemmas Effect VecModel VecSpec VecHistory VecProofs IterShareSpec IterShareModel.

Section Vec.
  Context {T : Type}.
  Variable zero : T.
  Variable extra : nat -> nat -> nat.
  Variable eqb deq : T -> T -> bool.
  Variable clone : T -> T.
  Notation mem := (mem T).
  Notation exec := (exec zero extra eqb deq clone).
  Notation step := (step zero eqb deq clone).

  (** A local operation that leaves the first n cells of the array alone. *)
  Definition keeps (n : nat) (m : mem) (s : slice) (m' : mem) (s' : slice) : Prop :=
    local m s m' s' /\ firstn n (nth (arr s) m' []) = firstn n (nth (arr s) m []) /\
    length (nth (arr s) m' []) = length (nth (arr s) m []).

  Lemma keeps_trans : forall n m s m1 s1 m2 s2, valid m s ->
    keeps n m s m1 s1 -> keeps n m1 s1 m2 s2 -> keeps n m s m2 s2.
  Proof.
    intros n m s m1 s1 m2 s2 [V _] (L1 & F1 & G1) (L2 & F2 & G2). split; [eapply local_trans; eauto|].
    destruct L1 as (_ & A1 & Lm & _). destruct L2 as (_ & _ & _ & G). destruct (Nat.eq_dec (arr s1) (arr s)) as [E|E].
    - rewrite E in F2, G2. split; congruence.
    - rewrite G by lia. auto.
  Qed.
  Lemma keeps_fresh : forall n m s m' s', local m s m' s' -> nth (arr s) m' [] = nth (arr s) m [] -> keeps n m s m' s'.
  Proof. intros n m s m' s' L E. split; [auto|now rewrite E]. Qed.
  Lemma keeps_append : forall n m s xs, valid m s -> n <= slen s ->
    let (m', s') := append zero extra m s xs in keeps n m s m' s'.
  Proof.
    intros n m s xs V H. pose proof (append_spec zero extra m s xs V) as A.
    destruct (append zero extra m s xs) as [m' s'] eqn:E. destruct A as (L & _ & _). split; [exact L|].
    unfold append in E. destruct V as [Va Vl]. unfold scap in Vl.
    destruct (slen s + length xs <=? length (array m s)) eqn:Q; inversion E; subst; clear E.
    - rewrite nth_list_set, Nat.eqb_refl, (proj2 (Nat.ltb_lt _ _) Va). cbn [andb].
      apply Nat.leb_le in Q. split.
      2:{ rewrite !app_length, firstn_length, skipn_length. unfold array in *. lia. }
      rewrite firstn_app, firstn_firstn, firstn_length. replace (Nat.min n (slen s)) with n by lia.
      replace (n - Nat.min (slen s) (length (array m s))) with 0 by lia. rewrite firstn_O, app_nil_r. reflexivity.
    - now rewrite nth_app_fresh.
  Qed.
  Lemma keeps_store : forall n m s d, valid m s -> length d = slen s -> firstn n d = firstn n (contents m s) ->
    keeps n m s (store m s d) s.
  Proof.
    intros n m s d V Ld F. split; [now apply store_spec|]. pose proof (contents_length m s V) as CL.
    unfold store. destruct V as [Va Vl]. rewrite nth_list_set, Nat.eqb_refl, (proj2 (Nat.ltb_lt _ _) Va). cbn [andb].
    split. 2:{ unfold scap, array in *. rewrite app_length, skipn_length. lia. }
    rewrite firstn_app, F, Ld. change (nth (arr s) m []) with (array m s).
    rewrite <- (firstn_skipn (slen s) (array m s)) at 2. rewrite firstn_app.
    change (firstn (slen s) (array m s)) with (contents m s). now rewrite CL.
  Qed.
  Lemma keeps_reslice : forall n m s k, valid m s -> k <= slen s -> keeps n m s m (reslice s k).
  Proof. intros. split; [now apply reslice_local|split; reflexivity]. Qed.

  Lemma firstn_seq_set : forall n (d : list T) i x, i < length d -> n <= i -> firstn n (seq_set d i x) = firstn n d.
  Proof.
    intros n d i x H H'. apply nth_error_ext. intros k. rewrite !nth_error_firstn.
    destruct (Nat.ltb_spec k n); [|reflexivity]. rewrite nth_error_seq_set by auto.
    destruct (Nat.eqb_spec k i); [lia|reflexivity].
  Qed.
  Lemma firstn_seq_insert : forall n (d : list T) i x, i <= length d -> n <= i -> firstn n (seq_insert d i x) = firstn n (d ++ [x]).
  Proof.
    intros n d i x H H'. unfold seq_insert. rewrite !firstn_app, firstn_firstn, firstn_length.
    replace (Nat.min n i) with n by lia. replace (n - Nat.min i (length d)) with 0 by lia.
    replace (n - length d) with 0 by lia. reflexivity.
  Qed.

  (** What one method call does to an array and to the variables that live in it. *)
  Definition frame (a n : nat) (m : mem) (vs : list slice) (o : @op T) (m' : mem) (vs' : list slice) : Prop :=
    length m <= length m' /\ firstn n (nth a m' []) = firstn n (nth a m []) /\
    length (nth a m' []) = length (nth a m []) /\
    forall u s', nth_error vs' u = Some s' -> arr s' = a ->
      exists s, nth_error vs u = Some s /\ arr s = a /\ leaves u o = false.

  Lemma frame_same : forall a n m vs o, (forall u s, nth_error vs u = Some s -> arr s = a -> leaves u o = false) -> frame a n m vs o m vs.
  Proof. intros a n m vs o H. split; [auto|]. split; [auto|]. split; [auto|]. eauto. Qed.
  Lemma frame_declare : forall a n m vs o m' s', a < length m -> arr s' = length m -> length m <= length m' ->
    (forall a, a < length m -> nth a m' [] = nth a m []) -> (forall u, leaves u o = false) ->
    frame a n m vs o m' (vs ++ [s']).
  Proof.
    intros a n m vs o m' s' Ha A L F Q. split; [auto|]. split; [now rewrite F|]. split; [now rewrite F|]. intros u s E Ea.
    destruct (Nat.ltb_spec u (length vs)) as [H|H].
    - rewrite nth_error_app1 in E by auto. eauto.
    - rewrite nth_error_app2 in E by auto. destruct (u - length vs) as [|[|k]]; try discriminate. cbn in E. inversion E; subst. lia.
  Qed.
  Lemma frame_assign : forall a n m vs o v s m' s', a < length m -> nth_error vs v = Some s -> local m s m' s' ->
    (arr s = a -> firstn n (nth a m' []) = firstn n (nth a m []) /\ length (nth a m' []) = length (nth a m [])) ->
    (forall u, leaves u o = true -> u = v /\ length m <= arr s') ->
    frame a n m vs o m' (list_set vs v s').
  Proof.
    intros a n m vs o v s m' s' Ha Hv (_ & A & L & F) K Q. split; [auto|].
    assert (KK : firstn n (nth a m' []) = firstn n (nth a m []) /\ length (nth a m' []) = length (nth a m [])).
    { destruct (Nat.eq_dec (arr s) a); [auto|split; now rewrite F by auto]. }
    destruct KK as [K1 K2]. split; [exact K1|]. split; [exact K2|]. clear K1 K2.
    - intros u t E Ea. rewrite nth_error_list_set in E. destruct (Nat.eqb_spec v u) as [<- | Nu].
      + destruct (Nat.ltb_spec v (length vs)); [|discriminate]. inversion E; subst. destruct A as [A|A]; [|lia].
        exists s. split; [auto|]. split; [auto|]. destruct (leaves v o) eqn:Lv; [|reflexivity]. destruct (Q v Lv); lia.
      + exists t. split; [auto|]. split; [auto|]. destruct (leaves u o) eqn:Lv; [|reflexivity]. destruct (Q u Lv); congruence.
  Qed.
  Lemma frame_keeps : forall a n m vs o v s m' s', a < length m -> nth_error vs v = Some s ->
    local m s m' s' -> (arr s = a -> keeps n m s m' s') ->
    (forall u, leaves u o = false) -> frame a n m vs o m' (list_set vs v s').
  Proof.
    intros a n m vs o v s m' s' Ha Hv L K Q. apply (frame_assign a n m vs o v s); auto.
    - intros E. destruct (K E) as (_ & F & G). now rewrite E in F, G.
    - intros u E. rewrite Q in E. discriminate.
  Qed.

  Lemma frame_in_place : forall a n m vs o v s m' d f, a < length m -> nth_error vs v = Some s -> valid m s ->
    in_place m s f = Ret m' -> f (contents m s) = Ret d -> length d = slen s ->
    (arr s = a -> firstn n d = firstn n (contents m s)) ->
    (forall u, leaves u o = false) -> frame a n m vs o m' vs.
  Proof.
    intros a n m vs o v s m' d f Ha Hv V E F Ld K Q. unfold in_place in E. rewrite F in E. cbn [bind] in E. inversion E; subst.
    rewrite <- (list_set_id _ vs v s Hv) at 2. apply (frame_keeps a n m vs o v s); auto.
    - now apply store_spec.
    - intros Ea. apply keeps_store; auto.
  Qed.

  Lemma exec_frame : forall m vs o m' vs' ans a n, separate (m, vs) -> exec (m, vs) o = Ret ((m', vs'), ans) -> a < length m ->
    (forall v s, nth_error vs v = Some s -> arr s = a -> disturbs (view (m, vs)) v n o = false) ->
    frame a n m vs o m' vs'.
  Proof.
    intros m vs o m' vs' ans a n Sep E Ha D.
    assert (VV : forall v s, nth_error vs v = Some s -> valid m s).
    { intros v s H. destruct Sep as [Fv _]. cbn in Fv. rewrite Forall_forall in Fv. apply Fv. eapply nth_error_In; eauto. }
    assert (VN : forall v s, nth_error vs v = Some s -> nth v (view (m, vs)) [] = contents m s).
    { intros v s H. apply nth_error_nth. now apply view_nth. }
    unfold VecHistory.exec in E.
    Ltac var1 v := let s := fresh "s" in let Hv := fresh "Hv" in
      match goal with vs : list slice, E : _ = Ret _ |- _ =>
        unfold var in E; cbn [snd] in E; destruct (nth_error vs v) as [s|] eqn:Hv; [|discriminate E]; cbn [of_option bind] in E end.
    destruct o.
    - pose proof (make_len_spec zero m 0) as C. unfold VecNew in E. destruct (make_len zero m 0) as [m1 s1].
      destruct C as (-> & A & V & C). inversion E; subst. cbn [fst snd]. apply frame_declare; auto.
      + rewrite app_length; lia. + intros; now apply nth_app_fresh.
    - pose proof (make_cap_spec zero m n0) as C. unfold VecWithCapacity in E. destruct (make_cap zero m n0) as [m1 s1].
      destruct C as (-> & A & V & C). inversion E; subst. cbn [fst snd]. apply frame_declare; auto.
      + rewrite app_length; lia. + intros; now apply nth_app_fresh.
    - pose proof (make_len_spec zero m n0) as C. unfold VecWithLen in E. destruct (make_len zero m n0) as [m1 s1].
      destruct C as (-> & A & V & C). inversion E; subst. cbn [fst snd]. apply frame_declare; auto.
      + rewrite app_length; lia. + intros; now apply nth_app_fresh.
    - var1 v. destruct (Clone_spec zero clone m s (VV _ _ Hv)) as (m1 & c & E1 & A & V & C & L & F).
      rewrite E1 in E. cbn [bind] in E. inversion E; subst. cbn [fst snd]. apply frame_declare; auto. lia.
    - var1 v. unfold Push in E. pose proof (append_spec zero extra m s [x] (VV _ _ Hv)) as L.
      pose proof (fun H => keeps_append n m s [x] (VV _ _ Hv) H) as K. destruct (append zero extra m s [x]) as [m1 s1]. destruct L as (L & _).
      inversion E; subst. apply (frame_keeps _ _ _ _ _ _ s); auto. intros Ea. apply K. specialize (D v s Hv Ea). cbn [disturbs] in D.
      rewrite Nat.eqb_refl, (VN _ _ Hv), contents_length in D by eauto. cbn [andb] in D. apply Nat.ltb_ge in D. exact D.
    - var1 v. destruct (Pop m s) as [[s1 y]| |] eqn:P; try discriminate E. cbn [bind fst snd] in E. inversion E; subst.
      unfold Pop in P. destruct (slen s =? 0) eqn:Z.
      + inversion P; subst. rewrite (list_set_id _ vs v s1 Hv). now apply frame_same.
      + destruct (idx (contents m' s) (slen s - 1)); try discriminate P. inversion P; subst.
        assert (L : keeps n m' s m' (reslice s (slen s - 1))) by (apply keeps_reslice; [eauto|lia]).
        apply (frame_keeps _ _ _ _ _ _ s); auto. apply L.
    - var1 v. unfold Insert in E. pose proof (VV _ _ Hv) as V. pose proof (contents_length m s V) as CL.
      pose proof (append_spec zero extra m s [x] V) as A.
      pose proof (fun H => keeps_append n m s [x] V H) as K. destruct (append zero extra m s [x]) as [m1 s1].
      destruct A as (L & C & Ln). unfold in_place in E. rewrite C in E. destruct (Nat.leb_spec i (length (contents m s))) as [Hi|Hi].
      2:{ rewrite insert_data_panic in E by auto. discriminate E. }
      rewrite insert_data in E by auto. cbn [bind fst snd] in E. inversion E; subst.
      assert (Li : length (seq_insert (contents m s) i x) = slen s1).
      { unfold seq_insert. rewrite app_length, firstn_length. cbn [length]. rewrite skipn_length, Ln. cbn [length]. lia. }
      apply (frame_keeps _ _ _ _ _ _ s); auto.
      + eapply local_trans; [exact L|]. apply store_spec; [apply L|exact Li].
      + intros Ea. specialize (D v s Hv Ea). cbn [disturbs] in D. rewrite Nat.eqb_refl in D. cbn [andb] in D. apply Nat.ltb_ge in D.
        eapply keeps_trans; [exact V|apply K; lia|]. apply keeps_store; [apply L|exact Li|]. rewrite C. now apply firstn_seq_insert.
    - var1 v. destruct (Get m s i); try discriminate E. cbn [bind] in E. inversion E; subst. now apply frame_same.
    - var1 v. destruct (GetUnchecked m s i); try discriminate E. cbn [bind] in E. inversion E; subst. now apply frame_same.
    - var1 v. pose proof (VV _ _ Hv) as V. pose proof (contents_length m s V) as CL. unfold Set_, Len in E.
      destruct (Nat.leb_spec (slen s) i) as [H|H].
      + destruct (idx (contents m s) i); try discriminate E. cbn [bind fst snd] in E. inversion E; subst. now apply frame_same.
      + destruct (in_place m s (fun d => upd d i x)) as [m1| |] eqn:P; try discriminate E. cbn [bind fst snd] in E. inversion E; subst.
        apply (frame_in_place a n m vs' _ v s m' (seq_set (contents m s) i x) _ Ha Hv V P); auto.
        * apply upd_seq_set. lia. * rewrite seq_set_length; lia.
        * intros Ea. specialize (D v s Hv Ea). cbn [disturbs] in D. rewrite Nat.eqb_refl in D. cbn [andb] in D. apply Nat.ltb_ge in D.
          apply firstn_seq_set; lia.
    - var1 v. pose proof (VV _ _ Hv) as V. pose proof (contents_length m s V) as CL. unfold SetUnchecked in E.
      destruct (in_place m s (fun d => upd d i x)) as [m1| |] eqn:P; try discriminate E. cbn [bind fst snd] in E. inversion E; subst.
      assert (H : i < slen s). { destruct (Nat.ltb_spec i (slen s)); [auto|]. unfold in_place, upd in P. rewrite CL in P.
        destruct (Nat.ltb_spec i (slen s)); [lia|discriminate P]. }
      apply (frame_in_place a n m vs' _ v s m' (seq_set (contents m s) i x) _ Ha Hv V P); auto.
      + apply upd_seq_set. lia. + rewrite seq_set_length; lia.
      + intros Ea. specialize (D v s Hv Ea). cbn [disturbs] in D. rewrite Nat.eqb_refl in D. cbn [andb] in D. apply Nat.ltb_ge in D.
        apply firstn_seq_set; lia.
    - var1 v. pose proof (VV _ _ Hv) as V. pose proof (contents_length m s V) as CL. unfold Swap in E.
      destruct (in_place m s (fun d => swap_data d i j)) as [m1| |] eqn:P; try discriminate E. cbn [bind fst snd] in E. inversion E; subst.
      destruct (nth_error (contents m s) i) as [x|] eqn:Hi.
      2:{ unfold in_place in P. rewrite swap_data_panic in P by auto. discriminate P. }
      destruct (nth_error (contents m s) j) as [y|] eqn:Hj.
      2:{ unfold in_place in P. rewrite swap_data_panic in P by auto. discriminate P. }
      assert (Li : i < length (contents m s)) by (apply nth_error_Some; congruence).
      assert (Lj : j < length (contents m s)) by (apply nth_error_Some; congruence).
      apply (frame_in_place a n m vs' _ v s m' (seq_set (seq_set (contents m s) i y) j x) _ Ha Hv V P); auto.
      + now apply swap_data_spec. + rewrite !seq_set_length; rewrite ?seq_set_length; auto.
      + intros Ea. specialize (D v s Hv Ea). cbn [disturbs] in D. rewrite Nat.eqb_refl in D. cbn [andb] in D.
        apply Bool.orb_false_iff in D. destruct D as [D1 D2]. apply Nat.ltb_ge in D1, D2.
        rewrite firstn_seq_set by (rewrite ?seq_set_length; auto). now apply firstn_seq_set.
    - var1 v. destruct (nth_error vs w) as [t|] eqn:Hw; [|discriminate E]. cbn [of_option bind] in E. unfold Append in E.
      pose proof (append_spec zero extra m s (contents m t) (VV _ _ Hv)) as L.
      pose proof (fun H => keeps_append n m s (contents m t) (VV _ _ Hv) H) as K.
      destruct (append zero extra m s (contents m t)) as [m1 s1]. destruct L as (L & _).
      pose proof (make_len_spec zero m1 0) as C0. destruct (make_len zero m1 0) as [m2 t2]. destruct C0 as (Em & Ea2 & V2 & C2).
      inversion E; subst.
      assert (F1 : frame a n m vs (OPush v zero) m1 (list_set vs v s1)).
      { apply (frame_keeps _ _ _ _ _ _ s); auto. intros Ea. apply K. specialize (D v s Hv Ea). cbn [disturbs] in D.
        rewrite Nat.eqb_refl, (VN _ _ Hv), contents_length in D by eauto. cbn [andb] in D. apply Nat.ltb_ge in D. exact D. }
      destruct F1 as (F1 & F2 & F4 & F3). split; [rewrite app_length; lia|]. split; [rewrite nth_app_fresh by lia; exact F2|].
      split; [rewrite nth_app_fresh by lia; exact F4|].
      intros u q Hu Eq. rewrite nth_error_list_set in Hu. destruct (Nat.eqb_spec w u) as [<- | Nu].
      + destruct (Nat.ltb_spec w (length (list_set vs v s1))); [|discriminate]. inversion Hu; subst. lia.
      + destruct (F3 u q Hu Eq) as (s0 & A1 & A2 & _). exists s0. split; [auto|]. split; [auto|]. cbn [leaves]. now apply Nat.eqb_neq.
    - var1 v. unfold Clear in E. pose proof (make_len_spec zero m 0) as C. destruct (make_len zero m 0) as [m1 s1].
      destruct C as (Em & A & V & C). inversion E; subst.
      assert (L : local m s (m ++ [repeat zero 0]) s1) by (apply fresh_local; auto).
      apply (frame_assign _ _ _ _ _ _ s); auto.
      + intros _. split; now rewrite nth_app_fresh.
      + intros u Q. cbn [leaves] in Q. apply Nat.eqb_eq in Q. lia.
    - var1 v. inversion E; subst. now apply frame_same.
    - var1 v. inversion E; subst. now apply frame_same.
    - var1 v. inversion E; subst. now apply frame_same.
    - var1 v. pose proof (VV _ _ Hv) as V. unfold Reverse in E.
      destruct (in_place m s reverse_data) as [m1| |] eqn:P; try discriminate E. cbn [bind fst snd] in E. inversion E; subst.
      apply (frame_in_place a n m vs' _ v s m' (rev (contents m s)) _ Ha Hv V P); auto.
      + apply reverse_data_spec. + rewrite rev_length. now apply contents_length.
      + intros Ea. specialize (D v s Hv Ea). cbn [disturbs] in D. rewrite Nat.eqb_refl in D. destruct n; [reflexivity|discriminate].
    - var1 v. pose proof (Retain_spec zero extra m s p (VV _ _ Hv)) as A.
      assert (Fr : let (m1, s1) := Retain zero extra m s p in length m <= arr s1 /\ nth (arr s) m1 [] = nth (arr s) m []).
      { clear A E. unfold Retain. pose proof (make_cap_spec zero m (slen s)) as C. destruct (make_cap zero m (slen s)) as [m1 k].
        destruct C as (Em & Ea & V1 & _). pose proof (retain_loop zero extra p (contents m s) m1 k V1) as R.
        destruct (fold_left _ (contents m s) (m1, k)) as [m2 k2]. destruct R as ((_ & R1 & R2 & R3) & _). destruct (VV _ _ Hv) as [Va _].
        assert (length m1 = S (length m)) by (rewrite Em, app_length; cbn; lia).
        split; [lia|]. rewrite R3 by lia. rewrite Em. now apply nth_app_fresh. }
      destruct (Retain zero extra m s p) as [m1 s1]. destruct A as (L & C). destruct Fr as (Fa & Fn). inversion E; subst.
      apply (frame_assign _ _ _ _ _ _ s); auto.
      + intros <-. split; now rewrite Fn.
      + intros u Q. cbn [leaves] in Q. apply Nat.eqb_eq in Q. lia.
    - var1 v. pose proof (VV _ _ Hv) as V. pose proof (contents_length m s V) as CL. unfold Dedup in E.
      destruct (Nat.leb_spec (slen s) 1) as [H|H].
      + cbn [bind fst snd] in E. inversion E; subst. rewrite (list_set_id _ vs v s Hv). now apply frame_same.
      + destruct (contents m s) as [|x l] eqn:Ec; [cbn in CL; lia|]. cbn [length] in CL.
        destruct (dedup_data_spec deq x l) as (e & E1 & E2 & E3). rewrite E1 in E. cbn [bind fst snd] in E. inversion E; subst.
        assert (Le : length e = slen s) by lia.
        assert (Lk : length (dedup_after deq x l) + 1 <= slen s).
        { rewrite <- CL. clear. revert x. induction l; intros; cbn; [lia|]. destruct (deq x a); [specialize (IHl x)|specialize (IHl a)]; cbn; lia. }
        destruct (store_spec m s e V Le) as [L1 _].
        apply (frame_keeps _ _ _ _ _ _ s); auto.
        * eapply local_trans; [exact L1|]. apply reslice_local; [exact (proj1 L1) | auto].
        * intros Ea. specialize (D v s Hv Ea). cbn [disturbs] in D. rewrite Nat.eqb_refl in D. destruct n; [|discriminate]. eapply keeps_trans; [exact V|apply (keeps_store 0 m s e); auto|]. apply keeps_reslice; [exact (proj1 L1) | auto].
    - var1 v. pose proof (VV _ _ Hv) as V. unfold Fill in E.
      destruct (in_place m s (fill_data x)) as [m1| |] eqn:P; try discriminate E. cbn [bind fst snd] in E. inversion E; subst.
      apply (frame_in_place a n m vs' _ v s m' (map (fun _ => x) (contents m s)) _ Ha Hv V P); auto.
      + apply fill_data_spec. + rewrite map_length. now apply contents_length.
      + intros Ea. specialize (D v s Hv Ea). cbn [disturbs] in D. rewrite Nat.eqb_refl in D. destruct n; [reflexivity|discriminate].
    - var1 v. destruct (nth_error vs w) as [t|] eqn:Hw; [|discriminate E]. cbn [of_option bind] in E.
      destruct (Eq (Some eqb) m s t); try discriminate E. cbn [bind] in E. inversion E; subst. now apply frame_same.
  Qed.

  Lemma disturbs_0 : forall s v (o : @op T), disturbs s v 0 o = false.
  Proof. intros s v o. destruct o; cbn [disturbs]; try reflexivity; try (apply Bool.andb_false_r). Qed.

  (** *** The calm programs *)
  Definition tracks (w : world (T := T)) (watched : list (nat * nat)) (it : viter) (sn : list T * nat) : Prop :=
    valid (fst w) (ivec it) /\ contents (fst w) (ivec it) = fst sn /\ ipos it = Nat.min (snd sn) (slen (ivec it)) /\
    forall v s, nth_error (snd w) v = Some s -> arr s = arr (ivec it) -> In (v, slen (ivec it)) watched.

  Lemma contents_frame : forall (m m' : mem) s, valid m s ->
    length m <= length m' -> firstn (slen s) (nth (arr s) m' []) = firstn (slen s) (nth (arr s) m []) ->
    length (nth (arr s) m' []) = length (nth (arr s) m []) -> valid m' s /\ contents m' s = contents m s.
  Proof.
    intros m m' s [V1 V2] L F G. unfold valid, contents, scap, array in *. split; [lia|exact F].
  Qed.

  Lemma tracks_step : forall w o w' a watched it sn, separate w -> exec w o = Ret (w', a) ->
    (forall v n, In (v, n) watched -> disturbs (view w) v n o = false) ->
    tracks w watched it sn -> tracks w' (filter (fun w => negb (leaves (fst w) o)) watched) it sn.
  Proof.
    intros [m vs] o [m' vs'] a watched it sn Sep E D (V & C & P & W). cbn [fst snd] in *.
    destruct (exec_frame m vs o m' vs' a (arr (ivec it)) (slen (ivec it)) Sep E (proj1 V)) as (F1 & F2 & F3 & F4).
    { intros v s Hv Ea. apply D. now apply (W v s). }
    destruct (contents_frame m m' (ivec it) V F1 F2 F3) as [V' C'].
    split; [exact V'|]. cbn [fst snd]. split; [congruence|]. split; [exact P|]. intros u s' Hu Ea.
    destruct (F4 u s' Hu Ea) as (s & Hs & As & Lv). apply filter_In. split; [now apply (W u s)|]. cbn [fst]. now rewrite Lv.
  Qed.

  Lemma next_tracks : forall w watched it sn, tracks w watched it sn -> exists it',
    VIter_Next (fst w) it = Ret (it', nth_error (fst sn) (snd sn)) /\ tracks w watched it' (fst sn, S (snd sn)).
  Proof.
    intros [m vs] watched it [l n] (V & C & P & W). cbn [fst snd] in *. pose proof (contents_length m _ V) as CL. rewrite C in CL.
    unfold VIter_Next, Len, GetUnchecked. destruct (Nat.leb_spec (slen (ivec it)) (ipos it)) as [H|H].
    - exists it. split; [rewrite (proj2 (nth_error_None l n)) by lia; reflexivity|]. split; [exact V|]. cbn [fst snd]. split; [exact C|]. split; [lia|exact W].
    - replace (ipos it) with n by lia. rewrite C. destruct (nth_error l n) as [x|] eqn:Hx; [|apply nth_error_None in Hx; lia].
      rewrite (idx_nth_error _ _ _ Hx). cbn [bind]. eexists. split; [reflexivity|]. split; [exact V|]. cbn [fst snd ivec ipos].
      split; [exact C|]. split; [lia|exact W].
  Qed.

  Lemma Forall2_impl : forall A B (P Q : A -> B -> Prop) l l', (forall a b, P a b -> Q a b) -> Forall2 P l l' -> Forall2 Q l l'.
  Proof. induction 2; constructor; auto. Qed.
  Lemma Forall2_nth1 : forall A B (R : A -> B -> Prop) l l', Forall2 R l l' -> forall k y, nth_error l' k = Some y ->
    exists x, nth_error l k = Some x /\ R x y.
  Proof.
    induction 1 as [|x y l l' H F IH]; intros [|k] z E; cbn in E; try discriminate.
    - inversion E; subst. exists x. auto.
    - apply IH. exact E.
  Qed.
  Lemma Forall2_nth_none : forall A B (R : A -> B -> Prop) l l', Forall2 R l l' -> forall k, nth_error l' k = None -> nth_error l k = None.
  Proof. induction 1; intros [|k] E; cbn in *; try discriminate; auto. Qed.
  Lemma Forall2_set : forall A B (R : A -> B -> Prop) l l', Forall2 R l l' -> forall k x y, R x y -> k < length l' ->
    Forall2 R (list_set l k x) (firstn k l' ++ y :: skipn (S k) l').
  Proof.
    induction 1 as [|x y l l' H F IH]; intros [|k] a b Rab L; cbn [length] in L; try lia.
    - cbn. constructor; auto.
    - cbn [firstn skipn list_set]. cbn [app]. constructor; [auto|]. apply IH; [auto|lia].
  Qed.

  Lemma answers_cons : forall (r : out (iworld (T := T) * list (answer (T := T)))) a o, answers r = o ->
    answers (q <- r ;; Ret (fst q, a :: snd q)) = match o with Some l => Some (a :: l) | None => None end.
  Proof. intros r a o <-. destruct r as [[st l]| |]; reflexivity. Qed.

  Lemma calm_run : forall prog w its watched (snaps : list (snapshot (T := T))), separate w -> Forall2 (tracks w watched) its snaps ->
    calm zero eqb deq clone (view w) watched prog ->
    answers (irun zero extra eqb deq clone (w, its) prog) = ideal zero eqb deq clone (view w, snaps) prog.
  Proof.
    induction prog as [|o prog IH]; intros w its watched snaps Sep F Q; [reflexivity|].
    destruct o as [o|v|k]; cbn [irun ideal ideal_step iexec calm] in *.
    - destruct Q as [D Q]. pose proof (exec_step zero extra eqb deq clone w o Sep) as E.
      destruct (step (view w) o) as [[s' a]|]; [|now rewrite E].
      destruct E as (w' & E & Sep' & V). rewrite E. cbn [bind fst snd].
      specialize (IH w' its (filter (fun w => negb (leaves (fst w) o)) watched) snaps Sep').
      rewrite V in IH. apply answers_cons, IH; [clear IH|exact Q].
      + eapply Forall2_impl; [|exact F]. intros it sn. now apply (tracks_step w o w' a).
    - unfold var. destruct w as [m vs]. cbn [snd] in *. destruct (nth_error vs v) as [s|] eqn:Hv.
      2:{ rewrite (view_none m vs v Hv). reflexivity. }
      rewrite (view_nth m vs v s Hv). cbn [of_option bind fst snd].
      assert (Vs : valid m s).
      { destruct Sep as [Fv _]. cbn in Fv. rewrite Forall_forall in Fv. apply Fv. eapply nth_error_In; eauto. }
      assert (VN : nth v (view (m, vs)) [] = contents m s) by (apply nth_error_nth; now apply view_nth).
      rewrite VN, contents_length in Q by exact Vs.
      specialize (IH (m, vs) (its ++ [Vec_IntoIter s]) ((v, slen s) :: watched) (snaps ++ [(contents m s, 0)]) Sep).
      apply answers_cons, IH; [clear IH|exact Q].
      + apply Forall2_app.
        * eapply Forall2_impl; [|exact F]. intros it sn (T1 & T2 & T3 & T4). split; [exact T1|]. split; [exact T2|]. split; [exact T3|].
          intros u t Hu Ea. right. eauto.
        * constructor; [|constructor]. split; [exact Vs|]. cbn [fst snd Vec_IntoIter ivec ipos]. split; [reflexivity|]. split; [reflexivity|].
          intros u t Hu Ea. left. f_equal. destruct Sep as [_ Nd]. cbn [snd] in Nd. rewrite NoDup_nth_error in Nd. apply Nd.
          { rewrite map_length. apply nth_error_Some. congruence. }
          rewrite !nth_error_map, Hu, Hv. cbn. congruence.
    - destruct (nth_error snaps k) as [[l n]|] eqn:Hk.
      2:{ rewrite (Forall2_nth_none _ _ _ _ _ F k Hk). reflexivity. }
      destruct (Forall2_nth1 _ _ _ _ _ F k _ Hk) as (it & Hit & R). rewrite Hit. cbn [of_option bind].
      destruct (next_tracks w watched it (l, n) R) as (it' & E & R'). cbn [fst snd] in E, R'. rewrite E. cbn [bind fst snd].
      specialize (IH w (list_set its k it') watched (firstn k snaps ++ (l, S n) :: skipn (S k) snaps) Sep).
      apply answers_cons, IH; [clear IH|exact Q].
      + apply Forall2_set; [exact F|exact R'|]. apply nth_error_Some. congruence.
  Qed.

  (** *** Any program *)
  Definition counts (w : world (T := T)) (it : viter) (sn : list T * nat) : Prop :=
    valid (fst w) (ivec it) /\ length (fst sn) = slen (ivec it) /\ ipos it = Nat.min (snd sn) (slen (ivec it)).

  Lemma counts_step : forall w o w' a it sn, separate w -> exec w o = Ret (w', a) -> counts w it sn -> counts w' it sn.
  Proof.
    intros [m vs] o [m' vs'] a it sn Sep E (V & C & P). cbn [fst snd] in *.
    destruct (exec_frame m vs o m' vs' a (arr (ivec it)) 0 Sep E (proj1 V)) as (F1 & _ & F3 & _).
    { intros v s Hv Ea. apply disturbs_0. }
    split; [|auto]. destruct V as [V1 V2]. unfold valid, scap, array in *. cbn [fst]. split; [lia|congruence].
  Qed.

  Lemma next_counts : forall w it sn, counts w it sn -> exists it' b,
    VIter_Next (fst w) it = Ret (it', b) /\ (b = None <-> nth_error (fst sn) (snd sn) = None) /\ counts w it' (fst sn, S (snd sn)).
  Proof.
    intros [m vs] it [l n] (V & C & P). cbn [fst snd] in *. pose proof (contents_length m _ V) as CL.
    unfold VIter_Next, Len, GetUnchecked. destruct (Nat.leb_spec (slen (ivec it)) (ipos it)) as [H|H].
    - exists it, None. split; [reflexivity|]. split; [rewrite (proj2 (nth_error_None l n)) by lia; tauto|].
      split; [exact V|]. cbn [fst snd]. split; [exact C|lia].
    - destruct (nth_error (contents m (ivec it)) (ipos it)) as [x|] eqn:Hx; [|apply nth_error_None in Hx; lia].
      rewrite (idx_nth_error _ _ _ Hx). cbn [bind]. eexists _, _. split; [reflexivity|]. split.
      + split; [discriminate|]. intros N. apply nth_error_None in N. lia.
      + split; [exact V|]. cbn [fst snd ivec ipos]. split; [exact C|lia].
  Qed.

  Lemma any_run : forall prog (s0 : vectors (T := T)) w its (snaps : list (snapshot (T := T))), view w = s0 -> separate w -> Forall2 (counts w) its snaps ->
    match ideal zero eqb deq clone (s0, snaps) prog with
    | Some l => exists st l', irun zero extra eqb deq clone (w, its) prog = Ret (st, l') /\ alike prog l' l
    | None => irun zero extra eqb deq clone (w, its) prog = Panic
    end.
  Proof.
    induction prog as [|o prog IH]; intros s0 w its snaps Vw Sep F; [exists (w, its), []; split; [reflexivity|exact I]|].
    destruct o as [o|v|k]; cbn [irun ideal ideal_step iexec alike] in *.
    - pose proof (exec_step zero extra eqb deq clone w o Sep) as E. rewrite Vw in E.
      destruct (step s0 o) as [[s' a]|]; [|now rewrite E].
      destruct E as (w' & E & Sep' & V). rewrite E. cbn [bind fst snd].
      assert (F' : Forall2 (counts w') its snaps).
      { eapply Forall2_impl; [|exact F]. intros it sn. now apply (counts_step w o w' a). }
      specialize (IH s' w' its snaps V Sep' F').
      destruct (ideal zero eqb deq clone (s', snaps) prog) as [l|].
      + destruct IH as (st & l' & R & A).
        rewrite R. cbn [bind fst snd]. exists st, (a :: l'). auto.
      + rewrite IH. reflexivity.
    - unfold var. destruct w as [m vs]. cbn [snd] in *. destruct (nth_error vs v) as [s|] eqn:Hv.
      2:{ rewrite <- Vw, (view_none m vs v Hv). reflexivity. }
      rewrite <- Vw, (view_nth m vs v s Hv), Vw. cbn [of_option bind fst snd].
      assert (Vs : valid m s).
      { destruct Sep as [Fv _]. cbn in Fv. rewrite Forall_forall in Fv. apply Fv. eapply nth_error_In; eauto. }
      assert (F' : Forall2 (counts (m, vs)) (its ++ [Vec_IntoIter s]) (snaps ++ [(contents m s, 0)])).
      { apply Forall2_app; [exact F|]. constructor; [|constructor]. split; [exact Vs|]. cbn [fst snd Vec_IntoIter ivec ipos].
        split; [now apply contents_length|reflexivity]. }
      specialize (IH s0 (m, vs) _ _ Vw Sep F').
      destruct (ideal zero eqb deq clone (s0, snaps ++ [(contents m s, 0)]) prog) as [l|].
      + destruct IH as (st & l' & R & A). rewrite R. cbn [bind fst snd]. exists st, (Done :: l'). auto.
      + rewrite IH. reflexivity.
    - destruct (nth_error snaps k) as [[l n]|] eqn:Hk.
      2:{ rewrite (Forall2_nth_none _ _ _ _ _ F k Hk). reflexivity. }
      destruct (Forall2_nth1 _ _ _ _ _ F k _ Hk) as (it & Hit & R). rewrite Hit. cbn [of_option bind].
      destruct (next_counts w it (l, n) R) as (it' & b & E & B & R'). cbn [fst snd] in E, B, R'. rewrite E. cbn [bind fst snd].
      assert (F' : Forall2 (counts w) (list_set its k it') (firstn k snaps ++ (l, S n) :: skipn (S k) snaps)).
      { apply Forall2_set; [exact F|exact R'|]. apply nth_error_Some. congruence. }
      specialize (IH s0 w _ _ Vw Sep F').
      destruct (ideal zero eqb deq clone (s0, firstn k snaps ++ (l, S n) :: skipn (S k) snaps) prog) as [q|].
      + destruct IH as (st & l' & R0 & A). rewrite R0. cbn [bind fst snd]. exists st, (Value b :: l'). auto.
      + rewrite IH. reflexivity.
  Qed.

  (** *** The steady programs *)
  Lemma exec_header : forall m vs o m' vs' a v s, exec (m, vs) o = Ret ((m', vs'), a) -> resizes v o = false ->
    nth_error vs v = Some s -> nth_error vs' v = Some s.
  Proof.
    intros m vs o m' vs' a v s E R H. unfold VecHistory.exec in E.
    assert (Snoc : forall x, nth_error (vs ++ [x]) v = Some s).
    { intros x. rewrite nth_error_app1; [exact H|]. apply nth_error_Some. congruence. }
    assert (Other : forall u t, (u =? v) = false -> nth_error (list_set vs u t) v = Some s).
    { intros u t N. apply Nat.eqb_neq in N. rewrite nth_error_list_set_neq; auto. }
    destruct o; cbn [resizes] in R;
      repeat match goal with
      | E : bind ?x _ = Ret _ |- _ => destruct x eqn:?; cbn [bind] in E; try discriminate E
      | E : (let (_, _) := ?x in _) = Ret _ |- _ => destruct x eqn:?
      end; try (inversion E; subst; cbn [fst snd]; auto; fail).
    - inversion E; subst. apply Bool.orb_false_iff in R. destruct R as [R1 R2]. apply Nat.eqb_neq in R2.
      rewrite nth_error_list_set_neq by auto. auto.
  Qed.

  Definition reads (w : world (T := T)) (watched : list nat) (it : viter) (p : nat * nat) : Prop :=
    nth_error (snd w) (fst p) = Some (ivec it) /\ ipos it = Nat.min (snd p) (slen (ivec it)) /\ In (fst p) watched.

  Lemma steady_run : forall prog (s0 : vectors (T := T)) w its watched (ps : list (nat * nat)), view w = s0 -> separate w -> Forall2 (reads w watched) its ps ->
    steady watched prog -> answers (irun zero extra eqb deq clone (w, its) prog) = live zero eqb deq clone (s0, ps) prog.
  Proof.
    induction prog as [|o prog IH]; intros s0 w its watched ps Vw Sep F Q; [reflexivity|].
    destruct o as [o|v|k]; cbn [irun live live_step iexec steady] in *.
    - destruct Q as [D Q]. pose proof (exec_step zero extra eqb deq clone w o Sep) as E. rewrite Vw in E.
      destruct (step s0 o) as [[s' a]|]; [|now rewrite E].
      destruct E as (w' & E & Sep' & V). rewrite E. cbn [bind fst snd].
      apply answers_cons, (IH s' w' its watched ps V Sep'); [clear IH|exact Q].
      eapply Forall2_impl; [|exact F]. intros it p (R1 & R2 & R3). split; [|auto]. destruct w as [m vs], w' as [m' vs'].
      apply (exec_header m vs o m' vs' a); auto.
    - unfold var. destruct w as [m vs]. cbn [snd] in *. destruct (nth_error vs v) as [s|] eqn:Hv.
      2:{ rewrite <- Vw, (view_none m vs v Hv). reflexivity. }
      rewrite <- Vw, (view_nth m vs v s Hv), Vw. cbn [of_option bind fst snd].
      apply answers_cons, (IH s0 (m, vs) _ (v :: watched)); [exact Vw|exact Sep| |exact Q]. apply Forall2_app.
      + eapply Forall2_impl; [|exact F]. intros it p (R1 & R2 & R3). split; [auto|]. split; [auto|]. right. auto.
      + constructor; [|constructor]. split; [exact Hv|]. split; [reflexivity|]. left. reflexivity.
    - destruct (nth_error ps k) as [[v n]|] eqn:Hk.
      2:{ rewrite (Forall2_nth_none _ _ _ _ _ F k Hk). reflexivity. }
      destruct (Forall2_nth1 _ _ _ _ _ F k _ Hk) as (it & Hit & (R1 & R2 & R3)). rewrite Hit. cbn [of_option bind fst snd] in *.
      destruct w as [m vs]. cbn [fst snd] in *.
      assert (Vs : valid m (ivec it)).
      { destruct Sep as [Fv _]. cbn in Fv. rewrite Forall_forall in Fv. apply Fv. eapply nth_error_In; eauto. }
      assert (VN : nth v s0 [] = contents m (ivec it)) by (rewrite <- Vw; apply nth_error_nth; now apply view_nth).
      rewrite VN. pose proof (contents_length m _ Vs) as CL.
      assert (E : exists it', VIter_Next m it = Ret (it', nth_error (contents m (ivec it)) n) /\ ivec it' = ivec it /\ ipos it' = Nat.min (S n) (slen (ivec it))).
      { unfold VIter_Next, Len, GetUnchecked. destruct (Nat.leb_spec (slen (ivec it)) (ipos it)) as [H|H].
        - exists it. rewrite (proj2 (nth_error_None (contents m (ivec it)) n)) by lia. split; [reflexivity|]. split; [reflexivity|lia].
        - replace (ipos it) with n by lia. destruct (nth_error (contents m (ivec it)) n) as [x|] eqn:Hx; [|apply nth_error_None in Hx; lia].
          rewrite (idx_nth_error _ _ _ Hx). cbn [bind]. eexists. split; [reflexivity|]. cbn [ivec ipos]. split; [reflexivity|lia]. }
      destruct E as (it' & E & E1 & E2). rewrite E. cbn [bind fst snd].
      apply answers_cons, (IH s0 (m, vs) _ watched); [exact Vw|exact Sep| |exact Q].
      apply Forall2_set; [exact F| |apply nth_error_Some; congruence].
      split; [cbn [fst snd]; congruence|]. split; [cbn [snd]; congruence|exact R3].
  Qed.

  (** *** Iterators with a Vec of their own *)
  Lemma pushes_spec : forall xs (m : mem) s, valid m s ->
    let (m', s') := fold_left (fun p x => Push zero extra (fst p) (snd p) x) xs (m, s) in
    local m s m' s' /\ contents m' s' = contents m s ++ xs.
  Proof.
    induction xs as [|x xs IH]; intros m s V; cbn [fold_left].
    - split; [now apply local_refl|now rewrite app_nil_r].
    - cbn [fst snd]. unfold Push. pose proof (append_spec zero extra m s [x] V) as A.
      destruct (append zero extra m s [x]) as [m1 s1]. destruct A as (L1 & C1 & _). specialize (IH m1 s1 (proj1 L1)).
      destruct (fold_left _ xs (m1, s1)) as [m2 s2]. destruct IH as (L2 & C2). split; [eapply local_trans; eauto|].
      rewrite C2, C1, <- app_assoc. reflexivity.
  Qed.
  Lemma Buf_spec : forall w xs, separate w -> let (m', it) := Buf_IntoIter zero extra (fst w) xs in
    separate (m', snd w) /\ view (m', snd w) = view w /\ valid m' (ivec it) /\ contents m' (ivec it) = xs /\ ipos it = 0 /\
    slen (ivec it) = length xs /\ forall v s, nth_error (snd w) v = Some s -> arr s <> arr (ivec it).
  Proof.
    intros [m vs] xs [Va Nd]. cbn [fst snd] in *. unfold Buf_IntoIter. pose proof (make_len_spec zero m 0) as M.
    destruct (make_len zero m 0) as [m0 s0]. destruct M as (-> & A0 & V0 & C0). pose proof (pushes_spec xs _ s0 V0) as P.
    destruct (fold_left _ xs _) as [m' s']. destruct P as ((V & A & L & F) & C). cbn [Vec_IntoIter ivec ipos].
    rewrite app_length in *. cbn [length] in *. rewrite C0 in C. cbn [repeat app] in C.
    assert (Old : forall a, a < length m -> nth a m' [] = nth a m []).
    { intros a Ha. rewrite F by lia. now rewrite app_nth1. }
    assert (Vs : forall s, In s vs -> valid m' s /\ contents m' s = contents m s /\ arr s < length m).
    { intros s Hs. rewrite Forall_forall in Va. destruct (Va s Hs) as [V1 V2]. unfold valid, contents, scap, array in *.
      rewrite (Old _ V1). repeat split; auto. lia. }
    split; [split; cbn [fst snd]; [apply Forall_forall; intros s Hs; now apply Vs|exact Nd]|].
    split; [unfold view; cbn [fst snd]; apply map_ext_in; intros s Hs; now apply Vs|].
    split; [exact V|]. split; [exact C|]. split; [reflexivity|]. split.
    - rewrite <- C. unfold contents. rewrite firstn_length. destruct V as [_ V]. unfold scap in V. lia.
    - intros v s Hs. apply nth_error_In, Vs in Hs. destruct A as [A|A]; lia.
  Qed.
  Lemma Buf_run : forall w xs prog, separate w -> calm zero eqb deq clone (view w) [] prog ->
    let (m', it) := Buf_IntoIter zero extra (fst w) xs in
    answers (irun zero extra eqb deq clone (m', snd w, [it]) prog) = ideal zero eqb deq clone (view w, [(xs, 0)]) prog.
  Proof.
    intros w xs prog Sep Ca. pose proof (Buf_spec w xs Sep) as B. destruct (Buf_IntoIter zero extra (fst w) xs) as [m' it].
    destruct B as (Sep' & Vw & V & C & P & Ln & D). rewrite <- Vw. eapply calm_run; [exact Sep'| |rewrite Vw; exact Ca].
    constructor; [|constructor]. split; [exact V|]. cbn [fst snd]. split; [exact C|]. split; [rewrite P; reflexivity|].
    intros v s Hs E. exfalso. exact (D v s Hs E).
  Qed.
  Lemma NoDup_snoc : forall (A : list nat) a, NoDup A -> ~ In a A -> NoDup (A ++ [a]).
  Proof.
    induction A as [|b A IH]; intros a N H; cbn [app]; [now repeat constructor|]. inversion N; subst. constructor.
    - rewrite in_app_iff. intros [I|[<-|[]]]; [auto|]. apply H. now left.
    - apply IH; auto. intros I. apply H. now right.
  Qed.
  Lemma Buf_collected : forall w xs prog, separate w -> steady [length (snd w)] prog ->
    let (m', it) := Buf_IntoIter zero extra (fst w) xs in
    answers (irun zero extra eqb deq clone (m', snd w ++ [Buf_CollectToVec it], [it]) prog) =
      live zero eqb deq clone (view w ++ [xs], [(length (snd w), 0)]) prog.
  Proof.
    intros w xs prog Sep St. pose proof (Buf_spec w xs Sep) as B. destruct (Buf_IntoIter zero extra (fst w) xs) as [m' it].
    destruct B as (Sep' & Vw & V & C & P & Ln & D). eapply steady_run; [| | |exact St].
    - unfold view in *. cbn [fst snd] in *. rewrite map_app, Vw. cbn [map]. unfold Buf_CollectToVec. now rewrite C.
    - destruct Sep' as [Va Nd]. cbn [fst snd] in *. split; cbn [fst snd]; [apply Forall_app; split; [exact Va|constructor; [exact V|constructor]]|].
      rewrite map_app. cbn [map]. apply NoDup_snoc; [exact Nd|]. intros I. apply in_map_iff in I. destruct I as (s & E & Hs).
      apply In_nth_error in Hs. destruct Hs as (v & Hv). exact (D v s Hv E).
    - constructor; [|constructor]. unfold reads. cbn [fst snd]. rewrite nth_error_app2, Nat.sub_diag by auto. rewrite P.
      split; [reflexivity|]. split; [reflexivity|now left].
  Qed.
End Vec.
