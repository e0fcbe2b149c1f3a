(** SyncCountProofs.v -- locks and unlocks of arbitrary programs: counting. *)
From Coq Require Import Bool.
From Verif Require Import Base BaseLemmas SyncModel SyncSpec SyncProofs SyncJoinProofs SyncLockProofs.

Section Count.
  Context {T : Type}.
  Notation event := (event T).
  Notation trace := (list event).
  Notation user := (user T).
  Notation val := (val T).
  Notation config := (config T).
  Notation goroutine := (goroutine T).
  Notation prog := (prog T).
  Notation call := (@call T).
  Implicit Types (c : config) (tr e : trace).

  (** Goroutines that have the lock and are about to return from Lock or TryLock. *)
  Definition takers (ths : list goroutine) (m : nat) : nat :=
    length (filter (fun g => match acquiring g with Some m' => m' =? m | None => false end) ths).
  Definition taker (m : nat) (g : goroutine) : bool := match acquiring g with Some m' => m' =? m | None => false end.
  Definition b2n (b : bool) : nat := if b then 1 else 0.
  Lemma takers_app a b m : takers (a ++ b) m = takers a m + takers b m.
  Proof. unfold takers. rewrite filter_app, app_length. reflexivity. Qed.
  Lemma takers_cons g l m : takers (g :: l) m = b2n (taker m g) + takers l m.
  Proof. unfold takers, taker. cbn [filter]. destruct (match acquiring g with Some m' => m' =? m | None => false end); reflexivity. Qed.
  Lemma takers_set l : forall t g g0 m, nth_error l t = Some g0 ->
    takers (list_set l t g) m + b2n (taker m g0) = takers l m + b2n (taker m g).
  Proof.
    induction l as [|x l IH]; intros [|t] g g0 m H; cbn [nth_error] in H; try discriminate; cbn [list_set]; rewrite !takers_cons.
    - injection H as ->. lia.
    - specialize (IH t g g0 m H). lia.
  Qed.
  Lemma takers_ext l : forall l' m, (forall u, match nth_error l u with Some g => acquiring g | None => None end = match nth_error l' u with Some g => acquiring g | None => None end) ->
    takers l m = takers l' m.
  Proof.
    induction l as [|x l IH]; intros l' m H.
    - assert (Z : forall l' : list goroutine, (forall u, None = match nth_error l' u with Some g => acquiring g | None => None end) -> takers l' m = 0).
      { clear. induction l' as [|y l' IH]; intros H; [reflexivity|]. rewrite takers_cons, IH by (intros u; apply (H (S u))).
        unfold taker. rewrite <- (H 0 : None = acquiring y). reflexivity. }
      symmetry. apply Z. intros u. rewrite <- H. destruct u; reflexivity.
    - destruct l' as [|y l'].
      + rewrite takers_cons. rewrite (IH [] m) by (intros u; specialize (H (S u)); cbn [nth_error] in H; rewrite H; destruct u; reflexivity).
        unfold taker. rewrite (H 0 : acquiring x = None). reflexivity.
      + rewrite !takers_cons, (IH l' m) by (intros u; apply (H (S u))). unfold taker. rewrite (H 0 : acquiring x = acquiring y). reflexivity.
  Qed.
  Lemma takers_pos l t g m : nth_error l t = Some g -> acquiring g = Some m -> 1 <= takers l m.
  Proof.
    intros H A. apply nth_error_split in H. destruct H as (l1 & l2 & -> & _). rewrite takers_app, takers_cons.
    unfold taker. rewrite A, Nat.eqb_refl. cbn [b2n]. lia.
  Qed.
  Lemma takers_some l m : 1 <= takers l m -> exists t g, nth_error l t = Some g /\ acquiring g = Some m.
  Proof.
    induction l as [|x l IH]; [cbn; lia|]. rewrite takers_cons. unfold taker. destruct (acquiring x) as [m'|] eqn:A.
    - destruct (Nat.eqb_spec m' m) as [->|N]; [intros _; exists 0, x; auto|]. cbn [b2n]. intros H. destruct (IH H) as (t & g & B & C).
      exists (S t), g. auto.
    - cbn [b2n]. intros H. destruct (IH H) as (t & g & B & C). exists (S t), g. auto.
  Qed.

  Lemma granted_app tr e m : granted (tr ++ e) m = granted tr m + granted e m.
  Proof. unfold granted. rewrite filter_app, app_length. reflexivity. Qed.
  Lemma returned_app tr e m : returned (tr ++ e) m = returned tr m + returned e m.
  Proof. unfold returned. rewrite filter_app, app_length. reflexivity. Qed.

  Record NInv c tr : Prop := {
    n_count : forall m mu, nth_error (mutexes c) m = Some mu ->
      granted tr m + takers (threads c) m = returned tr m + b2n (locked mu);
    n_none : forall m, length (mutexes c) <= m -> granted tr m = 0 /\ returned tr m = 0 /\ takers (threads c) m = 0;
    n_call : forall t f, mode c t = Some f -> match f with Lock m | Unlock m | TryLock m => m < length (mutexes c) | _ => True end }.

  Lemma only_acq c c' t e : only_channels c c' t e -> forall u, acq c u = acq c' u.
  Proof.
    intros (CE & MU & DE & LE & HE & SE & IE & TH) u. unfold acq.
    destruct (nth_error (threads c') u) as [g'|] eqn:E.
    - destruct (TH _ _ E) as [(g & G & MV)|(N & u0 & rest & -> & _)]; [rewrite G|rewrite N; reflexivity].
      destruct g as [[a b|f p k r|p] w], g' as [[a' b'|f' p' k' r'|p'] w']; cbn in *; try reflexivity; try destruct MV.
      + destruct f; try destruct H; reflexivity.
      + destruct H0 as (-> & [->|CC]); subst; [reflexivity|]. destruct f'; try destruct CC; reflexivity.
    - assert (B : nth_error (threads c) u = None) by (apply nth_error_None; apply nth_error_None in E; lia).
      rewrite B. reflexivity.
  Qed.
  Lemma only_mode c c' t e : only_channels c c' t e -> forall u f, mode c' u = Some f -> mode c u = Some f.
  Proof.
    intros (CE & MU & DE & LE & HE & SE & IE & TH) u f M. destruct (mode_inside _ _ _ M) as (p & k & r & w & G).
    destruct (TH _ _ G) as [(g & G' & MV)|(N & u0 & rest & B & _)]; [|discriminate].
    unfold mode. rewrite G'. destruct g as [[a b|f' p' k' r'|p'] w']; cbn in *; try destruct MV. congruence.
  Qed.
  Lemma only_quiet c c' t e : only_channels c c' t e -> events_of c t e -> forall m, granted e m = 0 /\ returned e m = 0.
  Proof.
    intros (CE & MU & DE & LE & HE & SE & IE & TH) EV m. destruct EV as [| | | | | | | | | | |u f v AO MD|h z rs HR]; try (split; reflexivity).
    - destruct f as [v0|m'|m'|m'|f'|h|h|z f'|h]; try (split; reflexivity).
      + destruct AO as (a & ->). specialize (HE u []). cbn [fold_left holds_after] in HE. rewrite Nat.eqb_refl in HE. discriminate.
      + specialize (HE u [(m', 0)]). cbn [fold_left holds_after] in HE. rewrite Nat.eqb_refl in HE. unfold release in HE. cbn [filter fst] in HE.
        rewrite Nat.eqb_refl in HE. discriminate.
      + destruct AO as [->|(a & ->)]; [split; reflexivity|].
        specialize (HE u []). cbn [fold_left holds_after] in HE. rewrite Nat.eqb_refl in HE. discriminate.
    - clear HR HE SE IE. split; induction rs; [reflexivity|exact IHrs|reflexivity|exact IHrs].
  Qed.

  (** One goroutine moves and at most one lock bit changes. *)
  Lemma n_one c c1 tr t g g' e : NInv c tr -> nth_error (threads c) t = Some g -> threads c1 = threads c ->
    length (mutexes c1) = length (mutexes c) ->
    (forall m mu, nth_error (mutexes c1) m = Some mu -> exists mu0, nth_error (mutexes c) m = Some mu0 /\
      granted e m + b2n (taker m g') + b2n (locked mu0) = returned e m + b2n (taker m g) + b2n (locked mu)) ->
    (forall m, length (mutexes c) <= m -> granted e m = 0 /\ returned e m = 0 /\ taker m g' = taker m g) ->
    (forall f, mode_of (Some g') = Some f -> match f with Lock m | Unlock m | TryLock m => m < length (mutexes c) | _ => True end) ->
    NInv (set_thread c1 t g') (tr ++ e).
  Proof.
    intros I G T1 LM MU NO CA. constructor; cbn [set_thread threads mutexes]; rewrite ?T1, ?LM.
    - intros m mu H. destruct (MU _ _ H) as (mu0 & H0 & E). assert (B := n_count _ _ I _ _ H0).
      assert (TS := takers_set _ _ g' _ m G). rewrite granted_app, returned_app. lia.
    - intros m H. destruct (n_none _ _ I _ H) as (A1 & A2 & A3). destruct (NO _ H) as (B1 & B2 & B3).
      assert (TS := takers_set _ _ g' _ m G). rewrite B3 in TS. rewrite granted_app, returned_app. lia.
    - intros u f. unfold mode. cbn [set_thread threads]. rewrite T1, (nth_set _ _ _ _ _ G).
      destruct (Nat.eqb_spec u t) as [->|]; intros H; [apply CA; exact H|apply (n_call _ _ I u); exact H].
  Qed.
  Lemma n_local c c1 tr t g g' e : NInv c tr -> nth_error (threads c) t = Some g -> threads c1 = threads c -> mutexes c1 = mutexes c ->
    acquiring g' = acquiring g -> (forall m, granted e m = 0) -> (forall m, returned e m = 0) ->
    (forall f, mode_of (Some g') = Some f -> match f with Lock m | Unlock m | TryLock m => m < length (mutexes c) | _ => True end) ->
    NInv (set_thread c1 t g') (tr ++ e).
  Proof.
    intros I G T1 M1 AQ GR RE CA. assert (TK : forall m, taker m g' = taker m g) by (intros m; unfold taker; rewrite AQ; reflexivity).
    eapply n_one; try eassumption; rewrite ?M1; try reflexivity.
    - intros m mu H. exists mu. rewrite GR, RE, TK. split; [exact H|lia].
    - intros m _. auto.
  Qed.
  Lemma n_new c tr a : NInv c tr -> NInv (mkConfig (threads c) (cells c) (mutexes c ++ [mkMutex a false]) (chans c) (dead c)) tr.
  Proof.
    intros I. constructor; cbn [threads mutexes].
    - intros m mu H. apply nth_snoc in H. destruct H as [H|[-> ->]]; [apply (n_count _ _ I _ _ H)|].
      destruct (n_none _ _ I _ (le_n _)) as (A1 & A2 & A3). cbn [locked b2n]. lia.
    - intros m H. rewrite app_length in H. apply (n_none _ _ I). lia.
    - intros u f H. assert (B := n_call _ _ I u f H). rewrite app_length. destruct f; try exact B; lia.
  Qed.

  Lemma n_step c t l c' e tr : Inv c tr -> NInv c tr -> step c t l = Some (c', e) -> NInv c' (tr ++ e).
  Proof.
    intros IV I H0. assert (H := H0).
    destruct (nth_error (threads c) t) as [g|] eqn:G; [|unfold step in H; rewrite G in H; destruct (dead c); discriminate].
    destruct (channel_or_not g) as [IC|NC].
    { assert (OC := chan_step _ _ _ _ _ _ _ IV G IC H). destruct (step_shows _ _ _ _ _ _ IV H) as [EV _].
      assert (QU := only_quiet _ _ _ _ OC EV).
      assert (TK : forall m, takers (threads c') m = takers (threads c) m).
      { intros m. symmetry. apply takers_ext. intros u. apply (only_acq _ _ _ _ OC u). }
      destruct OC as (CE & MU & DE & LE & REST) eqn:OCE.
      constructor; rewrite ?MU.
      - intros m mu B. rewrite granted_app, returned_app, TK. destruct (QU m) as [-> ->]. assert (X := n_count _ _ I _ _ B). lia.
      - intros m B. rewrite granted_app, returned_app, TK. destruct (QU m) as [-> ->]. assert (X := n_none _ _ I _ B). lia.
      - intros u f M. eapply (n_call _ _ I u). eapply only_mode; eassumption. }
    destruct IV as (kinds & owns & IA). destruct (a_shape _ _ _ _ _ IA _ _ G) as (kd & K & S).
    unfold step in H. destruct (dead c) eqn:DD; [discriminate|]. rewrite G in H.
    inversion S as [kd0 u|kd0 f p k w SB WT|v|h w|h|kd0|h v w|h p PP|h]; subst; try discriminate; try (exfalso; apply NC; exact Logic.I).
    - destruct u as [v|f k|a k|a v k| |].
      + injection H as <- <-. eapply n_local; try eassumption; try reflexivity. discriminate.
      + destruct (typed c f) eqn:TY; [|discriminate]. injection H as <- <-.
        eapply n_local; try eassumption; try reflexivity.
        * destruct f; reflexivity.
        * intros f0 B. injection B as <-. destruct f; try exact Logic.I; cbn [typed] in TY; apply Nat.ltb_lt in TY; exact TY.
      + destruct (nth_error (cells c) a) as [v|] eqn:CA; [|discriminate]. injection H as <- <-.
        eapply n_local; try eassumption; try reflexivity. discriminate.
      + destruct (nth_error (cells c) a) as [v0|] eqn:CA; [|discriminate]. injection H as <- <-.
        eapply n_local; try eassumption; try reflexivity. discriminate.
      + injection H as <- <-. eapply n_local; try eassumption; try reflexivity. discriminate.
      + injection H as <- <-. eapply n_local; try eassumption; try reflexivity. discriminate.
    - destruct w; [discriminate|]. cbn [code in_channels] in NC.
      assert (MC := n_call _ _ I t f). unfold mode in MC. rewrite G in MC. specialize (MC eq_refl).
      assert (TAKE : forall m mu q, nth_error (mutexes c) m = Some mu -> locked mu = false ->
        f = Lock m \/ f = TryLock m -> acquiring (mkG (Inside f p k (rest_of kd)) false) = None ->
        NInv (set_thread (set_mutex c m (mkMutex (value mu) true)) t (mkG (Inside f (GetValue m q) k (rest_of kd)) false)) (tr ++ [])).
      { intros m mu q MU LO F AQ.
        assert (TG : forall x, taker x (mkG (Inside f p k (rest_of kd)) false) = false) by (intros x; unfold taker; rewrite AQ; reflexivity).
        assert (TG' : forall x, taker x (mkG (Inside f (GetValue m q) k (rest_of kd)) false) = (m =? x)) by (intros x; destruct F as [->| ->]; reflexivity).
        eapply n_one; try eassumption; try reflexivity.
        - cbn [set_mutex mutexes]. apply list_set_length.
        - intros x y. cbn [set_mutex mutexes]. rewrite (mutex_set _ _ _ _ _ MU), TG, TG', (Nat.eqb_sym m x).
          destruct (Nat.eqb_spec x m) as [->|]; intros B.
          + injection B as <-. exists mu. split; [exact MU|]. rewrite LO. reflexivity.
          + exists y. split; [exact B|]. cbn. lia.
        - intros x B. rewrite TG, TG'. repeat split. apply Nat.eqb_neq. apply nth_lt in MU. lia.
        - intros f0 B. injection B as <-. exact MC. }
      assert (ENTER : forall m mu q v, nth_error (mutexes c) m = Some mu -> p = GetValue m q -> (f = Lock m \/ f = TryLock m) ->
        (forall x, grants x (EAnswer t f v) = (m =? x)) -> NInv (set_thread c t (mkG (Running (k v) (rest_of kd)) false)) (tr ++ [EAnswer t f v])).
      { intros m mu q v MU -> F GRA.
        assert (TG : forall x, taker x (mkG (Inside f (GetValue m q) k (rest_of kd)) false) = (m =? x)) by (intros x; destruct F as [->| ->]; reflexivity).
        assert (GR : forall x, granted [EAnswer t f v] x = b2n (m =? x)).
        { intros x. unfold granted. cbn [filter]. rewrite GRA. destruct (m =? x); reflexivity. }
        assert (RE : forall x, returned [EAnswer t f v] x = 0) by (intros x; destruct F as [->| ->]; reflexivity).
        eapply n_one; try eassumption; try reflexivity.
        - intros x y B. exists y. rewrite GR, RE, TG. split; [exact B|]. cbn. lia.
        - intros x B. rewrite GR, RE, TG. apply nth_lt in MU. destruct (Nat.eqb_spec m x); [lia|]. auto.
        - discriminate. }
      inversion SB as [f0|v a|m|m|u h|z u h]; subst; try (exfalso; apply NC; exact Logic.I).
      + destruct f as [v|m|m|m|u|h|h|z u|h]; try (exfalso; apply NC; exact Logic.I); cbn [body] in *.
        * cbn [p_MutexNew operate] in H. erewrite continue_inside in H; [|exact G|congruence].
          injection H as <- <-. eapply n_local; try eassumption; try reflexivity. intros f0 B. injection B as <-. exact Logic.I.
        * cbn [p_Lock operate] in H. destruct (nth_error (mutexes c) m) as [mu|] eqn:MU; [|discriminate].
          destruct (locked mu) eqn:LO; [discriminate|]. erewrite continue_inside in H; [|exact G|congruence].
          injection H as <- <-. eapply TAKE; try eassumption; auto.
        * cbn [p_Unlock operate] in H. destruct (nth_error (mutexes c) m) as [mu|] eqn:MU; [|discriminate].
          destruct (locked mu) eqn:LO.
          -- erewrite continue_return in H by exact G. injection H as <- <-.
             assert (RE : forall x, returned (T:=T) [EAnswer t (Unlock m) VUnit] x = b2n (m =? x)).
             { intros x. unfold returned. cbn [filter returns]. destruct (m =? x); reflexivity. }
             eapply n_one; try eassumption; try reflexivity.
             ++ cbn [set_mutex mutexes]. apply list_set_length.
             ++ intros x y. cbn [set_mutex mutexes]. rewrite (mutex_set _ _ _ _ _ MU), RE, (Nat.eqb_sym m x).
                destruct (Nat.eqb_spec x m) as [->|]; intros B.
                ** injection B as <-. exists mu. split; [exact MU|]. rewrite LO. reflexivity.
                ** exists y. split; [exact B|]. cbn. lia.
             ++ intros x B. rewrite RE. apply nth_lt in MU. destruct (Nat.eqb_spec m x); [lia|]. auto.
             ++ discriminate.
          -- unfold fatal in H. injection H as <- <-. constructor; cbn [threads mutexes].
             ++ intros x y B. rewrite granted_app, returned_app. assert (X := n_count _ _ I _ _ B). cbn. lia.
             ++ intros x B. rewrite granted_app, returned_app. assert (X := n_none _ _ I _ B). cbn. lia.
             ++ apply (n_call _ _ I).
        * cbn [p_TryLock operate] in H. destruct (nth_error (mutexes c) m) as [mu|] eqn:MU; [|discriminate].
          destruct (locked mu) eqn:LO; [|destruct l].
          -- erewrite continue_return in H by exact G. injection H as <- <-. eapply n_local; try eassumption; try reflexivity. discriminate.
          -- erewrite continue_inside in H; [|exact G|congruence]. injection H as <- <-. eapply TAKE; try eassumption; auto.
          -- erewrite continue_return in H by exact G. injection H as <- <-. eapply n_local; try eassumption; try reflexivity. discriminate.
      + cbn [operate] in H. erewrite continue_return in H by exact G. injection H as <- <-.
        eapply (n_local _ _ _ _ _ _ _ (n_new _ _ a I)); try eassumption; try reflexivity. discriminate.
      + cbn [operate] in H. destruct (nth_error (mutexes c) m) as [mu|] eqn:MU; [|discriminate].
        erewrite continue_return in H by exact G. injection H as <- <-. eapply ENTER; try eassumption; auto.
      + cbn [operate] in H. destruct (nth_error (mutexes c) m) as [mu|] eqn:MU; [|discriminate].
        erewrite continue_return in H by exact G. injection H as <- <-. eapply ENTER; try eassumption; auto.
    - cbn [operate] in H. unfold fatal in H. injection H as <- <-. constructor; cbn [threads mutexes].
      + intros x y B. rewrite granted_app, returned_app. assert (X := n_count _ _ I _ _ B). cbn. lia.
      + intros x B. rewrite granted_app, returned_app. assert (X := n_none _ _ I _ B). cbn. lia.
      + apply (n_call _ _ I).
  Qed.
  Lemma n_start (mains : list user) : NInv (start mains) [].
  Proof.
    assert (N : forall t g, nth_error (threads (start mains)) t = Some g -> exists u, g = mkG (Running u main_rest) false).
    { intros t g H. unfold start in H. cbn [threads] in H. rewrite nth_error_map in H. destruct (nth_error mains t) eqn:E; [|discriminate].
      injection H as <-. eauto. }
    constructor.
    - intros [|m] mu B; discriminate.
    - intros m _. repeat split. destruct (takers (threads (start mains)) m) eqn:E; [reflexivity|].
      destruct (takers_some (threads (start mains)) m) as (t & g & B & C); [lia|]. destruct (N _ _ B) as (u & ->). discriminate.
    - intros t f B. destruct (mode_inside _ _ _ B) as (p & k & r & w & E). destruct (N _ _ E) as (u & X). discriminate.
  Qed.
  Lemma n_run s : forall c tr c' e, Inv c tr -> NInv c tr -> run c s = (c', e) -> NInv c' (tr ++ e).
  Proof.
    induction s as [|[t l] s IH]; intros c tr c' e IV I H; cbn [run] in H.
    - injection H as <- <-. rewrite app_nil_r. exact I.
    - destruct (step c t l) as [[c1 e1]|] eqn:E.
      + destruct (run c1 s) as [c2 e2] eqn:R. injection H as <- <-. rewrite app_assoc.
        eapply IH; [eapply step_inv; eassumption|eapply n_step; eassumption|exact R].
      + eapply IH; eassumption.
  Qed.
  Lemma n_reach (mains : list user) s c tr : run (start mains) s = (c, tr) -> NInv c tr.
  Proof. intros H. apply (n_run _ _ [] _ _ (start_inv mains) (n_start mains) H). Qed.

  (** *** What users see *)
  Lemma acq_locking c tr t m : Good c tr -> acq c t = Some m -> locking tr t m.
  Proof.
    intros [_ GM] H. unfold acq in H. destruct (nth_error (threads c) t) as [[[|f p k r|] w]|] eqn:E; try discriminate.
    assert (B : mode c t = Some f) by (unfold mode; rewrite E; reflexivity). rewrite GM in B. unfold acquiring in H. cbn [code] in H.
    destruct f; try discriminate; destruct p; try discriminate; injection H as <-; [left|right]; exact B.
  Qed.
  Theorem alternate (mains : list user) s c tr m : run (start mains) s = (c, tr) -> granted tr m <= returned tr m + 1.
  Proof.
    intros H. assert (I := n_reach _ _ _ _ H). destruct (nth_error (mutexes c) m) as [mu|] eqn:E.
    - assert (B := n_count _ _ I _ _ E). destruct (locked mu); cbn [b2n] in B; lia.
    - apply nth_error_None in E. destruct (n_none _ _ I _ E) as (A & _). lia.
  Qed.

  Lemma locking_acq c tr u m : Good c tr -> ~ locking tr u m -> acq c u <> Some m.
  Proof. intros GD N B. apply N. eapply acq_locking; eassumption. Qed.
  Lemma takers_one ths m t : (forall u, u <> t -> match nth_error ths u with Some g => acquiring g | None => None end <> Some m) ->
    takers ths m <= b2n (match nth_error ths t with Some g => taker m g | None => false end).
  Proof.
    revert t. induction ths as [|x l IH]; intros t H; [cbn; destruct t; cbn; lia|]. rewrite takers_cons.
    destruct t as [|t]; cbn [nth_error].
    - assert (B : takers l m = 0).
      { destruct (takers l m) eqn:E; [reflexivity|]. destruct (takers_some l m) as (u & g & B & C); [lia|].
        destruct (H (S u)); [discriminate|]. cbn [nth_error]. rewrite B. exact C. }
      lia.
    - assert (B : taker m x = false).
      { unfold taker. destruct (acquiring x) as [m'|] eqn:E; [|reflexivity]. destruct (Nat.eqb_spec m' m) as [->|]; [|reflexivity].
        destruct (H 0); [discriminate|]. cbn [nth_error]. exact E. }
      rewrite B. cbn [b2n]. apply IH. intros u N. apply (H (S u)). congruence.
  Qed.

  Theorem fatal_only (mains : list user) s c tr1 t tr2 : run (start mains) s = (c, tr1 ++ EFatal t :: tr2) ->
    In (EPanic t) tr1 \/ exists m, calling tr1 t = Some (Unlock m) /\ granted tr1 m <= returned tr1 m.
  Proof.
    intros H. destruct (at_event _ _ _ _ _ _ H) as (s1 & c1 & ea & u & l & c2 & b1 & b2 & R1 & GD & S1 & EV & E).
    destruct (lonely_event _ _ _ _ _ EV Logic.I) as (-> & -> & ->). cbn [app] in EV. rewrite app_nil_r in E. subst tr1.
    assert (I := n_reach _ _ _ _ R1).
    inversion EV as [| | | | | | |m mu MD MU LO|w G| | | |h z rs HR EQ]; subst; [| |destruct rs; discriminate].
    2: { left. apply (p_reach _ _ _ _ R1). unfold crashing. rewrite G. reflexivity. }
    right. exists m. destruct GD as [_ GM]. rewrite <- GM. split; [exact MD|].
    assert (B := n_count _ _ I _ _ MU). rewrite LO in B. cbn [b2n] in B. lia.
  Qed.
  (** A call that is under way sits at the beginning of its body, or has the lock. *)
  Lemma at_call c tr t f : Good c tr -> calling tr t = Some f -> (forall h, f <> Join h) -> (forall h, f <> Await h) ->
    exists p k rest, nth_error (threads c) t = Some (mkG (Inside f p k rest) false) /\ sub f p.
  Proof.
    intros GD H NJ NA. assert (GD' := GD). destruct GD as [(kinds & owns & I & _) GM]. rewrite <- GM in H.
    destruct (mode_inside _ _ _ H) as (p & k & r & w & G).
    destruct (a_shape _ _ _ _ _ I _ _ G) as (kd & K & S). inversion S as [|kd0 f0 p0 k0 w0 SB WT| | | | | | |]; subst.
    destruct w; [|eauto]. destruct (WT eq_refl) as (h & q & ->). exfalso.
    assert (BF : body f = Recv h q) by (inversion SB; congruence). destruct f; cbn [body] in BF; try discriminate; [eapply NJ|eapply NA]; reflexivity.
  Qed.
  Theorem unlock_fatal (mains : list user) s c tr t m l : run (start mains) s = (c, tr) -> dead c = false ->
    calling tr t = Some (Unlock m) -> granted tr m <= returned tr m -> (forall u, ~ locking tr u m) ->
    exists c', step c t l = Some (c', [EFatal t]) /\ dead c' = true.
  Proof.
    intros R DD H GR NL. assert (GD := reach_good _ _ _ _ R). assert (I := n_reach _ _ _ _ R).
    destruct (at_call _ _ _ _ GD H) as (p & k & rest & G & SB); try discriminate.
    inversion SB as [f0| | | | |]; subst. cbn [body p_Unlock] in G.
    assert (MC := n_call _ _ I t (Unlock m)). unfold mode in MC. rewrite G in MC. specialize (MC eq_refl).
    destruct (nth_error (mutexes c) m) as [mu|] eqn:MU; [|apply nth_error_None in MU; lia].
    assert (B := n_count _ _ I _ _ MU).
    assert (TK : takers (threads c) m = 0).
    { destruct (takers (threads c) m) eqn:E; [reflexivity|]. destruct (takers_some (threads c) m) as (u & g & C & A); [lia|].
      destruct (NL u). apply (acq_locking c); [exact GD|]. unfold acq. rewrite C. exact A. }
    destruct (locked mu) eqn:LO; cbn [b2n] in B; [lia|].
    eexists. split; [|]. unfold step. rewrite DD, G. cbn [p_Lock p_Unlock p_TryLock operate]. rewrite MU, LO. reflexivity. reflexivity.
  Qed.
  Lemma step_get c t l f m q k rest mu v : nth_error (threads c) t = Some (mkG (Inside f (GetValue m q) k rest) false) -> dead c = false ->
    nth_error (mutexes c) m = Some mu -> q (value mu) = Return v ->
    step c t l = Some (set_thread c t (mkG (Running (k v) rest) false), [EAnswer t f v]).
  Proof.
    intros G DD MU Q. unfold step. rewrite DD, G. cbn [operate]. rewrite MU, Q. erewrite continue_return by exact G. reflexivity.
  Qed.
  Lemma step_took c t l f m q k rest g0 mu v :
    nth_error (threads c) t = Some g0 -> dead c = false -> nth_error (mutexes c) m = Some mu -> q (value mu) = Return v ->
    exists c', step (set_thread (set_mutex c m (mkMutex (value mu) true)) t (mkG (Inside f (GetValue m q) k rest) false)) t l = Some (c', [EAnswer t f v]).
  Proof.
    intros G DD MU Q. eexists. eapply (step_get _ _ _ _ m q k rest (mkMutex (value mu) true)).
    - cbn [set_thread set_mutex threads]. rewrite (nth_set _ _ _ _ _ G), Nat.eqb_refl. reflexivity.
    - exact DD.
    - cbn [set_thread set_mutex mutexes]. rewrite (mutex_set _ _ _ _ _ MU), Nat.eqb_refl. reflexivity.
    - exact Q.
  Qed.
  Theorem trylock_answers (mains : list user) s c tr t m l1 l2 : run (start mains) s = (c, tr) -> dead c = false ->
    calling tr t = Some (TryLock m) -> exists v, In (EAnswer t (TryLock m) v) (snd (run c [(t, l1); (t, l2)])).
  Proof.
    intros R DD H. assert (GD := reach_good _ _ _ _ R). assert (I := n_reach _ _ _ _ R).
    destruct (at_call _ _ _ _ GD H) as (p & k & rest & G & SB); try discriminate.
    assert (MC := n_call _ _ I t (TryLock m)). unfold mode in MC. rewrite G in MC. specialize (MC eq_refl).
    destruct (nth_error (mutexes c) m) as [mu|] eqn:MU; [|apply nth_error_None in MU; lia].
    inversion SB as [f0| | |m0| |]; subst.
    - cbn [body p_TryLock] in G.
      assert (ONE : forall c', step c t l1 = Some (c', [EAnswer t (TryLock m) VErr]) ->
        exists v, In (EAnswer t (TryLock m) v) (snd (run c [(t, l1); (t, l2)]))).
      { intros c' B. rewrite (run_cons _ _ _ _ _ _ B). cbn [snd]. exists VErr. left. reflexivity. }
      destruct (locked mu) eqn:LO; [|destruct l1].
      + eapply ONE. unfold step. rewrite DD, G. cbn [p_Lock p_Unlock p_TryLock operate]. rewrite MU, LO. erewrite continue_return by exact G. reflexivity.
      + erewrite run_cons.
        2: { unfold step. rewrite DD, G. cbn [p_Lock p_Unlock p_TryLock operate]. rewrite MU, LO. erewrite continue_inside; [reflexivity|exact G|congruence]. }
        cbn [snd app].
        destruct (step_took c t l2 (TryLock m) m (fun value => Return (VOk (VPtr value))) k rest _ mu _ G DD MU eq_refl) as (c' & S2).
        rewrite (run_cons _ _ _ _ _ _ S2).
        cbn [snd]. eexists. left. reflexivity.
      + eapply ONE. unfold step. rewrite DD, G. cbn [p_Lock p_Unlock p_TryLock operate]. rewrite MU, LO. erewrite continue_return by exact G. reflexivity.
    - rewrite (run_cons _ _ _ _ _ _ (step_get c t _ _ m _ k rest mu _ G DD MU eq_refl)).
      cbn [snd]. eexists. left. reflexivity.
  Qed.
  Theorem trylock_held (mains : list user) s c tr t m l : run (start mains) s = (c, tr) -> dead c = false ->
    calling tr t = Some (TryLock m) -> granted tr m = returned tr m + 1 ->
    exists c', step c t l = Some (c', [EAnswer t (TryLock m) VErr]).
  Proof.
    intros R DD H GR. assert (GD := reach_good _ _ _ _ R). assert (I := n_reach _ _ _ _ R).
    destruct (at_call _ _ _ _ GD H) as (p & k & rest & G & SB); try discriminate.
    assert (MC := n_call _ _ I t (TryLock m)). unfold mode in MC. rewrite G in MC. specialize (MC eq_refl).
    destruct (nth_error (mutexes c) m) as [mu|] eqn:MU; [|apply nth_error_None in MU; lia].
    assert (B := n_count _ _ I _ _ MU). destruct (locked mu) eqn:LO; cbn [b2n] in B; [|lia].
    inversion SB as [f0| | |m0| |]; subst.
    - cbn [body p_TryLock] in G. eexists. unfold step. rewrite DD, G. cbn [p_Lock p_Unlock p_TryLock operate]. rewrite MU, LO. erewrite continue_return by exact G. reflexivity.
    - assert (P := takers_pos _ _ _ m G eq_refl). lia.
  Qed.
  Theorem lock_held (mains : list user) s c tr t m l : run (start mains) s = (c, tr) ->
    calling tr t = Some (Lock m) -> granted tr m = returned tr m + 1 -> step c t l = None.
  Proof.
    intros R H GR. assert (GD := reach_good _ _ _ _ R). assert (I := n_reach _ _ _ _ R).
    destruct (at_call _ _ _ _ GD H) as (p & k & rest & G & SB); try discriminate.
    assert (MC := n_call _ _ I t (Lock m)). unfold mode in MC. rewrite G in MC. specialize (MC eq_refl).
    destruct (nth_error (mutexes c) m) as [mu|] eqn:MU; [|apply nth_error_None in MU; lia].
    assert (B := n_count _ _ I _ _ MU). destruct (locked mu) eqn:LO; cbn [b2n] in B; [|lia].
    inversion SB as [f0| |m0| | |]; subst.
    - cbn [body p_Lock] in G. unfold step. destruct (dead c); [reflexivity|]. rewrite G. cbn [p_Lock p_Unlock p_TryLock operate]. rewrite MU, LO. reflexivity.
    - assert (P := takers_pos _ _ _ m G eq_refl). lia.
  Qed.
  (** The mutex is free and nobody else is at it: Lock and a lucky TryLock get it. *)
  Lemma free_answers (mains : list user) s c tr t m f l2 : run (start mains) s = (c, tr) -> dead c = false ->
    f = Lock m \/ f = TryLock m ->
    calling tr t = Some f -> granted tr m <= returned tr m -> (forall u, u <> t -> ~ locking tr u m) ->
    exists a, In (EAnswer t f (match f with Lock _ => VPtr a | _ => VOk (VPtr a) end)) (snd (run c [(t, true); (t, l2)])).
  Proof.
    intros R DD F H GR NL. assert (GD := reach_good _ _ _ _ R). assert (I := n_reach _ _ _ _ R).
    destruct (at_call _ _ _ _ GD H) as (p & k & rest & G & SB); try (destruct F as [->| ->]; discriminate).
    assert (MC := n_call _ _ I t f). unfold mode in MC. rewrite G in MC. specialize (MC eq_refl).
    assert (MC' : m < length (mutexes c)) by (destruct F as [->| ->]; exact MC).
    destruct (nth_error (mutexes c) m) as [mu|] eqn:MU; [|apply nth_error_None in MU; lia].
    assert (B := n_count _ _ I _ _ MU).
    assert (TK := takers_one (threads c) m t). rewrite G in TK.
    assert (NO : forall u, u <> t -> acq c u <> Some m) by (intros u N; eapply locking_acq; [exact GD|apply NL; exact N]).
    specialize (TK NO).
    assert (CASE : (p = body f /\ locked mu = false) \/ (p = GetValue m (fun a => Return (match f with Lock _ => VPtr a | _ => VOk (VPtr a) end)))).
    { inversion SB as [f0|v a|m0|m0|u h|z u h]; subst; try (destruct F; discriminate).
      - left. split; [reflexivity|]. destruct (locked mu) eqn:LO; [|reflexivity]. cbn [b2n] in B.
        assert (E : taker m (mkG (Inside f (body f) k rest) false) = false) by (destruct F as [->| ->]; reflexivity).
        rewrite E in TK. cbn [b2n] in TK. lia.
      - right. destruct F as [F|F]; inversion F; reflexivity.
      - right. destruct F as [F|F]; inversion F; reflexivity. }
    exists (value mu). destruct CASE as [[-> LO]| ->].
    - assert (S1 : exists q, step c t true = Some (set_thread (set_mutex c m (mkMutex (value mu) true)) t (mkG (Inside f (GetValue m q) k rest) false), []) /\
        forall a, q a = Return (match f with Lock _ => VPtr a | _ => VOk (VPtr a) end)).
      { destruct F as [->| ->]; cbn [body p_Lock p_TryLock] in G; (eexists; split; [unfold step; rewrite DD, G; cbn [p_Lock p_Unlock p_TryLock operate];
          rewrite MU, LO; (erewrite continue_inside; [reflexivity|exact G|congruence])|reflexivity]). }
      destruct S1 as (q & S1 & Q). rewrite (run_cons _ _ _ _ _ _ S1). cbn [snd app].
      destruct (step_took c t l2 f m q k rest _ mu _ G DD MU (Q _)) as (c' & S2). rewrite (run_cons _ _ _ _ _ _ S2).
      cbn [snd value]. left. reflexivity.
    - rewrite (run_cons _ _ _ _ _ _ (step_get c t _ _ m _ k rest mu _ G DD MU eq_refl)).
      cbn [snd]. left. reflexivity.
  Qed.
  (** With lucky schedules TryLock is exact. *)
  Theorem trylock_exact (mains : list user) s c tr1 t m tr2 : run (start mains) s = (c, tr1 ++ EAnswer t (TryLock m) VErr :: tr2) ->
    (forall u l, In (u, l) s -> l = true) ->
    granted tr1 m = returned tr1 m + 1 \/ exists u, u <> t /\ locking tr1 u m.
  Proof.
    intros H LU. destruct (run_split _ _ _ _ _ _ H) as (s1 & u & l & s2 & c1 & ea & c2 & b1 & b2 & SE & R1 & S1 & E).
    assert (GD := reach_good _ _ _ _ R1). assert (I := n_reach _ _ _ _ R1). assert (IV := good_inv _ _ GD).
    destruct (step_shows _ _ _ _ _ _ IV S1) as [EV _]. assert (SA := single_answer _ _ _ _ _ _ _ EV). cbv beta iota in SA.
    destruct SA as (-> & -> & _ & MD). cbn [app] in *. rewrite app_nil_r in E. subst tr1.
    assert (l = true) as ->. { apply (LU u l). rewrite SE. apply in_elt. }
    assert (UT : t = u).
    { inversion EV as [| | | | | | | | | | |u0 f0 v0 AO MD0 [UT|(h & [UT|UT])]|h z rs HR EQ]; subst; try congruence. destruct rs; discriminate. }
    subst u. assert (CA : calling ea t = Some (TryLock m)) by (destruct GD as [_ GM]; rewrite <- GM; exact MD).
    destruct (at_call _ _ _ _ GD CA) as (p & k & rest & G & SB); try discriminate.
    assert (MC := n_call _ _ I _ _ MD). cbv beta iota in MC.
    destruct (nth_error (mutexes c1) m) as [mu|] eqn:MU; [|apply nth_error_None in MU; lia].
    unfold step in S1. destruct (dead c1); [discriminate|]. rewrite G in S1.
    inversion SB as [f0| | |m0| |]; subst.
    - cbn [body p_TryLock operate] in S1, G. rewrite MU in S1. destruct (locked mu) eqn:LO.
      + assert (B := n_count _ _ I _ _ MU). rewrite LO in B. cbn [b2n] in B.
        destruct (takers (threads c1) m) as [|n] eqn:TK; [left; lia|]. right.
        destruct (takers_some (threads c1) m) as (u & g & C & A); [lia|].
        exists u. split; [|apply (acq_locking c1); [exact GD|unfold acq; rewrite C; exact A]].
        intros ->. rewrite G in C. injection C as <-. discriminate.
      + erewrite continue_inside in S1; [discriminate|exact G|congruence].
    - cbn [p_Lock p_Unlock p_TryLock operate] in S1. rewrite MU in S1. erewrite continue_return in S1 by exact G. discriminate.
  Qed.
End Count.
