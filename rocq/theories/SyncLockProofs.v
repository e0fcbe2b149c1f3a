(** SyncLockProofs.v -- programs that use their mutexes by the rule: an invariant of
    every reachable state. *)
From Verif Require Import Base BaseLemmas SyncModel SyncSpec SyncProofs SyncJoinProofs.

Section Lock.
  Context {T : Type}.
  Notation event := (event T).
  Notation trace := (list event).
  Notation user := (user T).
  Notation val := (val T).
  Notation prog := (prog T).
  Notation config := (config T).
  Notation goroutine := (goroutine T).
  Notation chan := (@chan T).
  Notation call := (@call T).
  Implicit Types (tr e : trace) (c : config).

  (** *** Steps that only concern channels *)
  Definition chan_call (f : call user) : Prop :=
    match f with Spawn _ | Gokio_Spawn _ _ | Join _ | IsFinished _ | Await _ => True | _ => False end.
  (** What is left of a goroutine ends in a crash. *)
  Fixpoint crashes (p : prog) : bool :=
    match p with Crash => true | Send _ _ q => crashes q | Close _ q => crashes q | _ => false end.
  Definition moved (g g' : goroutine) : Prop :=
    match code g, code g' with
    | Running a _, Running a' _ => a = a'
    | Inside f p k _, Inside f' p' k' _ => f = f' /\ k = k' /\ (p = p' \/ chan_call f)
    | Inside f p k _, Running u' _ => chan_call f /\ exists v, u' = k v
    | Ending p, Ending p' => crashes p' = crashes p
    | _, _ => False
    end.
  Lemma moved_refl g : moved g g.
  Proof. destruct g as [[]]; cbn; auto. Qed.
  Lemma moved_same g w w' : moved (mkG g w) (mkG g w').
  Proof. destruct g; cbn; auto. Qed.

  Definition only_channels c c' (t : nat) e : Prop :=
    cells c' = cells c /\ mutexes c' = mutexes c /\ dead c' = dead c /\ length (threads c) <= length (threads c') /\
    (forall u l, fold_left (holds_after u) e l = l) /\
    (forall a, last_store e a = None) /\ (forall m, initial e m = None) /\
    forall u g', nth_error (threads c') u = Some g' ->
      (exists g, nth_error (threads c) u = Some g /\ moved g g') \/
      (nth_error (threads c) u = None /\ exists u0 rest, g' = mkG (Running u0 rest) false /\
         (mode c t = Some (Spawn u0) \/ exists z, mode c t = Some (Gokio_Spawn z u0))).

  Lemma only_one c c1 t g g' e :
    threads c1 = threads c -> cells c1 = cells c -> mutexes c1 = mutexes c -> dead c1 = dead c ->
    nth_error (threads c) t = Some g -> moved g g' ->
    (forall u l, fold_left (holds_after u) e l = l) -> (forall a, last_store e a = None) -> (forall m, initial e m = None) ->
    only_channels c (set_thread c1 t g') t e.
  Proof.
    intros T1 C1 M1 D1 G MV E1 E2 E3. split; [exact C1|]. split; [exact M1|]. split; [exact D1|].
    split; [cbn [set_thread threads]; rewrite ?list_set_length, T1; lia|].
    split; [exact E1|]. split; [exact E2|]. split; [exact E3|].
    intros u gu. cbn [set_thread threads]. rewrite T1, (nth_set _ _ _ _ _ G).
    destruct (Nat.eqb_spec u t) as [->|N]; intros H.
    - injection H as <-. left. exists g. split; assumption.
    - left. exists gu. split; [exact H|apply moved_refl].
  Qed.
  Lemma only_two c c1 t s g g' gs gs' e t0 :
    threads c1 = threads c -> cells c1 = cells c -> mutexes c1 = mutexes c -> dead c1 = dead c ->
    nth_error (threads c) t = Some g -> moved g g' -> nth_error (threads c) s = Some gs -> moved gs gs' -> t <> s ->
    (forall u l, fold_left (holds_after u) e l = l) -> (forall a, last_store e a = None) -> (forall m, initial e m = None) ->
    only_channels c (set_thread (set_thread c1 s gs') t g') t0 e.
  Proof.
    intros T1 C1 M1 D1 G MV GS MVS NE E1 E2 E3. split; [exact C1|]. split; [exact M1|]. split; [exact D1|].
    split; [cbn [set_thread threads]; rewrite ?list_set_length, T1; lia|].
    split; [exact E1|]. split; [exact E2|]. split; [exact E3|].
    assert (GT : nth_error (list_set (threads c) s gs') t = Some g).
    { rewrite (nth_set _ _ _ _ _ GS). apply Nat.eqb_neq in NE. rewrite NE. exact G. }
    intros u gu. cbn [set_thread threads]. rewrite T1, (nth_set _ _ _ _ _ GT), (nth_set _ _ _ _ _ GS).
    destruct (Nat.eqb_spec u t) as [->|N]; intros H.
    - injection H as <-. left. exists g. split; assumption.
    - destruct (Nat.eqb_spec u s) as [->|N2].
      + injection H as <-. left. exists gs. split; assumption.
      + left. exists gu. split; [exact H|apply moved_refl].
  Qed.

  (** A goroutine that is neither in user code nor in a mutex function. *)
  Definition in_channels (g : goroutine) : Prop :=
    match code g with Running _ _ => False | Inside f _ _ _ => chan_call f | Ending Crash => False | Ending _ => True end.

  Lemma quiet_answer (t : nat) (f : call user) (v : val) : chan_call f ->
    (forall u l, fold_left (holds_after u) [EAnswer t f v] l = l) /\
    (forall a, last_store [EAnswer t f v] a = None) /\ (forall m, initial [EAnswer t f v] m = None).
  Proof. destruct f; cbn; intros []; auto. Qed.
  Lemma quiet_start (t t' : nat) (f : call user) (v : val) : chan_call f ->
    (forall u l, fold_left (holds_after u) [EStart t t'; EAnswer t f v] l = l) /\
    (forall a, last_store [EStart t t'; EAnswer t f v] a = None) /\ (forall m, initial [EStart t t'; EAnswer t f v] m = None).
  Proof. destruct f; cbn; intros []; auto. Qed.
  Lemma quiet_answers (rs : list nat) h (z : val) :
    (forall u l, fold_left (holds_after u) (map (fun r => EAnswer r (Await h) z) rs) l = l) /\
    (forall a, last_store (map (fun r => EAnswer r (Await h) z : event) rs) a = None) /\
    (forall m, initial (map (fun r => EAnswer r (Await h) z) rs) m = None).
  Proof.
    induction rs as [|r rs (A & B & C)]; cbn [map fold_left holds_after last_store initial]; auto.
  Qed.

  Lemma start_only c t f v k rest u0 rest0 p g' : 
    nth_error (threads c) t = Some (mkG (Inside f p k rest) false) -> chan_call f -> moved (mkG (Inside f p k rest) false) g' ->
    f = Spawn u0 \/ (exists z, f = Gokio_Spawn z u0) ->
    only_channels c (set_thread (mkConfig (threads c ++ [mkG (Running u0 rest0) false]) (cells c) (mutexes c) (chans c) (dead c)) t g') t
      [EStart t (length (threads c)); EAnswer t f v].
  Proof.
    intros G CF MV F. destruct (quiet_start t (length (threads c)) f v CF) as (Q1 & Q2 & Q3).
    split; [reflexivity|]. split; [reflexivity|]. split; [reflexivity|].
    split; [cbn [set_thread threads]; rewrite list_set_length, app_length; lia|]. split; [exact Q1|]. split; [exact Q2|]. split; [exact Q3|].
    intros u gu. cbn [set_thread threads].
    erewrite nth_set. 2: { rewrite nth_error_app1 by (eapply nth_lt; exact G). exact G. }
    destruct (Nat.eqb_spec u t) as [->|N]; intros H.
    - injection H as <-. left. eexists. split; [exact G|exact MV].
    - destruct (Nat.ltb_spec u (length (threads c))) as [L|L].
      + rewrite nth_error_app1 in H by exact L. left. exists gu. split; [exact H|apply moved_refl].
      + right. split; [apply nth_error_None; exact L|]. rewrite nth_error_app2 in H by exact L.
        destruct (u - length (threads c)) as [|[|n]]; try discriminate. injection H as <-. exists u0, rest0. split; [reflexivity|].
        unfold mode. rewrite G. cbn [mode_of]. destruct F as [->|(z & ->)]; eauto.
  Qed.

  Lemma send_only c c' tr kinds owns t l h v p' e kd :
    AInv (threads c) (chans c) tr kinds owns ->
    nth_error (threads c) t = Some (mkG (Ending (Send h v p')) false) -> nth_error kinds t = Some kd -> chan_of kd = Some h ->
    operate c t l (Send h v p') = Some (c', e) -> only_channels c c' t e.
  Proof.
    intros I G K Ck H.
    assert (O : nth_error owns h = Some (Post t)).
    { apply (a_own _ _ _ _ _ I). exists kd. split; assumption. }
    destruct (chan_exists _ _ _ _ _ _ _ I O) as (ch & CH).
    assert (V : vw (threads c) t = Some (ASend v false)) by (unfold vw; rewrite G; reflexivity).
    assert (CF : closed ch = false).
    { assert (P := a_phase _ _ _ _ _ I _ _ CH). unfold phase in P. rewrite O, V in P.
      destruct (zero ch); [destruct P as (_ & _ & _ & P & _)|destruct P as (P & _)]; exact P. }
    cbn [operate] in H. rewrite CH, CF in H.
    destruct (recvq ch) as [|r q] eqn:R.
    - injection H as <- <-. unfold park. cbn [set_chan threads]. rewrite G.
      eapply only_one; try reflexivity; try exact G. apply moved_same.
    - destruct (receiver_spec _ _ _ _ _ _ _ r I CH) as (kr & k & KR & GR); [rewrite R; left; reflexivity|].
      assert (NE : r <> t) by (intros ->; rewrite G in GR; discriminate).
      unfold wake_receiver, gost_code in H. cbn [set_chan threads] in H. rewrite GR in H.
      set (f := match zero ch with None => Join h | Some _ => Await h end : call user) in *.
      assert (CC : chan_call f) by (unfold f; destruct (zero ch); exact Logic.I).
      assert (W : exists a,
        match (match zero ch with None => p_Join h | Some _ => p_Await h end) with
        | Recv _ k0 => continue_ (set_chan c h (mkChan (zero ch) (sendq ch) q false)) r (k0 v)
        | _ => (set_chan c h (mkChan (zero ch) (sendq ch) q false), []) end =
        continue_ (set_chan c h (mkChan (zero ch) (sendq ch) q false)) r (Return a)).
      { destruct (zero ch); cbn [p_Join p_Await]; eexists; reflexivity. }
      destruct W as (a & W). rewrite W in H. erewrite continue_return in H by exact GR. unfold then_ in H.
      erewrite continue_ending in H.
      2: { cbn [set_thread set_chan threads]. rewrite (nth_set _ _ _ _ _ GR). apply Nat.eqb_neq in NE.
           rewrite Nat.eqb_sym, NE. exact G. }
      injection H as <- <-. destruct (quiet_answer r f a CC) as (Q1 & Q2 & Q3).
      eapply only_two; try reflexivity; try eassumption; [reflexivity|split; [exact CC|eauto]|congruence].
  Qed.
  Lemma close_only c c' tr kinds owns t l h e p :
    AInv (threads c) (chans c) tr kinds owns ->
    nth_error (threads c) t = Some (mkG (Ending (Close h p)) false) -> nth_error kinds t = Some (KFut h) ->
    operate c t l (Close h p) = Some (c', e) -> only_channels c c' t e.
  Proof.
    intros I G K H.
    assert (O : nth_error owns h = Some (Post t)).
    { apply (a_own _ _ _ _ _ I). exists (KFut h). split; [assumption|reflexivity]. }
    destruct (chan_exists _ _ _ _ _ _ _ I O) as (ch & CH).
    assert (V : vw (threads c) t = Some AClose) by (unfold vw; rewrite G; reflexivity).
    destruct (a_zero _ _ _ _ _ I t h ch CH) as [_ Z2]. specialize (Z2 K).
    destruct (zero ch) as [z|] eqn:Z; [clear Z2|congruence].
    assert (P := a_phase _ _ _ _ _ I _ _ CH). unfold phase in P. rewrite O, V, Z in P.
    destruct P as (_ & CF & SQ & _).
    cbn [operate] in H. rewrite CH, CF in H. unfold zero_of in H. rewrite Z in H.
    destruct (wake_all_spec (set_chan c h (mkChan (Some z) (sendq ch) [] true)) (recvq ch) z h) as (ths' & E & L & N1 & N2).
    { eapply a_nodup; eassumption. }
    { intros y Y. destruct (receiver_spec _ _ _ _ _ _ _ y I CH Y) as (kr & k & KR & GR). rewrite Z in GR.
      eexists _, _, _. exact GR. }
    rewrite E in H. unfold then_ in H.
    assert (NI : ~ In t (recvq ch)).
    { intros B. apply (a_wait _ _ _ _ _ I _ _ _ CH) in B. congruence. }
    assert (GT : nth_error ths' t = Some (mkG (Ending (Close h p)) false)).
    { rewrite (N1 _ NI). exact G. }
    erewrite continue_ending in H by exact GT. injection H as <- <-. rewrite app_nil_r.
    destruct (quiet_answers (recvq ch) h z) as (Q1 & Q2 & Q3).
    split; [reflexivity|]. split; [reflexivity|]. split; [reflexivity|].
    split; [cbn [set_thread threads]; rewrite list_set_length, L; cbn [set_chan threads]; lia|]. split; [exact Q1|]. split; [exact Q2|]. split; [exact Q3|].
    intros u gu. cbn [set_thread threads]. rewrite (nth_set _ _ _ _ _ GT).
    destruct (Nat.eqb_spec u t) as [->|N]; intros HU.
    - injection HU as <-. left. eexists. split; [exact G|reflexivity].
    - destruct (in_dec Nat.eq_dec u (recvq ch)) as [Y|Y].
      + destruct (N2 _ Y) as (k & k' & rest & w & B1 & B2 & B3). left. eexists. split; [exact B2|].
        assert (gu = mkG (Running k rest) false) by congruence. subst gu.
        split; [exact Logic.I|exists z; exact B3].
      + rewrite (N1 _ Y) in HU. left. exists gu. split; [exact HU|apply moved_refl].
  Qed.
  Lemma chan_step c t l c' e tr g : Inv c tr -> nth_error (threads c) t = Some g -> in_channels g ->
    step c t l = Some (c', e) -> only_channels c c' t e.
  Proof.
    intros (kinds & owns & I) G IC H. unfold step in H. destruct (dead c) eqn:D; [discriminate|]. rewrite G in H.
    destruct (a_shape _ _ _ _ _ I _ _ G) as (kd & K & S).
    inversion S as [kd0 u|kd0 f p k w SB WT|v|h w|h|kd0|h v w|h p PP|h]; subst; try discriminate; try destruct IC.
    - cbn [code in_channels] in IC. destruct w; [discriminate|].
      assert (AN : forall a, chan_call f -> only_channels c (set_thread c t (mkG (Running (k a) (rest_of kd)) false)) t [EAnswer t f a]).
      { intros a CF. destruct (quiet_answer t f a CF) as (Q1 & Q2 & Q3). eapply only_one; try reflexivity; try eassumption.
        split; [exact CF|eauto]. }
      assert (MV : forall c1 p1 w1, threads c1 = threads c -> cells c1 = cells c -> mutexes c1 = mutexes c -> dead c1 = dead c ->
        only_channels c (set_thread c1 t (mkG (Inside f p1 k (rest_of kd)) w1)) t []).
      { intros c1 p1 w1 E1 E2 E3 E4. eapply only_one; try reflexivity; try eassumption. cbn. auto. }
      assert (TK : forall h ch s v q a, nth_error (chans c) h = Some ch -> sendq ch = (s, v) :: q ->
        then_ (wake_sender (set_chan c h (mkChan (zero ch) q (recvq ch) (closed ch))) s) (fun c => continue_ c t (Return a)) = (c', e) ->
        only_channels c c' t e).
      { intros h ch s v q a CH SQ. destruct (sendq_spec _ _ _ _ _ _ _ _ _ _ I CH SQ) as (-> & O & V & R).
        destruct (sender_spec _ _ _ _ _ _ _ _ _ _ I O V CH) as (ks & p' & KS & GS & SH & AB & _).
        assert (NE : t <> s) by (intros ->; rewrite G in GS; discriminate).
        unfold wake_sender, gost_code. cbn [set_chan threads]. rewrite GS.
        erewrite continue_ending by exact GS. unfold then_.
        assert (GT : nth_error (list_set (threads c) s (mkG (Ending p') false)) t = Some (mkG (Inside f p k (rest_of kd)) false)).
        { rewrite (nth_set _ _ _ _ _ GS). apply Nat.eqb_neq in NE. rewrite NE. exact G. }
        erewrite continue_return by exact GT. intros B. injection B as <- <-.
        destruct (quiet_answer t f a IC) as (Q1 & Q2 & Q3).
        eapply only_two; try reflexivity; try eassumption; [split; [exact IC|eauto]|reflexivity]. }
      inversion SB as [f0|v a|m|m|u h|z u h]; subst; try destruct IC.
      + destruct f as [v|m|m|m|u|h|h|z u|h]; try destruct IC; cbn [body] in *.
        * cbn [p_Spawn operate] in H. unfold continue_ in H. cbn [threads] in H. rewrite G in H.
          injection H as <- <-. apply MV; reflexivity.
        * cbn [p_Join operate] in H. destruct (nth_error (chans c) h) as [ch|] eqn:CH; [|discriminate].
          destruct (sendq ch) as [|[s v] q] eqn:SQ.
          -- destruct (closed ch) eqn:CF.
             { erewrite continue_return in H by exact G. injection H as <- <-. apply AN; exact Logic.I. }
             injection H as <- <-. unfold park. cbn [set_chan threads]. rewrite G. apply MV; reflexivity.
          -- injection H as H. eapply TK; try eassumption.
        * cbn [p_IsFinished operate] in H. destruct (nth_error (chans c) h) as [ch|] eqn:CH; [|discriminate].
          destruct (sendq ch) as [|[s v] q] eqn:SQ.
          -- erewrite continue_return in H by exact G. injection H as <- <-. apply AN; exact Logic.I.
          -- injection H as H. eapply TK; try eassumption.
        * cbn [p_Gokio_Spawn operate] in H. unfold continue_ in H. cbn [threads] in H. rewrite G in H.
          injection H as <- <-. apply MV; reflexivity.
        * cbn [p_Await operate] in H. destruct (nth_error (chans c) h) as [ch|] eqn:CH; [|discriminate].
          destruct (sendq ch) as [|[s v] q] eqn:SQ.
          -- destruct (closed ch) eqn:CF.
             { erewrite continue_return in H by exact G. injection H as <- <-. apply AN; exact Logic.I. }
             injection H as <- <-. unfold park. cbn [set_chan threads]. rewrite G. apply MV; reflexivity.
          -- injection H as H. eapply TK; try eassumption.
      + cbn [operate] in H. unfold then_ in H. erewrite continue_return in H.
        2: { cbn [threads]. rewrite nth_error_app1 by (eapply nth_lt; exact G). exact G. }
        injection H as <- <-. eapply start_only; [exact G|exact Logic.I|split; [exact Logic.I|eauto]|left; reflexivity].
      + cbn [operate] in H. unfold then_ in H. erewrite continue_return in H.
        2: { cbn [threads]. rewrite nth_error_app1 by (eapply nth_lt; exact G). exact G. }
        injection H as <- <-. eapply start_only; [exact G|exact Logic.I|split; [exact Logic.I|eauto]|right; eauto].
    - destruct w; [discriminate|]. eapply send_only; try eassumption. reflexivity.
    - destruct w; [discriminate|]. eapply send_only; try eassumption. reflexivity.
    - eapply close_only; eassumption.
  Qed.

  (** *** Panics *)
  Definition crashing c (t : nat) : bool :=
    match nth_error (threads c) t with Some (mkG (Ending p) _) => crashes p | _ => false end.
  Definition PInv c tr : Prop := forall t, In (EPanic t) tr <-> crashing c t = true.
  Lemma p_one c c1 tr t g g' e : PInv c tr -> threads c1 = threads c -> nth_error (threads c) t = Some g ->
    (forall u, In (EPanic u) e <-> u = t /\ crashing (set_thread c1 t g') t = true /\ crashing c t = false) ->
    (crashing c t = true -> crashing (set_thread c1 t g') t = true) ->
    PInv (set_thread c1 t g') (tr ++ e).
  Proof.
    intros P T1 G E M u. rewrite in_app_iff, E, (P u). destruct (Nat.eqb_spec u t) as [->|N].
    - destruct (crashing c t), (crashing (set_thread c1 t g') t); intuition congruence.
    - assert (X : crashing (set_thread c1 t g') u = crashing c u).
      { unfold crashing. cbn [set_thread threads]. rewrite T1, (nth_set _ _ _ _ _ G). apply Nat.eqb_neq in N. rewrite N. reflexivity. }
      rewrite X. intuition congruence.
  Qed.
  Lemma p_channels c tr c' t e : PInv c tr -> only_channels c c' t e -> (forall u, ~ In (EPanic u) e) -> PInv c' (tr ++ e).
  Proof.
    intros P (_ & _ & _ & LE & _ & _ & _ & TH) N u. rewrite in_app_iff, (P u).
    assert (X : crashing c' u = crashing c u).
    { unfold crashing. destruct (nth_error (threads c') u) as [g'|] eqn:E.
      - destruct (TH _ _ E) as [(g & G & MV)|(B & u0 & rest & -> & _)]; [rewrite G|rewrite B; reflexivity].
        destruct g as [[a b|f p k r|p] w], g' as [[a' b'|f' p' k' r'|p'] w']; cbn in MV; try reflexivity; try destruct MV; auto.
      - apply nth_error_None in E. assert (B : nth_error (threads c) u = None) by (apply nth_error_None; lia). rewrite B. reflexivity. }
    rewrite X. specialize (N u). tauto.
  Qed.
  Lemma channel_or_not (g : goroutine) : in_channels g \/ ~ in_channels g.
  Proof. destruct g as [[u r|f p k r|p] w]; cbn; auto; [destruct f|destruct p]; cbn; auto. Qed.
  Lemma step_panics c t l c' e tr u : Inv c tr -> step c t l = Some (c', e) -> In (EPanic u) e ->
    u = t /\ exists rest w, nth_error (threads c) t = Some (mkG (Running UPanic rest) w).
  Proof.
    intros IV H B. destruct (step_shows _ _ _ _ _ _ IV H) as [EV _].
    destruct EV; cbn [In] in B; try (destruct B as [B|[B|[]]]; discriminate B); try (destruct B as [B|[]]; discriminate B); try (destruct B; fail).
    - destruct B as [B|[]]. injection B as ->. eauto.
    - apply in_map_iff in B. destruct B as (? & B & _). discriminate.
  Qed.
  Lemma p_step c t l c' e tr : Inv c tr -> PInv c tr -> step c t l = Some (c', e) -> PInv c' (tr ++ e).
  Proof.
    intros IV P H. assert (SP := fun u => step_panics _ _ _ _ _ _ u IV H).
    destruct (nth_error (threads c) t) as [g|] eqn:G; [|unfold step in H; rewrite G in H; destruct (dead c); discriminate].
    destruct (channel_or_not g) as [IC|NC].
    { eapply p_channels; [exact P|eapply chan_step; eassumption|]. intros u B. destruct (SP _ B) as (_ & r & w & C).
      injection C as ->. exact IC. }
    destruct IV as (kinds & owns & IA). destruct (a_shape _ _ _ _ _ IA _ _ G) as (kd & K & S).
    unfold step in H. destruct (dead c); [discriminate|]. rewrite G in H.
    assert (ONE : forall c1 th w, threads c1 = threads c -> crashing c t = false ->
      (forall u, ~ In (EPanic u) e) -> match th with Ending p => crashes p = false | _ => True end ->
      PInv (set_thread c1 t (mkG th w)) (tr ++ e)).
    { intros c1 th w T1 CR NE CT.
      assert (X : crashing (set_thread c1 t (mkG th w)) t = false).
      { unfold crashing. cbn [set_thread threads]. rewrite T1, (nth_set _ _ _ _ _ G), Nat.eqb_refl. destruct th; auto. }
      eapply p_one; try eassumption; rewrite X, ?CR; [|discriminate]. intros u. split; [intros B; destruct (NE _ B)|intros (_ & B & _); discriminate]. }
    assert (NOT : (forall rest w, g <> mkG (Running UPanic rest) w) -> forall u, ~ In (EPanic u) e).
    { intros B u C. destruct (SP _ C) as (_ & r & w & D). injection D as D. exact (B _ _ D). }
    inversion S as [kd0 u|kd0 f p k w SB WT|v|h w|h|kd0|h v w|h p PP|h]; subst; try discriminate; try (exfalso; apply NC; exact Logic.I).
    - assert (CR : crashing c t = false) by (unfold crashing; rewrite G; reflexivity).
      destruct u as [v|f k|a k|a v k| |].
      + injection H as <- <-. apply ONE; try assumption; try reflexivity; [apply NOT; congruence|destruct kd; reflexivity].
      + destruct (typed c f) eqn:TY; [|discriminate]. injection H as <- <-. apply ONE; try assumption; try reflexivity. apply NOT; congruence.
      + destruct (nth_error (cells c) a) as [v|] eqn:CA; [|discriminate]. injection H as <- <-. apply ONE; try assumption; try reflexivity. apply NOT; congruence.
      + destruct (nth_error (cells c) a) as [v0|] eqn:CA; [|discriminate]. injection H as <- <-. apply ONE; try assumption; try reflexivity. apply NOT; congruence.
      + injection H as <- <-.
        assert (X : crashing (set_thread c t (mkG (Ending (rest_of kd Panicked)) false)) t = true).
        { unfold crashing. cbn [set_thread threads]. rewrite (nth_set _ _ _ _ _ G), Nat.eqb_refl. destruct kd; reflexivity. }
        eapply p_one; try eassumption; try reflexivity; rewrite X, ?CR; [|discriminate]. intros u. cbn [In]. intuition congruence.
      + injection H as <- <-. apply ONE; try assumption; try reflexivity; [apply NOT; congruence|destruct kd; reflexivity].
    - destruct w; [discriminate|]. assert (CR : crashing c t = false) by (unfold crashing; rewrite G; reflexivity).
      assert (NE : forall u, ~ In (EPanic u) e) by (apply NOT; congruence).
      assert (AN : forall c1 p1, threads c1 = threads c -> continue_ c1 t p1 = (c', e) -> PInv c' (tr ++ e)).
      { intros c1 p1 T1 B. assert (G1 : nth_error (threads c1) t = Some (mkG (Inside f p k (rest_of kd)) false)) by (rewrite T1; exact G).
        unfold continue_ in B. rewrite G1 in B. destruct p1; injection B as <- <-; apply ONE; auto. }
      cbn [code in_channels] in NC.
      assert (OP : operate c t l p = Some (c', e)) by exact H. clear H.
      inversion SB as [f0|v a|m|m|u h|z u h]; subst; try (exfalso; apply NC; exact Logic.I).
      + destruct f as [v|m|m|m|u|h|h|z u|h]; try (exfalso; apply NC; exact Logic.I); cbn [body] in *.
        * cbn [p_MutexNew operate] in OP. injection OP as OP. eapply AN; [|exact OP]. reflexivity.
        * cbn [p_Lock operate] in OP. destruct (nth_error (mutexes c) m) as [mu|] eqn:MU; [|discriminate].
          destruct (locked mu) eqn:LO; [discriminate|]. injection OP as OP. eapply AN; [|exact OP]. reflexivity.
        * cbn [p_Unlock operate] in OP. destruct (nth_error (mutexes c) m) as [mu|] eqn:MU; [|discriminate].
          destruct (locked mu) eqn:LO; [injection OP as OP; eapply AN; [|exact OP]; reflexivity|].
          unfold fatal in OP. injection OP as <- <-. intros u. rewrite in_app_iff. specialize (NE u). specialize (P u). unfold crashing in *. cbn [threads]. tauto.
        * cbn [p_TryLock operate] in OP. destruct (nth_error (mutexes c) m) as [mu|] eqn:MU; [|discriminate].
          destruct (locked mu) eqn:LO; [|destruct l]; injection OP as OP; (eapply AN; [|exact OP]; reflexivity).
      + cbn [operate] in OP. injection OP as OP. eapply AN; [|exact OP]. reflexivity.
      + cbn [operate] in OP. destruct (nth_error (mutexes c) m) as [mu|] eqn:MU; [|discriminate]. injection OP as OP. eapply AN; [|exact OP]. reflexivity.
      + cbn [operate] in OP. destruct (nth_error (mutexes c) m) as [mu|] eqn:MU; [|discriminate]. injection OP as OP. eapply AN; [|exact OP]. reflexivity.
    - cbn [operate] in H. unfold fatal in H. injection H as <- <-. intros u. rewrite in_app_iff.
      assert (NE : ~ In (EPanic u) [EFatal (T := T) t]) by (intros [B|[]]; discriminate). specialize (P u). unfold crashing in *. cbn [threads]. tauto.
  Qed.
  Lemma p_start (mains : list user) : PInv (start mains) [].
  Proof.
    intros t. split; [intros []|]. unfold crashing, start. cbn [threads]. rewrite nth_error_map. destruct (nth_error mains t); discriminate.
  Qed.
  Lemma p_run s : forall c tr c' e, Inv c tr -> PInv c tr -> run c s = (c', e) -> PInv c' (tr ++ e).
  Proof.
    induction s as [|[t l] s IH]; intros c tr c' e IV I H; cbn [run] in H.
    - injection H as <- <-. rewrite app_nil_r. exact I.
    - destruct (step c t l) as [[c1 e1]|] eqn:E.
      + destruct (run c1 s) as [c2 e2] eqn:R. injection H as <- <-. rewrite app_assoc.
        eapply IH; [eapply step_inv; eassumption|eapply p_step; eassumption|exact R].
      + eapply IH; eassumption.
  Qed.
  Lemma p_reach (mains : list user) s c tr : run (start mains) s = (c, tr) -> PInv c tr.
  Proof. intros H. apply (p_run _ _ [] _ _ (start_inv mains) (p_start mains) H). Qed.

  (** *** The invariant *)
  Definition call_rule (D : list (nat * nat) -> user -> Prop) (h : list (nat * nat)) (f : call user) (k : val -> user) : Prop :=
    match f with
    | Lock m => forall a, D ((m, a) :: h) (k (VPtr a))
    | TryLock m => (forall a, D ((m, a) :: h) (k (VOk (VPtr a)))) /\ D h (k VErr)
    | Unlock m => In m (map fst h) /\ forall v, D (release m h) (k v)
    | Spawn u | Gokio_Spawn _ u => D [] u /\ forall v, D h (k v)
    | _ => forall v, D h (k v)
    end.
  Definition rule D (h : list (nat * nat)) (g : goroutine) : Prop :=
    match code g with
    | Running u _ => D h u
    | Inside f _ k _ => call_rule D h f k
    | Ending _ => True
    end.
  Definition acquiring (g : goroutine) : option nat :=
    match code g with
    | Inside (Lock m) (GetValue _ _) _ _ => Some m
    | Inside (TryLock m) (GetValue _ _) _ _ => Some m
    | _ => None
    end.
  Definition making (g : goroutine) : option (val * nat) :=
    match code g with Inside (MutexNew v) (NewMutex a _) _ _ => Some (v, a) | _ => None end.
  Definition acq c (t : nat) : option nat := match nth_error (threads c) t with Some g => acquiring g | None => None end.
  Definition mak c (t : nat) : option (val * nat) := match nth_error (threads c) t with Some g => making g | None => None end.
  Definition owning c tr (t m : nat) : Prop := In m (map fst (held tr t)) \/ acq c t = Some m.

  Definition stopped tr : Prop := exists t, In (EPanic t) tr /\ In (EFatal t) tr.
  Lemma stopped_app tr e : stopped tr -> stopped (tr ++ e).
  Proof. intros (t & A & B). exists t. split; apply in_or_app; left; assumption. Qed.
  Record MInv D c tr : Prop := {
    m_dead : dead c = true -> stopped tr;
    m_rule : forall t g, nth_error (threads c) t = Some g -> rule D (held tr t) g;
    m_none : forall t, nth_error (threads c) t = None -> held tr t = [];
    m_excl : forall t1 t2 m, owning c tr t1 m -> owning c tr t2 m -> t1 = t2;
    m_lock : forall m mu, nth_error (mutexes c) m = Some mu -> (locked mu = true <-> exists t, owning c tr t m);
    m_ptr : forall t m a, In (m, a) (held tr t) -> exists mu, nth_error (mutexes c) m = Some mu /\ value mu = a;
    m_nodup : forall t, NoDup (map fst (held tr t));
    m_acq : forall t m, acq c t = Some m -> ~ In m (map fst (held tr t));
    m_call : forall t f, mode c t = Some f ->
      match f with Lock m | Unlock m | TryLock m => m < length (mutexes c) | _ => True end;
    m_new : forall t v a, mak c t = Some (v, a) -> nth_error (cells c) a = Some v /\ last_store tr a = None;
    m_val : forall m mu, nth_error (mutexes c) m = Some mu ->
      value mu < length (cells c) /\ nth_error (cells c) (value mu) = current tr m (value mu);
    m_init : forall m, length (mutexes c) <= m -> initial tr m = None;
    m_store : forall a, length (cells c) <= a -> last_store tr a = None;
    m_inj : forall m1 m2 mu1 mu2, nth_error (mutexes c) m1 = Some mu1 -> nth_error (mutexes c) m2 = Some mu2 ->
      value mu1 = value mu2 -> m1 = m2;
    m_pend : forall t v a m mu, mak c t = Some (v, a) -> nth_error (mutexes c) m = Some mu -> value mu <> a;
    m_pend1 : forall t1 t2 v1 v2 a, mak c t1 = Some (v1, a) -> mak c t2 = Some (v2, a) -> t1 = t2 }.

  Lemma held_app tr e t : held (tr ++ e) t = fold_left (holds_after t) e (held tr t).
  Proof. unfold held. apply fold_left_app. Qed.
  Lemma last_store_app tr e a : last_store (tr ++ e) a = match last_store e a with Some w => Some w | None => last_store tr a end.
  Proof.
    induction tr as [|x tr IH]; cbn [app last_store]; [destruct (last_store e a); reflexivity|].
    destruct x; rewrite ?IH; try reflexivity. destruct (last_store e a); reflexivity.
  Qed.
  Lemma initial_app tr e m : initial (tr ++ e) m = match initial tr m with Some v => Some v | None => initial e m end.
  Proof.
    induction tr as [|x tr IH]; cbn [app initial]; [reflexivity|].
    destruct x; rewrite ?IH; try reflexivity. destruct f; try reflexivity. destruct v; try reflexivity. destruct (m0 =? m); reflexivity.
  Qed.

  (** Steps that leave the locks alone. *)
  Lemma m_frame D c tr c' e : MInv D c tr ->
    (dead c' = true -> stopped (tr ++ e)) -> mutexes c' = mutexes c -> length (cells c') = length (cells c) ->
    (forall u l, fold_left (holds_after u) e l = l) -> (forall m, initial e m = None) ->
    (forall u, acq c' u = acq c u) -> (forall u, mak c' u = mak c u) ->
    (forall u g, nth_error (threads c') u = Some g -> rule D (held tr u) g) ->
    (forall u, nth_error (threads c') u = None -> nth_error (threads c) u = None) ->
    (forall u f, mode c' u = Some f -> match f with Lock m | Unlock m | TryLock m => m < length (mutexes c) | _ => True end) ->
    (forall a v, nth_error (cells c) a = Some v -> nth_error (cells c') a = Some (match last_store e a with Some w => w | None => v end)) ->
    (forall a, length (cells c) <= a -> last_store e a = None) ->
    (forall t v a, mak c t = Some (v, a) -> last_store e a = None) ->
    MInv D c' (tr ++ e).
  Proof.
    intros I DE MU LC HE IE AC MK RU NO CA CE SE ME.
    assert (HH : forall u, held (tr ++ e) u = held tr u) by (intros u; rewrite held_app; apply HE).
    assert (II : forall m, initial (tr ++ e) m = initial tr m).
    { intros m. rewrite initial_app, IE. destruct (initial tr m); reflexivity. }
    assert (OW : forall t m, owning c' (tr ++ e) t m <-> owning c tr t m) by (intros t m; unfold owning; rewrite HH, AC; reflexivity).
    constructor; rewrite ?MU, ?LC.
    - exact DE.
    - intros t g H. rewrite HH. apply RU. exact H.
    - intros t H. rewrite HH. apply (m_none _ _ _ I). apply NO. exact H.
    - intros t1 t2 m H1 H2. rewrite OW in H1, H2. eapply (m_excl _ _ _ I); eassumption.
    - intros m mu H. rewrite (m_lock _ _ _ I _ _ H). split; intros (t & B); exists t; apply OW; exact B.
    - intros t m a H. rewrite HH in H. apply (m_ptr _ _ _ I _ _ _ H).
    - intros t. rewrite HH. apply (m_nodup _ _ _ I).
    - intros t m H. rewrite AC in H. rewrite HH. apply (m_acq _ _ _ I). exact H.
    - exact CA.
    - intros t v a H. rewrite MK in H. destruct (m_new _ _ _ I _ _ _ H) as [H1 H2]. assert (H3 := ME _ _ _ H).
      rewrite last_store_app, H3. split; [|exact H2]. rewrite (CE _ _ H1), H3. reflexivity.
    - intros m mu H. destruct (m_val _ _ _ I _ _ H) as [H1 H2]. split; [exact H1|].
      destruct (nth_error (cells c) (value mu)) as [v|] eqn:E; [|apply nth_error_None in E; lia].
      rewrite (CE _ _ E). unfold current in *. rewrite last_store_app, II. destruct (last_store e (value mu)); [reflexivity|].
      exact H2.
    - intros m H. rewrite II. apply (m_init _ _ _ I). exact H.
    - intros a H. rewrite last_store_app, (SE _ H). apply (m_store _ _ _ I). exact H.
    - apply (m_inj _ _ _ I).
    - intros t v a m mu H. rewrite MK in H. apply (m_pend _ _ _ I _ _ _ _ _ H).
    - intros t1 t2 v1 v2 a H1 H2. rewrite MK in H1, H2. eapply (m_pend1 _ _ _ I); eassumption.
  Qed.

  Lemma nth_fun {A} (F : goroutine -> option A) c t g g0 u : nth_error (threads c) t = Some g0 ->
    match nth_error (list_set (threads c) t g) u with Some x => F x | None => None end =
    if u =? t then F g else match nth_error (threads c) u with Some x => F x | None => None end.
  Proof. intros G. rewrite (nth_set _ _ _ _ _ G). destruct (u =? t); reflexivity. Qed.

  Lemma m_local D c c1 tr t g g' e : MInv D c tr -> nth_error (threads c) t = Some g ->
    threads c1 = threads c -> dead c1 = dead c -> mutexes c1 = mutexes c -> length (cells c1) = length (cells c) ->
    (forall u l, fold_left (holds_after u) e l = l) -> (forall m, initial e m = None) ->
    acquiring g' = acquiring g -> making g' = making g ->
    rule D (held tr t) g' ->
    (forall f, mode_of (Some g') = Some f -> match f with Lock m | Unlock m | TryLock m => m < length (mutexes c) | _ => True end) ->
    (forall a v, nth_error (cells c) a = Some v -> nth_error (cells c1) a = Some (match last_store e a with Some w => w | None => v end)) ->
    (forall a, length (cells c) <= a -> last_store e a = None) ->
    (forall t v a, mak c t = Some (v, a) -> last_store e a = None) ->
    MInv D (set_thread c1 t g') (tr ++ e).
  Proof.
    intros I G T1 D1 M1 C1 HE IE AC MK RU CA CE SE ME.
    apply (m_frame D c tr); try assumption.
    - cbn. rewrite D1. intros B. apply stopped_app, (m_dead _ _ _ I). exact B.
    - intros u. unfold acq. cbn [set_thread threads]. rewrite T1, (nth_fun _ _ _ _ _ _ G).
      destruct (Nat.eqb_spec u t) as [->|]; [rewrite G; exact AC|reflexivity].
    - intros u. unfold mak. cbn [set_thread threads]. rewrite T1, (nth_fun _ _ _ _ _ _ G).
      destruct (Nat.eqb_spec u t) as [->|]; [rewrite G; exact MK|reflexivity].
    - intros u gu. cbn [set_thread threads]. rewrite T1, (nth_set _ _ _ _ _ G).
      destruct (Nat.eqb_spec u t) as [->|]; intros H; [injection H as <-; exact RU|apply (m_rule _ _ _ I); exact H].
    - intros u. cbn [set_thread threads]. rewrite T1, (nth_set _ _ _ _ _ G). destruct (Nat.eqb_spec u t) as [->|]; [discriminate|auto].
    - intros u f. unfold mode. cbn [set_thread threads]. rewrite T1, (nth_set _ _ _ _ _ G).
      destruct (Nat.eqb_spec u t) as [->|]; intros H; [apply CA; exact H|apply (m_call _ _ _ I u); exact H].
  Qed.

  Lemma m_channels D c tr c' t e : MInv D c tr -> only_channels c c' t e -> MInv D c' (tr ++ e).
  Proof.
    intros I (CE & MU & DE & LE & HE & SE & IE & TH).
    assert (CASE : forall u g', nth_error (threads c') u = Some g' ->
      (exists g, nth_error (threads c) u = Some g /\ moved g g') \/
      (nth_error (threads c) u = None /\ exists u0 rest, g' = mkG (Running u0 rest) false /\ D [] u0)).
    { intros u g' H. destruct (TH _ _ H) as [A|(N & u0 & rest & -> & M)]; [left; exact A|]. right. split; [exact N|].
      exists u0, rest. split; [reflexivity|].
      assert (MM : exists f, mode c t = Some f /\ (f = Spawn u0 \/ exists z, f = Gokio_Spawn z u0)).
      { destruct M as [M|(z & M)]; eexists; (split; [exact M|eauto]). }
      destruct MM as (f & M1 & F). destruct (mode_inside _ _ _ M1) as (p & k & r & w & G).
      assert (R := m_rule _ _ _ I _ _ G). unfold rule in R. cbn [code] in R. destruct F as [->|(z & ->)]; destruct R as [R _]; exact R. }
    assert (NN : forall u, nth_error (threads c') u = None -> nth_error (threads c) u = None).
    { intros u H. apply nth_error_None in H. apply nth_error_None. lia. }
    apply (m_frame D c tr); try assumption.
    - rewrite DE. intros B. apply stopped_app, (m_dead _ _ _ I). exact B.
    - rewrite CE. reflexivity.
    - intros u. unfold acq. destruct (nth_error (threads c') u) as [g'|] eqn:E; [|rewrite (NN _ E); reflexivity].
      destruct (CASE _ _ E) as [(g & G & MV)|(N & u0 & rest & -> & _)]; [rewrite G|rewrite N; reflexivity].
      destruct g as [[a b|f p k r|p] w], g' as [[a' b'|f' p' k' r'|p'] w']; cbn in *; try reflexivity; try destruct MV.
      + destruct f; try destruct H; reflexivity.
      + destruct H0 as (-> & [->|CC]); subst; [reflexivity|]. destruct f'; try destruct CC; reflexivity.
    - intros u. unfold mak. destruct (nth_error (threads c') u) as [g'|] eqn:E; [|rewrite (NN _ E); reflexivity].
      destruct (CASE _ _ E) as [(g & G & MV)|(N & u0 & rest & -> & _)]; [rewrite G|rewrite N; reflexivity].
      destruct g as [[a b|f p k r|p] w], g' as [[a' b'|f' p' k' r'|p'] w']; cbn in *; try reflexivity; try destruct MV.
      + destruct f; try destruct H; reflexivity.
      + destruct H0 as (-> & [->|CC]); subst; [reflexivity|]. destruct f'; try destruct CC; reflexivity.
    - intros u g' E. destruct (CASE _ _ E) as [(g & G & MV)|(N & u0 & rest & -> & R)].
      + assert (R := m_rule _ _ _ I _ _ G). unfold rule in *.
        destruct g as [[a b|f p k r|p] w], g' as [[a' b'|f' p' k' r'|p'] w']; cbn in *; try destruct MV; subst; try exact R; try exact Logic.I.
        * destruct H0 as (v & ->). destruct f; try destruct H; try apply R; destruct R as [_ R]; apply R.
        * destruct H0 as (-> & _). exact R.
      + rewrite (m_none _ _ _ I _ N). exact R.
    - intros u f. unfold mode. destruct (nth_error (threads c') u) as [g'|] eqn:E; [|discriminate].
      destruct (CASE _ _ E) as [(g & G & MV)|(N & u0 & rest & -> & R)]; [|discriminate].
      intros H. apply (m_call _ _ _ I u). unfold mode. rewrite G.
      destruct g as [[a b|f0 p k r|p] w], g' as [[a' b'|f' p' k' r'|p'] w']; cbn in *; try discriminate; try destruct MV; congruence.
    - intros a v H. rewrite CE, SE. exact H.
    - intros a _. apply SE.
    - intros u v a _. apply SE.
  Qed.

  (** *** Making, taking and releasing mutexes *)
  Lemma mutex_set c m mu0 mu x : nth_error (mutexes c) m = Some mu0 ->
    nth_error (list_set (mutexes c) m mu) x = if x =? m then Some mu else nth_error (mutexes c) x.
  Proof.
    intros H. rewrite nth_error_list_set. rewrite (Nat.eqb_sym m x).
    destruct (Nat.eqb_spec x m) as [->|N]; [|reflexivity].
    assert (m < length (mutexes c)) by (apply nth_error_Some; congruence).
    destruct (Nat.ltb_spec m (length (mutexes c))); [reflexivity|lia].
  Qed.
  Lemma nth_snoc {A} (l : list A) x i y : nth_error (l ++ [x]) i = Some y -> nth_error l i = Some y \/ (i = length l /\ y = x).
  Proof.
    intros H. destruct (Nat.ltb_spec i (length l)) as [L|L].
    - left. rewrite nth_error_app1 in H by exact L. exact H.
    - right. rewrite nth_error_app2 in H by exact L. destruct (i - length l) as [|[|n]] eqn:E; try discriminate.
      injection H as <-. split; [lia|reflexivity].
  Qed.
  Lemma acq_set c t g g0 u : nth_error (threads c) t = Some g0 ->
    acq (set_thread c t g) u = if u =? t then acquiring g else acq c u.
  Proof. intros G. unfold acq. cbn [set_thread threads]. eapply nth_fun. exact G. Qed.
  Lemma mak_set c t g g0 u : nth_error (threads c) t = Some g0 ->
    mak (set_thread c t g) u = if u =? t then making g else mak c u.
  Proof. intros G. unfold mak. cbn [set_thread threads]. eapply nth_fun. exact G. Qed.

  Lemma m_alloc D c tr t v p k rest : MInv D c tr ->
    nth_error (threads c) t = Some (mkG (Inside (MutexNew v) p k rest) false) -> making (mkG (Inside (MutexNew v) p k rest) false) = None ->
    MInv D (set_thread (mkConfig (threads c) (cells c ++ [v]) (mutexes c) (chans c) (dead c)) t
      (mkG (Inside (MutexNew v) (NewMutex (length (cells c)) (fun m => Return (VMutex m))) k rest) false)) tr.
  Proof.
    intros I G MK. set (g' := mkG (Inside (MutexNew v) _ k rest) false).
    set (c1 := mkConfig (threads c) (cells c ++ [v]) (mutexes c) (chans c) (dead c)).
    assert (G1 : nth_error (threads c1) t = Some (mkG (Inside (MutexNew v) p k rest) false)) by exact G.
    assert (AC : forall u, acq (set_thread c1 t g') u = acq c u).
    { intros u. rewrite (acq_set _ _ _ _ _ G1). destruct (Nat.eqb_spec u t) as [->|]; [|reflexivity]. unfold acq. rewrite G. reflexivity. }
    assert (MA : forall u, mak (set_thread c1 t g') u = if u =? t then Some (v, length (cells c)) else mak c u).
    { intros u. rewrite (mak_set _ _ _ _ _ G1). reflexivity. }
    assert (OW : forall u m, owning (set_thread c1 t g') tr u m <-> owning c tr u m) by (intros u m; unfold owning; rewrite AC; reflexivity).
    assert (LT : forall u x a, mak c u = Some (x, a) -> a < length (cells c)).
    { intros u x a H. apply (m_new _ _ _ I) in H. destruct H as [H _]. eapply nth_lt. exact H. }
    constructor.
    - intros B. try apply stopped_app. apply (m_dead _ _ _ I). exact B.
    - intros u gu. cbn [set_thread threads c1]. rewrite (nth_set _ _ _ _ _ G). destruct (Nat.eqb_spec u t) as [->|]; intros H.
      + injection H as <-. apply (m_rule _ _ _ I _ _ G).
      + apply (m_rule _ _ _ I _ _ H).
    - intros u. cbn [set_thread threads c1]. rewrite (nth_set _ _ _ _ _ G). destruct (Nat.eqb_spec u t) as [->|]; [discriminate|apply (m_none _ _ _ I)].
    - intros t1 t2 m H1 H2. rewrite OW in H1, H2. eapply (m_excl _ _ _ I); eassumption.
    - intros m mu H. rewrite (m_lock _ _ _ I _ _ H). split; intros (u & B); exists u; apply OW; exact B.
    - intros u m a H. apply (m_ptr _ _ _ I _ _ _ H).
    - apply (m_nodup _ _ _ I).
    - intros u m H. rewrite AC in H. apply (m_acq _ _ _ I). exact H.
    - intros u f. unfold mode. cbn [set_thread threads c1]. rewrite (nth_set _ _ _ _ _ G). destruct (Nat.eqb_spec u t) as [->|]; intros H.
      + injection H as <-. exact Logic.I.
      + apply (m_call _ _ _ I u). exact H.
    - intros u x a H. rewrite MA in H. cbn [set_thread cells c1]. destruct (Nat.eqb_spec u t) as [->|].
      + injection H as <- <-. rewrite nth_error_app2, Nat.sub_diag by lia. split; [reflexivity|]. apply (m_store _ _ _ I). lia.
      + assert (L := LT _ _ _ H). rewrite nth_error_app1 by exact L. apply (m_new _ _ _ I _ _ _ H).
    - intros m mu H. cbn [set_thread cells c1]. destruct (m_val _ _ _ I _ _ H) as [H1 H2].
      rewrite app_length, nth_error_app1 by exact H1. split; [lia|exact H2].
    - intros m H. apply (m_init _ _ _ I). exact H.
    - intros a H. cbn [set_thread cells c1] in H. rewrite app_length in H. apply (m_store _ _ _ I). cbn in H. lia.
    - apply (m_inj _ _ _ I).
    - intros u x a m mu H HM. rewrite MA in H. destruct (Nat.eqb_spec u t) as [->|].
      + injection H as <- <-. destruct (m_val _ _ _ I _ _ HM) as [H1 _]. lia.
      + apply (m_pend _ _ _ I _ _ _ _ _ H HM).
    - intros t1 t2 v1 v2 a H1 H2. rewrite MA in H1, H2.
      destruct (Nat.eqb_spec t1 t) as [->|N1], (Nat.eqb_spec t2 t) as [->|N2].
      + reflexivity.
      + injection H1 as <- <-. apply LT in H2. lia.
      + injection H2 as <- <-. apply LT in H1. lia.
      + eapply (m_pend1 _ _ _ I); eassumption.
  Qed.

  Lemma m_make D c tr t v a k rest : MInv D c tr ->
    nth_error (threads c) t = Some (mkG (Inside (MutexNew v) (NewMutex a (fun m => Return (VMutex m))) k rest) false) ->
    MInv D (set_thread (mkConfig (threads c) (cells c) (mutexes c ++ [mkMutex a false]) (chans c) (dead c)) t
      (mkG (Running (k (VMutex (length (mutexes c)))) rest) false))
      (tr ++ [EAnswer t (MutexNew v) (VMutex (length (mutexes c)))]).
  Proof.
    intros I G. set (g' := mkG (Running _ rest) false). set (e := [EAnswer t (MutexNew v) _]).
    set (c1 := mkConfig (threads c) (cells c) (mutexes c ++ [mkMutex a false]) (chans c) (dead c)).
    assert (G1 : nth_error (threads c1) t = Some (mkG (Inside (MutexNew v) (NewMutex a (fun m => Return (VMutex m))) k rest) false)) by exact G.
    assert (HH : forall u, held (tr ++ e) u = held tr u) by (intros u; rewrite held_app; reflexivity).
    assert (LS : forall x, last_store (tr ++ e) x = last_store tr x) by (intros x; rewrite last_store_app; reflexivity).
    assert (MT : mak c t = Some (v, a)) by (unfold mak; rewrite G; reflexivity).
    assert (AC : forall u, acq (set_thread c1 t g') u = acq c u).
    { intros u. rewrite (acq_set _ _ _ _ _ G1). destruct (Nat.eqb_spec u t) as [->|]; [|reflexivity]. unfold acq. rewrite G. reflexivity. }
    assert (MA : forall u, mak (set_thread c1 t g') u = if u =? t then None else mak c u).
    { intros u. rewrite (mak_set _ _ _ _ _ G1). reflexivity. }
    assert (OW : forall u m, owning (set_thread c1 t g') (tr ++ e) u m <-> owning c tr u m) by (intros u m; unfold owning; rewrite AC, HH; reflexivity).
    assert (OB : forall u m, owning c tr u m -> m < length (mutexes c)).
    { intros u m [H|H].
      - apply in_map_iff in H. destruct H as ((x & y) & <- & H). destruct (m_ptr _ _ _ I _ _ _ H) as (mu & B & _). eapply nth_lt. exact B.
      - unfold acq in H. destruct (nth_error (threads c) u) as [[[|f p k0 r|] w]|] eqn:E; try discriminate.
        assert (B : mode c u = Some f) by (unfold mode; rewrite E; reflexivity). apply (m_call _ _ _ I) in B.
        unfold acquiring in H. cbn [code] in H. destruct f; try discriminate; destruct p; try discriminate; injection H as <-; exact B. }
    constructor.
    - intros B. try apply stopped_app. apply (m_dead _ _ _ I). exact B.
    - intros u gu. cbn [set_thread threads c1]. rewrite HH, (nth_set _ _ _ _ _ G). destruct (Nat.eqb_spec u t) as [->|]; intros H.
      + injection H as <-. apply (m_rule _ _ _ I _ _ G).
      + apply (m_rule _ _ _ I _ _ H).
    - intros u. cbn [set_thread threads c1]. rewrite HH, (nth_set _ _ _ _ _ G). destruct (Nat.eqb_spec u t) as [->|]; [discriminate|apply (m_none _ _ _ I)].
    - intros t1 t2 m H1 H2. rewrite OW in H1, H2. eapply (m_excl _ _ _ I); eassumption.
    - intros m mu H. cbn [set_thread mutexes c1] in H. apply nth_snoc in H. destruct H as [H|[-> ->]].
      + rewrite (m_lock _ _ _ I _ _ H). split; intros (u & B); exists u; apply OW; exact B.
      + split; [discriminate|]. intros (u & B). rewrite OW in B. apply OB in B. lia.
    - intros u m x H. rewrite HH in H. destruct (m_ptr _ _ _ I _ _ _ H) as (mu & B & C). exists mu. split; [|exact C].
      cbn [set_thread mutexes c1]. rewrite nth_error_app1 by (eapply nth_lt; exact B). exact B.
    - intros u. rewrite HH. apply (m_nodup _ _ _ I).
    - intros u m H. rewrite AC in H. rewrite HH. apply (m_acq _ _ _ I). exact H.
    - intros u f. unfold mode. cbn [set_thread threads c1 mutexes]. rewrite (nth_set _ _ _ _ _ G). destruct (Nat.eqb_spec u t) as [->|]; intros H.
      + discriminate.
      + assert (B := m_call _ _ _ I u f H). rewrite app_length. destruct f; try exact B; lia.
    - intros u x b H. rewrite MA in H. rewrite LS. destruct (Nat.eqb_spec u t) as [->|]; [discriminate|]. apply (m_new _ _ _ I _ _ _ H).
    - intros m mu H. cbn [set_thread mutexes c1] in H. unfold current. rewrite LS, initial_app. apply nth_snoc in H. destruct H as [H|[-> ->]].
      + destruct (m_val _ _ _ I _ _ H) as [H1 H2]. split; [exact H1|]. cbn [set_thread cells c1]. rewrite H2. unfold current.
        destruct (last_store tr (value mu)) eqn:LSE; [reflexivity|]. unfold current in H2. rewrite LSE in H2. rewrite <- H2.
        destruct (nth_error (cells c) (value mu)) eqn:NC; [reflexivity|]. apply nth_error_None in NC. lia.
      + cbn [value]. destruct (m_new _ _ _ I _ _ _ MT) as [H1 H2]. split; [eapply nth_lt; exact H1|].
        rewrite H2, (m_init _ _ _ I) by lia. cbn [set_thread cells c1]. unfold e. cbn [initial]. rewrite Nat.eqb_refl. exact H1.
    - intros m H. cbn [set_thread mutexes c1] in H. rewrite app_length in H. cbn [length] in H. rewrite initial_app, (m_init _ _ _ I) by lia.
      unfold e. cbn [initial]. destruct (Nat.eqb_spec (length (mutexes c)) m); [lia|reflexivity].
    - intros x H. rewrite LS. apply (m_store _ _ _ I). exact H.
    - intros m1 m2 mu1 mu2 H1 H2 V. cbn [set_thread mutexes c1] in H1, H2. apply nth_snoc in H1. apply nth_snoc in H2.
      destruct H1 as [H1|[-> ->]], H2 as [H2|[-> ->]].
      + eapply (m_inj _ _ _ I); eassumption.
      + exfalso. apply (m_pend _ _ _ I _ _ _ _ _ MT H1). exact V.
      + exfalso. apply (m_pend _ _ _ I _ _ _ _ _ MT H2). symmetry. exact V.
      + reflexivity.
    - intros u x b m mu H HM. rewrite MA in H. destruct (Nat.eqb_spec u t) as [->|N]; [discriminate|].
      cbn [set_thread mutexes c1] in HM. apply nth_snoc in HM. destruct HM as [HM|[-> ->]].
      + apply (m_pend _ _ _ I _ _ _ _ _ H HM).
      + cbn [value]. intros ->. apply N. eapply (m_pend1 _ _ _ I); eassumption.
    - intros t1 t2 v1 v2 b H1 H2. rewrite MA in H1, H2.
      destruct (Nat.eqb_spec t1 t) as [->|N1]; [discriminate|]. destruct (Nat.eqb_spec t2 t) as [->|N2]; [discriminate|].
      eapply (m_pend1 _ _ _ I); eassumption.
  Qed.

  (** The lock is taken; the pointer is fetched next. *)
  Lemma m_take D c tr t m mu f p q k rest : MInv D c tr ->
    nth_error (threads c) t = Some (mkG (Inside f p k rest) false) -> acquiring (mkG (Inside f p k rest) false) = None ->
    f = Lock m \/ f = TryLock m ->
    nth_error (mutexes c) m = Some mu -> locked mu = false ->
    MInv D (set_thread (set_mutex c m (mkMutex (value mu) true)) t (mkG (Inside f (GetValue m q) k rest) false)) tr.
  Proof.
    intros I G AQ F MU L. set (g' := mkG (Inside f (GetValue m q) k rest) false). set (c1 := set_mutex c m _).
    assert (G1 : nth_error (threads c1) t = Some (mkG (Inside f p k rest) false)) by exact G.
    assert (AC : forall u, acq (set_thread c1 t g') u = if u =? t then Some m else acq c u).
    { intros u. rewrite (acq_set _ _ _ _ _ G1). destruct (Nat.eqb_spec u t) as [->|]; [|reflexivity].
      unfold g'. cbn. destruct F as [->| ->]; reflexivity. }
    assert (AT : acq c t = None) by (unfold acq; rewrite G; exact AQ).
    assert (MA : forall u, mak (set_thread c1 t g') u = mak c u).
    { intros u. rewrite (mak_set _ _ _ _ _ G1). destruct (Nat.eqb_spec u t) as [->|]; [|reflexivity].
      unfold mak. rewrite G. unfold g', making. cbn [code]. destruct F as [->| ->]; reflexivity. }
    assert (FREE : forall u, ~ owning c tr u m).
    { intros u B. assert (E : locked mu = true) by (apply (m_lock _ _ _ I _ _ MU); eauto). congruence. }
    assert (OW : forall u x, owning (set_thread c1 t g') tr u x <-> owning c tr u x \/ (u = t /\ x = m)).
    { intros u x. unfold owning. rewrite AC. destruct (Nat.eqb_spec u t) as [->|].
      - rewrite AT. split; [intros [B|B]; [auto|right; split; congruence]|intros [[B|B]|[_ ->]]; [auto|discriminate|auto]].
      - split; [auto|intros [B|[B _]]; [exact B|contradiction]]. }
    assert (NM : forall x, nth_error (list_set (mutexes c) m (mkMutex (value mu) true)) x = if x =? m then Some (mkMutex (value mu) true) else nth_error (mutexes c) x).
    { intros x. apply (mutex_set _ _ _ _ _ MU). }
    assert (VAL : forall x y, nth_error (list_set (mutexes c) m (mkMutex (value mu) true)) x = Some y -> exists y0, nth_error (mutexes c) x = Some y0 /\ value y0 = value y).
    { intros x y. rewrite NM. destruct (Nat.eqb_spec x m) as [->|]; intros B; [injection B as <-; exists mu; auto|exists y; auto]. }
    constructor.
    - intros B. try apply stopped_app. apply (m_dead _ _ _ I). exact B.
    - intros u gu. cbn [set_thread threads c1 set_mutex]. rewrite (nth_set _ _ _ _ _ G). destruct (Nat.eqb_spec u t) as [->|]; intros H.
      + injection H as <-. apply (m_rule _ _ _ I _ _ G).
      + apply (m_rule _ _ _ I _ _ H).
    - intros u. cbn [set_thread threads c1 set_mutex]. rewrite (nth_set _ _ _ _ _ G). destruct (Nat.eqb_spec u t) as [->|]; [discriminate|apply (m_none _ _ _ I)].
    - intros t1 t2 x H1 H2. rewrite OW in H1, H2. destruct H1 as [H1|[E1 X1]], H2 as [H2|[E2 X2]]; subst.
      + eapply (m_excl _ _ _ I); eassumption.
      + destruct (FREE _ H1).
      + destruct (FREE _ H2).
      + reflexivity.
    - intros x y H. cbn [set_thread mutexes c1 set_mutex] in H. rewrite NM in H. destruct (Nat.eqb_spec x m) as [->|N].
      + injection H as <-. cbn [locked]. split; [intros _; exists t; apply OW; auto|reflexivity].
      + rewrite (m_lock _ _ _ I _ _ H). split; intros (u & B); exists u; [apply OW; auto|].
        apply OW in B. destruct B as [B|[_ B]]; [exact B|contradiction].
    - intros u x a H. destruct (m_ptr _ _ _ I _ _ _ H) as (y & B & C). cbn [set_thread mutexes c1 set_mutex]. rewrite NM.
      destruct (Nat.eqb_spec x m) as [->|]; [|exists y; auto]. eexists. split; [reflexivity|]. cbn. congruence.
    - apply (m_nodup _ _ _ I).
    - intros u x H. rewrite AC in H. destruct (Nat.eqb_spec u t) as [->|].
      + injection H as <-. intros B. apply (FREE t). left. exact B.
      + apply (m_acq _ _ _ I). exact H.
    - intros u f0. unfold mode. cbn [set_thread threads c1 mutexes set_mutex]. rewrite list_set_length, (nth_set _ _ _ _ _ G).
      destruct (Nat.eqb_spec u t) as [->|]; intros H.
      + injection H as <-. apply nth_lt in MU. destruct F as [->| ->]; exact MU.
      + apply (m_call _ _ _ I u f0 H).
    - intros u x a H. rewrite MA in H. apply (m_new _ _ _ I _ _ _ H).
    - intros x y H. cbn [set_thread mutexes c1 set_mutex] in H. destruct (VAL _ _ H) as (y0 & B & <-). apply (m_val _ _ _ I _ _ B).
    - intros x H. cbn [set_thread mutexes c1 set_mutex] in H. rewrite list_set_length in H. apply (m_init _ _ _ I). exact H.
    - apply (m_store _ _ _ I).
    - intros m1 m2 mu1 mu2 H1 H2 V. destruct (VAL _ _ H1) as (y1 & B1 & C1). destruct (VAL _ _ H2) as (y2 & B2 & C2).
      eapply (m_inj _ _ _ I); [exact B1|exact B2|congruence].
    - intros u x a m0 y H HM. rewrite MA in H. destruct (VAL _ _ HM) as (y0 & B & <-). apply (m_pend _ _ _ I _ _ _ _ _ H B).
    - intros t1 t2 v1 v2 a H1 H2. rewrite MA in H1, H2. eapply (m_pend1 _ _ _ I); eassumption.
  Qed.

  (** Lock or TryLock returns: the goroutine is inside. *)
  Lemma m_enter D c tr t m mu f v q k rest : MInv D c tr ->
    nth_error (threads c) t = Some (mkG (Inside f (GetValue m q) k rest) false) ->
    (f = Lock m /\ v = VPtr (value mu)) \/ (f = TryLock m /\ v = VOk (VPtr (value mu))) ->
    nth_error (mutexes c) m = Some mu ->
    MInv D (set_thread c t (mkG (Running (k v) rest) false)) (tr ++ [EAnswer t f v]).
  Proof.
    intros I G F MU. set (g' := mkG (Running (k v) rest) false). set (e := [EAnswer t f v]).
    assert (HH : forall u, held (tr ++ e) u = if u =? t then (m, value mu) :: held tr t else held tr u).
    { intros u. rewrite held_app. unfold e. cbn [fold_left].
      destruct F as [[-> ->]|[-> ->]]; cbn [holds_after]; rewrite (Nat.eqb_sym t u); destruct (Nat.eqb_spec u t) as [->|]; reflexivity. }
    assert (LS : forall x, last_store (tr ++ e) x = last_store tr x) by (intros x; rewrite last_store_app; reflexivity).
    assert (II : forall x, initial (tr ++ e) x = initial tr x).
    { intros x. rewrite initial_app. unfold e. destruct F as [[-> ->]|[-> ->]]; cbn [initial]; destruct (initial tr x); reflexivity. }
    assert (AT : acq c t = Some m) by (unfold acq; rewrite G; destruct F as [[-> ->]|[-> ->]]; reflexivity).
    assert (AC : forall u, acq (set_thread c t g') u = if u =? t then None else acq c u).
    { intros u. rewrite (acq_set _ _ _ _ _ G). reflexivity. }
    assert (MA : forall u, mak (set_thread c t g') u = mak c u).
    { intros u. rewrite (mak_set _ _ _ _ _ G). destruct (Nat.eqb_spec u t) as [->|]; [|reflexivity].
      unfold mak. rewrite G. destruct F as [[-> ->]|[-> ->]]; reflexivity. }
    assert (OW : forall u x, owning (set_thread c t g') (tr ++ e) u x <-> owning c tr u x).
    { intros u x. unfold owning. rewrite AC, HH. destruct (Nat.eqb_spec u t) as [->|]; [|reflexivity].
      rewrite AT. cbn [map fst In]. split; [intros [[->|B]|B]; [auto|auto|discriminate]|intros [B|B]; [auto|]].
      injection B as ->. auto. }
    constructor.
    - intros B. try apply stopped_app. apply (m_dead _ _ _ I). exact B.
    - intros u gu. cbn [set_thread threads]. rewrite HH, (nth_set _ _ _ _ _ G). destruct (Nat.eqb_spec u t) as [->|]; intros H.
      + injection H as <-. assert (R := m_rule _ _ _ I _ _ G). unfold rule in *. cbn [code g'] in *.
        destruct F as [[-> ->]|[-> ->]]; cbn [call_rule] in R; apply R.
      + apply (m_rule _ _ _ I _ _ H).
    - intros u. cbn [set_thread threads]. rewrite HH, (nth_set _ _ _ _ _ G). destruct (Nat.eqb_spec u t) as [->|]; [discriminate|apply (m_none _ _ _ I)].
    - intros t1 t2 x H1 H2. rewrite OW in H1, H2. eapply (m_excl _ _ _ I); eassumption.
    - intros x y H. rewrite (m_lock _ _ _ I _ _ H). split; intros (u & B); exists u; apply OW; exact B.
    - intros u x a H. rewrite HH in H. destruct (Nat.eqb_spec u t) as [->|]; [|apply (m_ptr _ _ _ I _ _ _ H)].
      destruct H as [H|H]; [|apply (m_ptr _ _ _ I _ _ _ H)]. injection H as <- <-. exists mu. auto.
    - intros u. rewrite HH. destruct (Nat.eqb_spec u t) as [->|]; [|apply (m_nodup _ _ _ I)].
      cbn [map fst]. constructor; [|apply (m_nodup _ _ _ I)]. apply (m_acq _ _ _ I). exact AT.
    - intros u x H. rewrite AC in H. rewrite HH. destruct (Nat.eqb_spec u t) as [->|]; [discriminate|]. apply (m_acq _ _ _ I). exact H.
    - intros u f0. unfold mode. cbn [set_thread threads mutexes]. rewrite (nth_set _ _ _ _ _ G).
      destruct (Nat.eqb_spec u t) as [->|]; intros H; [discriminate|]. apply (m_call _ _ _ I u f0 H).
    - intros u x a H. rewrite MA in H. rewrite LS. apply (m_new _ _ _ I _ _ _ H).
    - intros x y H. unfold current. rewrite LS, II. apply (m_val _ _ _ I _ _ H).
    - intros x H. rewrite II. apply (m_init _ _ _ I). exact H.
    - intros a H. rewrite LS. apply (m_store _ _ _ I). exact H.
    - apply (m_inj _ _ _ I).
    - intros u x a m0 y H HM. rewrite MA in H. apply (m_pend _ _ _ I _ _ _ _ _ H HM).
    - intros t1 t2 v1 v2 a H1 H2. rewrite MA in H1, H2. eapply (m_pend1 _ _ _ I); eassumption.
  Qed.

  Lemma in_release m x l : In x (map fst (release m l)) <-> In x (map fst l) /\ x <> m.
  Proof.
    unfold release. rewrite !in_map_iff. split.
    - intros ((a & b) & <- & H). apply filter_In in H. destruct H as [H N]. cbn [fst] in *. apply Bool.negb_true_iff, Nat.eqb_neq in N.
      split; [exists (a, b); auto|exact N].
    - intros [((a & b) & <- & H) N]. cbn [fst] in *. exists (a, b). split; [reflexivity|]. apply filter_In. split; [exact H|].
      cbn [fst]. apply Bool.negb_true_iff, Nat.eqb_neq. exact N.
  Qed.
  Lemma nodup_release m l : NoDup (map fst l) -> NoDup (map fst (release m l)).
  Proof.
    induction l as [|(a & b) l IH]; cbn [release filter map fst]; intros H; [constructor|]. inversion H as [|? ? N H']; subst.
    destruct (negb (a =? m)); cbn [map fst]; [|apply IH; exact H']. constructor; [|apply IH; exact H'].
    intros B. apply N. apply (in_release m a l) in B. apply B.
  Qed.

  Lemma m_leave D c tr t m mu p k rest : MInv D c tr ->
    nth_error (threads c) t = Some (mkG (Inside (Unlock m) p k rest) false) ->
    nth_error (mutexes c) m = Some mu ->
    MInv D (set_thread (set_mutex c m (mkMutex (value mu) false)) t (mkG (Running (k VUnit) rest) false)) (tr ++ [EAnswer t (Unlock m) VUnit]).
  Proof.
    intros I G MU. set (g' := mkG (Running (k VUnit) rest) false). set (e := [EAnswer t (Unlock m) VUnit]). set (c1 := set_mutex c m _).
    assert (G1 : nth_error (threads c1) t = Some (mkG (Inside (Unlock m) p k rest) false)) by exact G.
    assert (R := m_rule _ _ _ I _ _ G). unfold rule in R. cbn [code call_rule] in R. destruct R as [HM R].
    assert (HH : forall u, held (tr ++ e) u = if u =? t then release m (held tr t) else held tr u).
    { intros u. rewrite held_app. unfold e. cbn [fold_left holds_after]. rewrite (Nat.eqb_sym t u). destruct (Nat.eqb_spec u t) as [->|]; reflexivity. }
    assert (LS : forall x, last_store (tr ++ e) x = last_store tr x) by (intros x; rewrite last_store_app; reflexivity).
    assert (II : forall x, initial (tr ++ e) x = initial tr x).
    { intros x. rewrite initial_app. unfold e. cbn [initial]. destruct (initial tr x); reflexivity. }
    assert (AT : acq c t = None) by (unfold acq; rewrite G; reflexivity).
    assert (AC : forall u, acq (set_thread c1 t g') u = acq c u).
    { intros u. rewrite (acq_set _ _ _ _ _ G1). destruct (Nat.eqb_spec u t) as [->|]; [rewrite AT|]; reflexivity. }
    assert (MA : forall u, mak (set_thread c1 t g') u = mak c u).
    { intros u. rewrite (mak_set _ _ _ _ _ G1). destruct (Nat.eqb_spec u t) as [->|]; [|reflexivity]. unfold mak. rewrite G. reflexivity. }
    assert (MINE : forall u, owning c tr u m -> u = t).
    { intros u B. eapply (m_excl _ _ _ I); [exact B|left; exact HM]. }
    assert (OW : forall u x, owning (set_thread c1 t g') (tr ++ e) u x <-> owning c tr u x /\ x <> m).
    { intros u x. unfold owning. rewrite AC, HH. destruct (Nat.eqb_spec u t) as [->|N].
      - rewrite AT, in_release. split; [intros [[B C]|B]; [auto|discriminate]|intros [[B|B] C]; [auto|discriminate]].
      - split; [|intros [B _]; exact B]. intros B. split; [exact B|]. intros ->. apply N, MINE. exact B. }
    assert (NM : forall x, nth_error (list_set (mutexes c) m (mkMutex (value mu) false)) x = if x =? m then Some (mkMutex (value mu) false) else nth_error (mutexes c) x).
    { intros x. apply (mutex_set _ _ _ _ _ MU). }
    assert (VAL : forall x y, nth_error (list_set (mutexes c) m (mkMutex (value mu) false)) x = Some y -> exists y0, nth_error (mutexes c) x = Some y0 /\ value y0 = value y).
    { intros x y. rewrite NM. destruct (Nat.eqb_spec x m) as [->|]; intros B; [injection B as <-; exists mu; auto|exists y; auto]. }
    constructor.
    - intros B. try apply stopped_app. apply (m_dead _ _ _ I). exact B.
    - intros u gu. cbn [set_thread threads c1 set_mutex]. rewrite HH, (nth_set _ _ _ _ _ G). destruct (Nat.eqb_spec u t) as [->|]; intros H.
      + injection H as <-. apply R.
      + apply (m_rule _ _ _ I _ _ H).
    - intros u. cbn [set_thread threads c1 set_mutex]. rewrite HH, (nth_set _ _ _ _ _ G). destruct (Nat.eqb_spec u t) as [->|]; [discriminate|apply (m_none _ _ _ I)].
    - intros t1 t2 x H1 H2. rewrite OW in H1, H2. eapply (m_excl _ _ _ I); [apply H1|apply H2].
    - intros x y H. cbn [set_thread mutexes c1 set_mutex] in H. rewrite NM in H. destruct (Nat.eqb_spec x m) as [->|N].
      + injection H as <-. cbn [locked]. split; [discriminate|]. intros (u & B). apply OW in B. destruct B as [_ B]. contradiction.
      + rewrite (m_lock _ _ _ I _ _ H). split; intros (u & B); exists u; apply OW; [auto|]. apply OW in B. apply OW. exact B.
    - intros u x a H. assert (H' : In (x, a) (held tr u)).
      { rewrite HH in H. destruct (Nat.eqb_spec u t) as [->|]; [|exact H]. apply filter_In in H. apply H. }
      destruct (m_ptr _ _ _ I _ _ _ H') as (y & B & C). cbn [set_thread mutexes c1 set_mutex]. rewrite NM.
      destruct (Nat.eqb_spec x m) as [->|]; [|exists y; auto]. eexists. split; [reflexivity|]. cbn. congruence.
    - intros u. rewrite HH. destruct (Nat.eqb_spec u t) as [->|]; [apply nodup_release|]; apply (m_nodup _ _ _ I).
    - intros u x H. rewrite AC in H. rewrite HH. destruct (Nat.eqb_spec u t) as [->|]; [congruence|]. apply (m_acq _ _ _ I). exact H.
    - intros u f0. unfold mode. cbn [set_thread threads c1 mutexes set_mutex]. rewrite list_set_length, (nth_set _ _ _ _ _ G).
      destruct (Nat.eqb_spec u t) as [->|]; intros H; [discriminate|]. apply (m_call _ _ _ I u f0 H).
    - intros u x a H. rewrite MA in H. rewrite LS. apply (m_new _ _ _ I _ _ _ H).
    - intros x y H. cbn [set_thread mutexes c1 set_mutex] in H. destruct (VAL _ _ H) as (y0 & B & <-). unfold current. rewrite LS, II. apply (m_val _ _ _ I _ _ B).
    - intros x H. cbn [set_thread mutexes c1 set_mutex] in H. rewrite list_set_length in H. rewrite II. apply (m_init _ _ _ I). exact H.
    - intros a H. rewrite LS. apply (m_store _ _ _ I). exact H.
    - intros m1 m2 mu1 mu2 H1 H2 V. destruct (VAL _ _ H1) as (y1 & B1 & C1). destruct (VAL _ _ H2) as (y2 & B2 & C2).
      eapply (m_inj _ _ _ I); [exact B1|exact B2|congruence].
    - intros u x a m0 y H HM'. rewrite MA in H. destruct (VAL _ _ HM') as (y0 & B & <-). apply (m_pend _ _ _ I _ _ _ _ _ H B).
    - intros t1 t2 v1 v2 a H1 H2. rewrite MA in H1, H2. eapply (m_pend1 _ _ _ I); eassumption.
  Qed.

  (** *** Every step *)
  Lemma in_cells c tr D t a : MInv D c tr -> In a (map snd (held tr t)) ->
    exists m mu, In (m, a) (held tr t) /\ nth_error (mutexes c) m = Some mu /\ value mu = a.
  Proof.
    intros I H. apply in_map_iff in H. destruct H as ((m & b) & E & H). cbn [snd] in E. subst b.
    destruct (m_ptr _ _ _ I _ _ _ H) as (mu & B & C). exists m, mu. auto.
  Qed.
  Lemma quiet_call t f : (forall u l, fold_left (holds_after (T:=T) u) [ECall t f] l = l) /\ (forall a, last_store [ECall t f] a = None) /\ (forall m, initial [ECall t f] m = None).
  Proof. repeat split. Qed.

  Lemma continue_inside c t f p0 k rest w p : nth_error (threads c) t = Some (mkG (Inside f p0 k rest) w) -> (forall v, p <> Return v) ->
    continue_ c t p = (set_thread c t (mkG (Inside f p k rest) false), []).
  Proof. intros G N. unfold continue_. rewrite G. destruct p; try reflexivity. destruct (N v eq_refl). Qed.

  Lemma m_step D c t l c' e tr : keeps D -> Inv c tr -> PInv c tr -> MInv D c tr -> step c t l = Some (c', e) -> MInv D c' (tr ++ e).
  Proof.
    intros KD IV IP I H.
    destruct (nth_error (threads c) t) as [g|] eqn:G; [|unfold step in H; rewrite G in H; destruct (dead c); discriminate].
    assert (R := m_rule _ _ _ I _ _ G).
    destruct (channel_or_not g) as [IC|NC].
    { eapply m_channels; [exact I|]. eapply chan_step; eassumption. }
    destruct IV as (kinds & owns & IA). destruct (a_shape _ _ _ _ _ IA _ _ G) as (kd & K & S).
    unfold step in H. destruct (dead c) eqn:DD; [discriminate|]. rewrite G in H.
    assert (CE0 : forall a v, nth_error (cells c) a = Some v -> nth_error (cells c) a = Some v) by auto.
    inversion S as [kd0 u|kd0 f p k w SB WT|v|h w|h|kd0|h v w|h p PP|h]; subst; try discriminate; try (exfalso; apply NC; exact Logic.I).
    - unfold rule in R. cbn [code] in R. assert (KR := KD _ _ R). destruct u as [v|f k|a k|a v k| |].
      + injection H as <- <-. apply (m_local D c c tr t (mkG (Running (UReturn v) (rest_of kd)) false)); try assumption; try reflexivity; auto.
        discriminate.
      + destruct (typed c f) eqn:TY; [|discriminate]. injection H as <- <-.
        apply (m_local D c c tr t (mkG (Running (UCall f k) (rest_of kd)) false)); try assumption; try reflexivity; auto.
        * destruct f; reflexivity.
        * destruct f; reflexivity.
        * intros f0 B. injection B as <-. destruct f; try exact Logic.I; cbn [typed] in TY; apply Nat.ltb_lt in TY; exact TY.
      + destruct (nth_error (cells c) a) as [v|] eqn:CA; [|discriminate]. injection H as <- <-.
        apply (m_local D c c tr t (mkG (Running (ULoad a k) (rest_of kd)) false)); try assumption; try reflexivity; auto.
        * apply KR.
        * discriminate.
      + destruct (nth_error (cells c) a) as [v0|] eqn:CA; [|discriminate]. injection H as <- <-. destruct KR as [KA KR].
        destruct (in_cells _ _ _ _ _ I KA) as (m & mu & HM & MU & VA).
        apply (m_local D c (set_cell c a v) tr t (mkG (Running (UStore a v k) (rest_of kd)) false)); try assumption; try reflexivity; auto.
        * cbn [set_cell cells]. apply list_set_length.
        * discriminate.
        * intros b w CB. cbn [set_cell cells last_store]. rewrite nth_error_list_set.
          destruct (Nat.eqb_spec a b) as [->|]; [|exact CB]. apply nth_lt in CB. destruct (Nat.ltb_spec b (length (cells c))); [reflexivity|lia].
        * intros b LB. cbn [last_store]. destruct (Nat.eqb_spec a b) as [->|]; [|reflexivity]. apply nth_lt in CA. lia.
        * intros u w b MK. cbn [last_store]. destruct (Nat.eqb_spec a b) as [->|]; [|reflexivity].
          destruct (m_pend _ _ _ I _ _ _ _ _ MK MU VA).
      + injection H as <- <-. apply (m_local D c c tr t (mkG (Running UPanic (rest_of kd)) false)); try assumption; try reflexivity; auto.
        discriminate.
      + injection H as <- <-. apply (m_local D c c tr t (mkG (Running UGoexit (rest_of kd)) false)); try assumption; try reflexivity; auto.
        discriminate.
    - destruct w; [discriminate|]. unfold rule in R. cbn [code] in R. cbn [code in_channels] in NC.
      assert (MC := m_call _ _ _ I t f). unfold mode in MC. rewrite G in MC. specialize (MC eq_refl).
      assert (FAIL : forall m, f = TryLock m -> MInv D (set_thread c t (mkG (Running (k VErr) (rest_of kd)) false)) (tr ++ [EAnswer t f VErr]) \/ acquiring (mkG (Inside f p k (rest_of kd)) false) <> None).
      { intros m ->. destruct (acquiring (mkG (Inside (TryLock m) p k (rest_of kd)) false)) eqn:AQ; [right; discriminate|left].
        eapply (m_local D c c tr t); try eassumption; try reflexivity; auto; try (apply R); try discriminate; try (symmetry; exact AQ). }
      inversion SB as [f0|v a|m|m|u h|z u h]; subst; try (exfalso; apply NC; exact Logic.I).
      + destruct f as [v|m|m|m|u|h|h|z u|h]; try (exfalso; apply NC; exact Logic.I); cbn [body] in *.
        * cbn [p_MutexNew operate] in H. erewrite continue_inside in H; [|exact G|congruence].
          injection H as <- <-. rewrite app_nil_r. eapply m_alloc; [exact I|exact G|reflexivity].
        * cbn [p_Lock operate] in H. destruct (nth_error (mutexes c) m) as [mu|] eqn:MU; [|discriminate].
          destruct (locked mu) eqn:LO; [discriminate|]. erewrite continue_inside in H; [|exact G|congruence].
          injection H as <- <-. rewrite app_nil_r. eapply m_take; try eassumption; auto.
        * cbn [p_Unlock operate] in H. destruct (nth_error (mutexes c) m) as [mu|] eqn:MU; [|discriminate].
          assert (LO : locked mu = true) by (apply (m_lock _ _ _ I _ _ MU); exists t; left; apply R).
          rewrite LO in H. erewrite continue_return in H by exact G. injection H as <- <-.
          eapply m_leave; eassumption.
        * cbn [p_TryLock operate] in H. destruct (nth_error (mutexes c) m) as [mu|] eqn:MU; [|discriminate].
          destruct (locked mu) eqn:LO; [|destruct l].
          -- erewrite continue_return in H by exact G. injection H as <- <-. destruct (FAIL m eq_refl) as [F|F]; [exact F|]. destruct F. reflexivity.
          -- erewrite continue_inside in H; [|exact G|congruence]. injection H as <- <-. rewrite app_nil_r. eapply m_take; try eassumption; auto.
          -- erewrite continue_return in H by exact G. injection H as <- <-. destruct (FAIL m eq_refl) as [F|F]; [exact F|]. destruct F. reflexivity.
      + cbn [operate] in H. erewrite continue_return in H by exact G. injection H as <- <-. eapply m_make; eassumption.
      + cbn [operate] in H. destruct (nth_error (mutexes c) m) as [mu|] eqn:MU; [|discriminate].
        erewrite continue_return in H by exact G. injection H as <- <-. eapply m_enter; try eassumption. auto.
      + cbn [operate] in H. destruct (nth_error (mutexes c) m) as [mu|] eqn:MU; [|discriminate].
        erewrite continue_return in H by exact G. injection H as <- <-. eapply m_enter; try eassumption. auto.
    - cbn [operate] in H. unfold fatal in H. injection H as <- <-.
      apply (m_frame D c tr); try assumption; try reflexivity; auto.
      + intros _. exists t. split; apply in_or_app; [left|right; left; reflexivity]. apply IP. unfold crashing. rewrite G. reflexivity.
      + apply (m_rule _ _ _ I).
      + apply (m_call _ _ _ I).
  Qed.

  Lemma m_start (D : list (nat * nat) -> user -> Prop) (mains : list user) : (forall u, In u mains -> D [] u) -> MInv D (start mains) [].
  Proof.
    intros HD.
    assert (N : forall t g, nth_error (threads (start mains)) t = Some g -> exists u, In u mains /\ g = mkG (Running u main_rest) false).
    { intros t g H. unfold start in H. cbn [threads] in H. rewrite nth_error_map in H. destruct (nth_error mains t) eqn:E; [|discriminate].
      injection H as <-. exists u. split; [eapply nth_error_In; exact E|reflexivity]. }
    assert (AC : forall t, acq (start mains) t = None).
    { intros t. unfold acq. destruct (nth_error (threads (start mains)) t) eqn:E; [|reflexivity]. destruct (N _ _ E) as (u & _ & ->). reflexivity. }
    assert (MK : forall t, mak (start mains) t = None).
    { intros t. unfold mak. destruct (nth_error (threads (start mains)) t) eqn:E; [|reflexivity]. destruct (N _ _ E) as (u & _ & ->). reflexivity. }
    assert (NN : forall {A} i (x : A), nth_error [] i = Some x -> False) by (intros A [|i] x B; discriminate).
    constructor; try reflexivity.
    - discriminate.
    - intros t g H. destruct (N _ _ H) as (u & IU & ->). apply HD. exact IU.
    - intros t1 t2 m [B|B]; [destruct B|rewrite AC in B; discriminate].
    - intros m mu B. destruct (NN _ _ _ B).
    - intros t m a B. destruct B.
    - intros t. constructor.
    - intros t m B. rewrite AC in B. discriminate.
    - intros t f B. destruct (mode_inside _ _ _ B) as (p & k & r & w & E). destruct (N _ _ E) as (u & _ & X). discriminate.
    - intros t v a B. rewrite MK in B. discriminate.
    - intros m mu B. destruct (NN _ _ _ B).
    - intros m1 m2 mu1 mu2 B. destruct (NN _ _ _ B).
    - intros t v a m mu B. rewrite MK in B. discriminate.
    - intros t1 t2 v1 v2 a B. rewrite MK in B. discriminate.
  Qed.
  Lemma m_run D s : keeps D -> forall c tr c' e, Inv c tr -> PInv c tr -> MInv D c tr -> run c s = (c', e) -> MInv D c' (tr ++ e).
  Proof.
    intros KD. induction s as [|[t l] s IH]; intros c tr c' e IV IP I H; cbn [run] in H.
    - injection H as <- <-. rewrite app_nil_r. exact I.
    - destruct (step c t l) as [[c1 e1]|] eqn:E.
      + destruct (run c1 s) as [c2 e2] eqn:R. injection H as <- <-. rewrite app_assoc.
        eapply IH; [eapply step_inv; eassumption|eapply p_step; eassumption|eapply m_step; eassumption|exact R].
      + eapply IH; eassumption.
  Qed.

  Definition Disc (h : list (nat * nat)) (u : user) : Prop := exists D, keeps D /\ D h u.
  Lemma keeps_disc : keeps Disc.
  Proof.
    intros h u (D & KD & H). assert (R := KD _ _ H).
    assert (W : forall h u, D h u -> Disc h u) by (intros h0 u0 B; exists D; auto).
    destruct u as [v|f k|a k|a v k| |]; try exact Logic.I; [|split; [apply R|intros v; apply W, R]|split; [apply R|apply W, R]].
    destruct f; try (intros; apply W, R).
    - split; [apply R|intros v; apply W, R].
    - split; [intros a; apply W, R|apply W, R].
    - split; [apply W, R|intros v; apply W, R].
    - split; [apply W, R|intros v; apply W, R].
  Qed.
  Lemma m_reach (mains : list user) s c tr : Forall disciplined mains -> run (start mains) s = (c, tr) -> MInv Disc c tr.
  Proof.
    intros F H. apply (m_run _ _ keeps_disc _ [] _ _ (start_inv mains) (p_start mains)) in H; [exact H|].
    apply m_start. intros u IU. rewrite Forall_forall in F. apply F. exact IU.
  Qed.

  (** *** What users see *)
  Theorem exclusion (mains : list user) s c tr t1 t2 m : Forall disciplined mains -> run (start mains) s = (c, tr) ->
    inside tr t1 m -> inside tr t2 m -> t1 = t2.
  Proof. intros F H H1 H2. apply (m_excl _ _ _ (m_reach _ _ _ _ F H) t1 t2 m); left; assumption. Qed.
  Theorem pointer_same (mains : list user) s c tr t1 t2 m a1 a2 : Forall disciplined mains -> run (start mains) s = (c, tr) ->
    In (m, a1) (held tr t1) -> In (m, a2) (held tr t2) -> a1 = a2.
  Proof.
    intros F H H1 H2. assert (I := m_reach _ _ _ _ F H). destruct (m_ptr _ _ _ I _ _ _ H1) as (mu1 & B1 & C1).
    destruct (m_ptr _ _ _ I _ _ _ H2) as (mu2 & B2 & C2). congruence.
  Qed.
  Theorem pointer_private (mains : list user) s c tr t1 t2 m1 m2 a : Forall disciplined mains -> run (start mains) s = (c, tr) ->
    In (m1, a) (held tr t1) -> In (m2, a) (held tr t2) -> m1 = m2 /\ t1 = t2.
  Proof.
    intros F H H1 H2. assert (I := m_reach _ _ _ _ F H). destruct (m_ptr _ _ _ I _ _ _ H1) as (mu1 & B1 & C1).
    destruct (m_ptr _ _ _ I _ _ _ H2) as (mu2 & B2 & C2).
    assert (m1 = m2) by (eapply (m_inj _ _ _ I); [exact B1|exact B2|congruence]). subst m2. split; [reflexivity|].
    apply (m_excl _ _ _ I t1 t2 m1); left; apply in_map_iff; eexists; (split; [|eassumption]); reflexivity.
  Qed.

  (** The state just before an event. *)
  Lemma at_event (mains : list user) s c tr1 x tr2 :
    run (start mains) s = (c, tr1 ++ x :: tr2) ->
    exists s1 c1 ea u l c2 b1 b2, run (start mains) s1 = (c1, ea) /\ Good c1 ea /\ step c1 u l = Some (c2, b1 ++ x :: b2) /\
      events_of c1 u (b1 ++ x :: b2) /\ tr1 = ea ++ b1.
  Proof.
    intros H. destruct (run_split _ _ _ _ _ _ H) as (s1 & u & l & s2 & c1 & ea & c2 & b1 & b2 & _ & R1 & S1 & E).
    assert (R2 := reach_good _ _ _ _ R1). exists s1, c1, ea, u, l, c2, b1, b2. repeat (split; [assumption|]). split; [|exact E].
    destruct R2 as [(kinds & owns & I & _) _]. eapply step_shows; [exists kinds, owns; exact I|exact S1].
  Qed.
  Definition lonely (x : event) : Prop := match x with EStart _ _ | EAnswer _ _ _ => False | _ => True end.
  Lemma lonely_event c u b1 x b2 : events_of c u (b1 ++ x :: b2) -> lonely x ->
    b1 = [] /\ b2 = [] /\ match x with ECall t _ | EFinish t _ | EExit t | EPanic t | ELoad t _ _ | EStore t _ _ | EFatal t => t = u | _ => True end.
  Proof.
    intros H L. remember (b1 ++ x :: b2) as e eqn:E. destruct H;
      try (apply single in E; destruct E as (-> & -> & <-); repeat split; destruct L); try (destruct b1; discriminate).
    - exfalso. destruct b1 as [|y [|y' [|y'' b1]]]; try discriminate; injection E as <-; try destruct L; subst; destruct L.
    - exfalso. destruct b1 as [|y [|y' [|y'' b1]]]; try discriminate; injection E as <-; try destruct L; subst; destruct L.
    - exfalso. assert (B : In x (map (fun r => EAnswer r (Await h) z) rs)) by (rewrite E; apply in_elt).
      apply in_map_iff in B. destruct B as (r & <- & _). destruct L.
  Qed.


  Theorem access (mains : list user) s c tr1 x tr2 t a : Forall disciplined mains -> run (start mains) s = (c, tr1 ++ x :: tr2) ->
    (exists v, x = ELoad t a v) \/ (exists v, x = EStore t a v) ->
    exists m, In (m, a) (held tr1 t) /\ (forall v, x = ELoad t a v -> current tr1 m a = Some v).
  Proof.
    intros F H X. destruct (at_event _ _ _ _ _ _ H) as (s1 & c1 & ea & u & l & c2 & b1 & b2 & R1 & GD & S1 & EV & E).
    assert (L : lonely x) by (destruct X as [(v & ->)|(v & ->)]; exact Logic.I).
    destruct (lonely_event _ _ _ _ _ EV L) as (-> & -> & U). rewrite app_nil_r in E. subst tr1. cbn [app] in EV.
    assert (I := m_reach _ _ _ _ F R1).
    destruct X as [(v & ->)|(v & ->)]; subst u; inversion EV as [| | | | |a0 v0 k rest w G CA|a0 v0 k rest w G| | | | | |h z rs HR EQ]; subst.
    - assert (R := m_rule _ _ _ I _ _ G). unfold rule in R. cbn [code] in R. apply keeps_disc in R. destruct R as [R _].
      destruct (in_cells _ _ _ _ _ I R) as (m & mu & HM & MU & VA). exists m. split; [exact HM|].
      intros v0 B. injection B as <-. destruct (m_val _ _ _ I _ _ MU) as [_ B]. rewrite VA in B. congruence.
    - destruct rs; discriminate.
    - assert (R := m_rule _ _ _ I _ _ G). unfold rule in R. cbn [code] in R. apply keeps_disc in R. destruct R as [R _].
      destruct (in_cells _ _ _ _ _ I R) as (m & mu & HM & MU & VA). exists m. split; [exact HM|]. discriminate.
    - destruct rs; discriminate.
  Qed.
  Theorem alive (mains : list user) s c tr : Forall disciplined mains -> run (start mains) s = (c, tr) ->
    (dead c = true -> exists t, In (EPanic t) tr /\ In (EFatal t) tr) /\
    forall tr1 t tr2, tr = tr1 ++ EFatal t :: tr2 -> In (EPanic t) tr1.
  Proof.
    intros F H. split; [apply (m_dead _ _ _ (m_reach _ _ _ _ F H))|]. intros tr1 t tr2 ->.
    destruct (at_event _ _ _ _ _ _ H) as (s1 & c1 & ea & u & l & c2 & b1 & b2 & R1 & GD & S1 & EV & ->).
    destruct (lonely_event _ _ _ _ _ EV Logic.I) as (-> & -> & ->). cbn [app] in EV. rewrite app_nil_r.
    assert (I := m_reach _ _ _ _ F R1).
    inversion EV as [| | | | | | |m mu MD MU LO|w G| | | |h z rs HR EQ]; subst; [| |destruct rs; discriminate].
    - destruct (mode_inside _ _ _ MD) as (p & k & rest & w & G). assert (R := m_rule _ _ _ I _ _ G). unfold rule in R. cbn [code call_rule] in R.
      assert (B : locked mu = true) by (apply (m_lock _ _ _ I _ _ MU); exists u; left; apply R). congruence.
    - apply (p_reach _ _ _ _ R1). unfold crashing. rewrite G. reflexivity.
  Qed.
End Lock.
