(** SyncJoinProofs.v -- what every schedule shows of Spawn, Join, IsFinished and
    gokio's Await. *)
From Verif Require Import Base BaseLemmas SyncModel SyncSpec SyncProofs.

Section Join.
  Context {T : Type}.
  Notation event := (event T).
  Notation trace := (list event).
  Notation user := (user T).
  Notation val := (val T).
  Notation prog := (prog T).
  Notation config := (config T).
  Notation goroutine := (goroutine T).
  Notation chan := (@chan T).
  Notation call := (@call T).
  Implicit Types (tr e : trace) (c : config).

  (** *** Runs *)
  Lemma start_inv (mains : list user) : Inv (start mains) [].
  Proof.
    exists (repeat KMain (length mains)), []. unfold start. cbn [threads chans].
    assert (N : forall t g, nth_error (map (fun u : user => mkG (Running u main_rest) false) mains) t = Some g ->
      exists u, g = mkG (Running u main_rest) false).
    { intros t g H. rewrite nth_error_map in H. destruct (nth_error mains t); [|discriminate]. injection H as <-. eauto. }
    assert (R : forall t kd, nth_error (repeat KMain (length mains)) t = Some kd -> kd = KMain).
    { intros t kd H. apply nth_error_In in H. apply repeat_spec in H. exact H. }
    assert (NN : forall {A} i (x : A), nth_error [] i = Some x -> False) by (intros A [|i] x B; discriminate).
    constructor.
    - rewrite repeat_length, map_length. reflexivity.
    - reflexivity.
    - intros t g H. exists KMain. destruct (N _ _ H) as (u & ->). split; [|apply (sh_run KMain)].
      apply nth_error_repeat. apply nth_lt in H. rewrite map_length in H. exact H.
    - intros t h. unfold vw. split; [|intros B; destruct (NN _ _ _ B)].
      destruct (nth_error (map (fun u : user => mkG (Running u main_rest) false) mains) t) eqn:E; [|discriminate].
      destruct (N _ _ E) as (u & ->). discriminate.
    - intros t h. split; [intros B; destruct (NN _ _ _ B)|]. intros (kd & B & C). apply R in B. subst. discriminate.
    - intros t h ch B. destruct (NN _ _ _ B).
    - intros t f p k rest w B. destruct (N _ _ B) as (u & C). discriminate.
    - intros h ch t B. destruct (NN _ _ _ B).
    - intros h ch B. destruct (NN _ _ _ B).
    - intros h ch B. destruct (NN _ _ _ B).
    - intros t [(v & [])|[[]|[]]].
    - intros t v w [].
    - intros t v [].
    - intros h _. split; reflexivity.
  Qed.

  Lemma run_inv s : forall c tr c' e, Inv c tr -> run c s = (c', e) -> Inv c' (tr ++ e).
  Proof.
    induction s as [|[t l] s IH]; intros c tr c' e I H; cbn [run] in H.
    - injection H as <- <-. rewrite app_nil_r. exact I.
    - destruct (step c t l) as [[c1 e1]|] eqn:E.
      + destruct (run c1 s) as [c2 e2] eqn:R. injection H as <- <-. rewrite app_assoc.
        eapply IH; [eapply step_inv; eassumption|exact R].
      + eapply IH; eassumption.
  Qed.

  Lemma run_app s1 : forall s2 c, run c (s1 ++ s2) = let (c1, e1) := run c s1 in let (c2, e2) := run c1 s2 in (c2, e1 ++ e2).
  Proof.
    induction s1 as [|[t l] s IH]; intros s2 c; cbn [app run].
    - destruct (run c s2). reflexivity.
    - destruct (step c t l) as [[c1 e1]|].
      + rewrite IH. destruct (run c1 s) as [c2 e2]. destruct (run c2 s2). rewrite app_assoc. reflexivity.
      + apply IH.
  Qed.

  Lemma app_split {A} (a : list A) : forall (b p : list A) x q, a ++ b = p ++ x :: q ->
    (exists r, a = p ++ x :: r) \/ (exists d, p = a ++ d /\ b = d ++ x :: q).
  Proof.
    induction a as [|y a IH]; intros b e1 x e2 H.
    - right. exists e1. split; [reflexivity|exact H].
    - destruct e1 as [|z e1]; cbn [app] in H; injection H as -> H.
      + left. exists a. reflexivity.
      + destruct (IH _ _ _ _ H) as [(b2 & ->)|(d & -> & ->)]; [left; exists b2|right; exists d; split]; reflexivity.
  Qed.
  (** Every event of a run is produced by a step. *)
  Lemma run_split s : forall c c' e1 x e2, run c s = (c', e1 ++ x :: e2) ->
    exists s1 t l s2 c1 ea c2 b1 b2, s = s1 ++ (t, l) :: s2 /\ run c s1 = (c1, ea) /\ step c1 t l = Some (c2, b1 ++ x :: b2) /\
      e1 = ea ++ b1.
  Proof.
    induction s as [|[t l] s IH]; intros c c' e1 x e2 H; cbn [run] in H.
    - injection H as _ H. destruct e1; discriminate.
    - destruct (step c t l) as [[c1 a]|] eqn:E.
      + destruct (run c1 s) as [c2 b] eqn:R. injection H as <- H.
        destruct (app_split _ _ _ _ _ H) as [(b2 & ->)|(d & -> & ->)].
        * exists [], t, l, s, c, [], c1, e1, b2. repeat split. exact E.
        * destruct (IH _ _ _ _ _ R) as (s1 & t1 & l1 & s2 & c3 & ea & c4 & b1 & b2 & -> & R1 & S1 & ->).
          exists ((t, l) :: s1), t1, l1, s2, c3, (a ++ ea), c4, b1, b2. split; [reflexivity|].
          split; [cbn [run]; rewrite E, R1; reflexivity|]. split; [exact S1|]. apply app_assoc.
      + destruct (IH _ _ _ _ _ H) as (s1 & t1 & l1 & s2 & c3 & ea & c4 & b1 & b2 & -> & R1 & S1 & ->).
        exists ((t, l) :: s1), t1, l1, s2, c3, ea, c4, b1, b2. split; [reflexivity|].
        split; [cbn [run]; rewrite E, R1; reflexivity|]. split; [exact S1|reflexivity].
  Qed.

  (** *** What one step can show *)
  Definition answer_ok (f : call user) (v : val) : Prop :=
    match f with
    | MutexNew _ => exists m, v = VMutex m
    | Lock _ => exists a, v = VPtr a
    | Unlock _ => v = VUnit
    | TryLock _ => v = VErr \/ exists a, v = VOk (VPtr a)
    | Spawn _ | Gokio_Spawn _ _ => False
    | Join _ => v = VOk VUnit
    | IsFinished _ => exists b, v = VBool b
    | Await _ => True
    end.
  Definition mode_of (o : option goroutine) : option (call user) :=
    match o with Some (mkG (Inside f _ _ _) _) => Some f | _ => None end.
  Definition mode c (u : nat) : option (call user) := mode_of (nth_error (threads c) u).
  Inductive events_of c (t : nat) : trace -> Prop :=
  | ev_none : events_of c t []
  | ev_call f : events_of c t [ECall t f]
  | ev_finish v : events_of c t [EFinish t v]
  | ev_exit rest w : nth_error (threads c) t = Some (mkG (Running UGoexit rest) w) -> events_of c t [EExit t]
  | ev_panic rest w : nth_error (threads c) t = Some (mkG (Running UPanic rest) w) -> events_of c t [EPanic t]
  | ev_load a v k rest w : nth_error (threads c) t = Some (mkG (Running (ULoad a k) rest) w) -> nth_error (cells c) a = Some v ->
      events_of c t [ELoad t a v]
  | ev_store a v k rest w : nth_error (threads c) t = Some (mkG (Running (UStore a v k) rest) w) -> events_of c t [EStore t a v]
  | ev_fatal m mu : mode c t = Some (Unlock m) -> nth_error (mutexes c) m = Some mu -> locked mu = false -> events_of c t [EFatal t]
  | ev_crash w : nth_error (threads c) t = Some (mkG (Ending Crash) w) -> events_of c t [EFatal t]
  | ev_spawn t' f h : mode c t = Some (Spawn f) -> events_of c t [EStart t t'; EAnswer t (Spawn f) (VHandle h)]
  | ev_gokio t' z f h : mode c t = Some (Gokio_Spawn z f) -> events_of c t [EStart t t'; EAnswer t (Gokio_Spawn z f) (VFuture h)]
  | ev_answer u f v : answer_ok f v -> mode c u = Some f -> (u = t \/ exists h, f = Join h \/ f = Await h) -> events_of c t [EAnswer u f v]
  | ev_close h z rs : (forall r, In r rs -> mode c r = Some (Await h)) -> events_of c t (map (fun r => EAnswer r (Await h) z) rs).


  (** What a step does to the calls that are under way. *)
  Definition modes c c' e : Prop := forall u, mode c' u = fold_left (calling_after u) e (mode c u).
  Lemma mode_set_thread c t g g0 u : nth_error (threads c) t = Some g0 ->
    mode (set_thread c t g) u = if u =? t then mode_of (Some g) else mode c u.
  Proof.
    intros G. unfold mode. cbn [set_thread threads]. rewrite (nth_set _ _ _ _ _ G). destruct (u =? t); reflexivity.
  Qed.
  Lemma modes_one c0 c1 t g g0 e :
    threads c1 = threads c0 -> nth_error (threads c0) t = Some g0 ->
    (forall u, u <> t -> forall m, fold_left (calling_after u) e m = m) ->
    fold_left (calling_after t) e (mode_of (Some g0)) = mode_of (Some g) ->
    modes c0 (set_thread c1 t g) e.
  Proof.
    intros T1 G O M u. rewrite (mode_set_thread _ _ _ g0) by (rewrite T1; exact G).
    destruct (Nat.eqb_spec u t) as [->|N].
    - rewrite <- M. unfold mode. rewrite G. reflexivity.
    - rewrite O by exact N. unfold mode. rewrite T1. reflexivity.
  Qed.
  Lemma modes_same c0 c1 e : threads c1 = threads c0 -> (forall u m, fold_left (calling_after u) e m = m) -> modes c0 c1 e.
  Proof. intros T1 O u. rewrite O. unfold mode. rewrite T1. reflexivity. Qed.
  Lemma other_answer t f v u m : u <> t -> fold_left (calling_after u) [EAnswer t f v : event] m = m.
  Proof. intros N. cbn. apply not_eq_sym in N. apply Nat.eqb_neq in N. rewrite N. reflexivity. Qed.

  Lemma send_result c c' tr kinds owns t l h v p' e kd :
    AInv (threads c) (chans c) tr kinds owns ->
    nth_error (threads c) t = Some (mkG (Ending (Send h v p')) false) -> nth_error kinds t = Some kd -> chan_of kd = Some h ->
    operate c t l (Send h v p') = Some (c', e) ->
    modes c c' e /\ exists ch, nth_error (chans c) h = Some ch /\
      match recvq ch with
      | [] => e = []
      | r :: q => exists f x, e = [EAnswer r f x] /\ answer_ok f x /\ mode c r = Some f /\
                  f = (match zero ch with None => Join h | Some _ => Await h end) /\ (zero ch <> None -> x = v) /\
                  nth_error (threads c') t = Some (mkG (Ending p') false) /\ dead c' = dead c /\
                  chans c' = list_set (chans c) h (mkChan (zero ch) (sendq ch) q false)
      end.
  Proof.
    intros I G K Ck H.
    assert (O : nth_error owns h = Some (Post t)).
    { apply (a_own _ _ _ _ _ I). exists kd. split; assumption. }
    destruct (chan_exists _ _ _ _ _ _ _ I O) as (ch & CH).
    assert (V : vw (threads c) t = Some (ASend v false)) by (unfold vw; rewrite G; reflexivity).
    assert (CF : closed ch = false).
    { assert (P := a_phase _ _ _ _ _ I _ _ CH). unfold phase in P. rewrite O, V in P.
      destruct (zero ch); [destruct P as (_ & _ & _ & P & _)|destruct P as (P & _)]; exact P. }
    cbn [operate] in H. rewrite CH, CF in H.
    destruct (recvq ch) as [|r q] eqn:R.
    - injection H as <- <-. split; [|exists ch; rewrite R; split; [exact CH|reflexivity]].
      unfold park. cbn [set_chan threads]. rewrite G. eapply modes_one; try exact G; reflexivity.
    - destruct (receiver_spec _ _ _ _ _ _ _ r I CH) as (kr & k & KR & GR); [rewrite R; left; reflexivity|].
      assert (NE : r <> t) by (intros ->; rewrite G in GR; discriminate).
      unfold wake_receiver, gost_code in H. cbn [set_chan threads] in H. rewrite GR in H.
      assert (W : exists a, answer_ok (match zero ch with None => Join h | Some _ => Await h end) a /\ (zero ch <> None -> a = v) /\
        match (match zero ch with None => p_Join h | Some _ => p_Await h end) with
        | Recv _ k0 => continue_ (set_chan c h (mkChan (zero ch) (sendq ch) q false)) r (k0 v)
        | _ => (set_chan c h (mkChan (zero ch) (sendq ch) q false), []) end =
        continue_ (set_chan c h (mkChan (zero ch) (sendq ch) q false)) r (Return a)).
      { destruct (zero ch); cbn [p_Join p_Await].
        - exists v. split; [exact Logic.I|]. split; reflexivity.
        - exists (VOk VUnit). split; [reflexivity|]. split; [congruence|reflexivity]. }
      destruct W as (a & AO & AV & W). rewrite W in H. erewrite continue_return in H by exact GR. unfold then_ in H.
      erewrite continue_ending in H.
      2: { cbn [set_thread set_chan threads]. rewrite (nth_set _ _ _ _ _ GR). apply Nat.eqb_neq in NE.
           rewrite Nat.eqb_sym, NE. exact G. }
      injection H as <- <-. split.
      + intros u. unfold mode. cbn [set_thread set_chan threads]. rewrite list_set_comm by exact NE.
        rewrite (nth_set _ _ _ (mkG (Inside (match zero ch with None => Join h | Some _ => Await h end)
          (match zero ch with None => p_Join h | Some _ => p_Await h end) k (rest_of kr)) true) _).
        2: { rewrite (nth_set _ _ _ _ _ G). apply Nat.eqb_neq in NE. rewrite NE. exact GR. }
        rewrite (nth_set _ _ _ _ _ G). cbn [app fold_left calling_after]. rewrite (Nat.eqb_sym r u).
        destruct (u =? r); [reflexivity|]. destruct (Nat.eqb_spec u t) as [->|]; [rewrite G|]; reflexivity.
      + exists ch. split; [exact CH|]. rewrite R. eexists _, a. split; [reflexivity|]. split; [exact AO|].
        split; [unfold mode; rewrite GR; reflexivity|]. split; [reflexivity|]. split; [exact AV|].
        split; [|split; reflexivity]. cbn [set_thread set_chan threads]. rewrite list_set_comm by exact NE.
        rewrite (nth_set _ _ _ (mkG (Inside (match zero ch with None => Join h | Some _ => Await h end)
          (match zero ch with None => p_Join h | Some _ => p_Await h end) k (rest_of kr)) true) _).
        2: { rewrite (nth_set _ _ _ _ _ G). apply Nat.eqb_neq in NE. rewrite NE. exact GR. }
        rewrite (nth_set _ _ _ _ _ G). apply Nat.eqb_neq in NE. rewrite Nat.eqb_sym, NE, Nat.eqb_refl. reflexivity.
  Qed.
  Lemma answers_modes (rs : list nat) (f : call user) z u m :
    fold_left (calling_after u) (map (fun r => EAnswer r f z) rs : trace) m = if existsb (Nat.eqb u) rs then None else m.
  Proof.
    revert m. induction rs as [|r rs IH]; intros m; [reflexivity|]. cbn [map fold_left calling_after existsb].
    rewrite IH, (Nat.eqb_sym r u). destruct (u =? r); [|reflexivity]. cbn [orb]. destruct (existsb (Nat.eqb u) rs); reflexivity.
  Qed.
  Lemma close_result c c' tr kinds owns t l h e p :
    AInv (threads c) (chans c) tr kinds owns ->
    nth_error (threads c) t = Some (mkG (Ending (Close h p)) false) -> nth_error kinds t = Some (KFut h) ->
    operate c t l (Close h p) = Some (c', e) ->
    modes c c' e /\
    exists ch z, nth_error (chans c) h = Some ch /\ zero ch = Some z /\ e = map (fun r => EAnswer r (Await h) z) (recvq ch) /\
      (forall r, In r (recvq ch) -> mode c r = Some (Await h)) /\
      nth_error (threads c') t = Some (mkG (Ending p) false) /\ dead c' = dead c.
  Proof.
    intros I G K H.
    assert (O : nth_error owns h = Some (Post t)).
    { apply (a_own _ _ _ _ _ I). exists (KFut h). split; [assumption|reflexivity]. }
    destruct (chan_exists _ _ _ _ _ _ _ I O) as (ch & CH).
    assert (V : vw (threads c) t = Some AClose) by (unfold vw; rewrite G; reflexivity).
    destruct (a_zero _ _ _ _ _ I t h ch CH) as [_ Z2]. specialize (Z2 K).
    destruct (zero ch) as [z|] eqn:Z; [clear Z2|congruence].
    assert (P := a_phase _ _ _ _ _ I _ _ CH). unfold phase in P. rewrite O, V, Z in P.
    destruct P as (_ & CF & SQ & _).
    cbn [operate] in H. rewrite CH, CF in H. unfold zero_of in H. rewrite Z in H.
    destruct (wake_all_spec (set_chan c h (mkChan (Some z) (sendq ch) [] true)) (recvq ch) z h) as (ths' & E & L & N1 & N2).
    { eapply a_nodup; eassumption. }
    { intros y Y. destruct (receiver_spec _ _ _ _ _ _ _ y I CH Y) as (kr & k & KR & GR). rewrite Z in GR.
      eexists _, _, _. exact GR. }
    rewrite E in H. unfold then_ in H.
    assert (NI : ~ In t (recvq ch)).
    { intros B. apply (a_wait _ _ _ _ _ I _ _ _ CH) in B. congruence. }
    assert (GT : nth_error ths' t = Some (mkG (Ending (Close h p)) false)).
    { rewrite (N1 _ NI). exact G. }
    erewrite continue_ending in H by exact GT. injection H as <- <-. rewrite app_nil_r. split.
    - intros u. rewrite answers_modes. unfold mode. cbn [set_thread threads]. rewrite (nth_set _ _ _ _ _ GT).
      destruct (existsb (Nat.eqb u) (recvq ch)) eqn:X.
      + apply existsb_exists in X. destruct X as (y & Y & X). apply Nat.eqb_eq in X. subst y.
        destruct (Nat.eqb_spec u t) as [->|]; [contradiction|].
        destruct (N2 _ Y) as (k & k' & rest & w & B & _). rewrite B. reflexivity.
      + destruct (Nat.eqb_spec u t) as [->|]; [rewrite G; reflexivity|]. f_equal. apply N1.
        intros B. assert (X' : existsb (Nat.eqb u) (recvq ch) = true); [|congruence].
        apply existsb_exists. exists u. split; [exact B|apply Nat.eqb_refl].
    - exists ch, z. split; [exact CH|]. split; [exact Z|]. split; [reflexivity|].
      split; [|split; [cbn [set_thread threads]; rewrite (nth_set _ _ _ _ _ GT), Nat.eqb_refl; reflexivity|reflexivity]].
      intros r Y. destruct (receiver_spec _ _ _ _ _ _ _ r I CH Y) as (kr & k & KR & GR). unfold mode. rewrite GR, Z. reflexivity.
  Qed.

  Lemma modes_go c t g0 u0 rest k rest' f v :
    nth_error (threads c) t = Some (mkG g0 false) ->
    modes c (set_thread (mkConfig (threads c ++ [mkG (Running u0 rest) false]) (cells c) (mutexes c) (chans c) (dead c)) t
      (mkG (Running k rest') false)) [EStart t (length (threads c)); EAnswer t f v].
  Proof.
    intros G u. unfold mode. cbn [set_thread threads app fold_left calling_after].
    erewrite nth_set. 2: { rewrite nth_error_app1 by (eapply nth_lt; exact G). exact G. }
    rewrite (Nat.eqb_sym t u). destruct (u =? t); [reflexivity|].
    destruct (Nat.ltb_spec u (length (threads c))).
    - rewrite nth_error_app1 by assumption. reflexivity.
    - assert (N : nth_error (threads c) u = None) by (apply nth_error_None; lia). rewrite N.
      rewrite nth_error_app2 by lia. destruct (u - length (threads c)) as [|[|n]]; reflexivity.
  Qed.

  Lemma step_shows c t l c' e tr : Inv c tr -> step c t l = Some (c', e) -> events_of c t e /\ modes c c' e.
  Proof.
    intros (kinds & owns & I) H. unfold step in H. destruct (dead c); [discriminate|].
    destruct (nth_error (threads c) t) as [[th [|]]|] eqn:G; try discriminate.
    destruct (a_shape _ _ _ _ _ I _ _ G) as (kd & K & S).
    assert (MG : mode c t = mode_of (Some (mkG th false))) by (unfold mode; rewrite G; reflexivity).
    assert (OT : forall u, u <> t -> (t =? u) = false) by (intros u N; apply Nat.eqb_neq; congruence).
    inversion S as [kd0 u|kd0 f p k w SB WT|v|h w|h|kd0|h v w|h p PP|h]; subst; try discriminate.
    - destruct u as [v|f k|a k|a v k| |].
      + injection H as <- <-. split; [constructor|]. eapply modes_one; try exact G; reflexivity.
      + destruct (typed c f) eqn:TY; [|discriminate]. injection H as <- <-. split; [constructor|].
        eapply modes_one; try exact G; try reflexivity.
        * intros u N m. cbn [fold_left calling_after]. rewrite OT by exact N. reflexivity.
        * cbn [fold_left calling_after]. rewrite Nat.eqb_refl. reflexivity.
      + destruct (nth_error (cells c) a) eqn:CA; [|discriminate]. injection H as <- <-. split; [econstructor; eassumption|].
        eapply modes_one; try exact G; reflexivity.
      + destruct (nth_error (cells c) a); [|discriminate]. injection H as <- <-. split; [econstructor; exact G|].
        eapply modes_one; try exact G; reflexivity.
      + injection H as <- <-. split; [econstructor; exact G|]. eapply modes_one; try exact G; reflexivity.
      + injection H as <- <-. split; [econstructor; exact G|]. eapply modes_one; try exact G; reflexivity.
    - assert (CO := a_call _ _ _ _ _ I _ _ _ _ _ _ G). cbn [mode_of] in MG.
      assert (AN : forall c1 a, threads c1 = threads c -> answer_ok f a ->
        events_of c t [EAnswer t f a] /\ modes c (set_thread c1 t (mkG (Running (k a) (rest_of kd)) false)) [EAnswer t f a]).
      { intros c1 a T1 AO. split; [constructor; [assumption|assumption|left; reflexivity]|]. eapply modes_one; try exact G; try exact T1.
        - intros u N m. apply other_answer. exact N.
        - cbn [fold_left calling_after]. rewrite Nat.eqb_refl. reflexivity. }
      assert (MV : forall c1 p1 w1, threads c1 = threads c ->
        events_of c t [] /\ modes c (set_thread c1 t (mkG (Inside f p1 k (rest_of kd)) w1)) []).
      { intros c1 p1 w1 T1. split; [constructor|]. eapply modes_one; try exact G; try exact T1; reflexivity. }
      assert (TK : forall h ch s v q a, nth_error (chans c) h = Some ch -> sendq ch = (s, v) :: q -> answer_ok f a ->
        then_ (wake_sender (set_chan c h (mkChan (zero ch) q (recvq ch) (closed ch))) s) (fun c => continue_ c t (Return a)) = (c', e) ->
        events_of c t e /\ modes c c' e).
      { intros h ch s v q a CH SQ AO. destruct (sendq_spec _ _ _ _ _ _ _ _ _ _ I CH SQ) as (-> & O & V & R).
        destruct (sender_spec _ _ _ _ _ _ _ _ _ _ I O V CH) as (ks & p' & KS & GS & SH & AB & _).
        assert (NE : t <> s) by (intros ->; rewrite G in GS; discriminate).
        unfold wake_sender, gost_code. cbn [set_chan threads]. rewrite GS.
        erewrite continue_ending by exact GS. unfold then_.
        assert (GT : nth_error (list_set (threads c) s (mkG (Ending p') false)) t = Some (mkG (Inside f p k (rest_of kd)) false)).
        { rewrite (nth_set _ _ _ _ _ GS). apply Nat.eqb_neq in NE. rewrite NE. exact G. }
        erewrite continue_return by exact GT. intros B. injection B as <- <-. split; [constructor; [assumption|assumption|left; reflexivity]|].
        intros u. unfold mode. cbn [set_thread set_chan threads]. rewrite (nth_set _ _ _ _ _ GT), (nth_set _ _ _ _ _ GS).
        cbn [app fold_left calling_after]. rewrite (Nat.eqb_sym t u). destruct (u =? t); [reflexivity|].
        destruct (Nat.eqb_spec u s) as [->|]; [rewrite GS|]; reflexivity. }
      inversion SB as [f0|v a|m|m|u h|z u h]; subst.
      + destruct f as [v|m|m|m|u|h|h|z u|h]; cbn [body] in *.
        * cbn [p_MutexNew operate] in H. unfold continue_ in H. cbn [threads] in H. rewrite G in H. injection H as <- <-. apply MV. reflexivity.
        * cbn [p_Lock operate] in H. destruct (nth_error (mutexes c) m) as [mu|]; [|discriminate]. destruct (locked mu); [discriminate|].
          unfold continue_ in H. cbn [set_mutex threads] in H. rewrite G in H. injection H as <- <-. apply MV. reflexivity.
        * cbn [p_Unlock operate] in H. destruct (nth_error (mutexes c) m) as [mu|] eqn:MU; [|discriminate]. destruct (locked mu) eqn:LO.
          -- erewrite continue_return in H by exact G. injection H as <- <-. apply AN; reflexivity.
          -- unfold fatal in H. injection H as <- <-. split; [econstructor; eassumption|]. apply modes_same; reflexivity.
        * cbn [p_TryLock operate] in H. destruct (nth_error (mutexes c) m) as [mu|]; [|discriminate].
          destruct (locked mu); [|destruct l].
          -- erewrite continue_return in H by exact G. injection H as <- <-. apply AN; [reflexivity|left; reflexivity].
          -- unfold continue_ in H. cbn [set_mutex threads] in H. rewrite G in H. injection H as <- <-. apply MV. reflexivity.
          -- erewrite continue_return in H by exact G. injection H as <- <-. apply AN; [reflexivity|left; reflexivity].
        * cbn [p_Spawn operate] in H. unfold continue_ in H. cbn [threads] in H. rewrite G in H.
          injection H as <- <-. apply MV. reflexivity.
        * cbn [p_Join operate] in H. destruct (nth_error (chans c) h) as [ch|] eqn:CH; [|discriminate].
          destruct (sendq ch) as [|[s v] q] eqn:SQ.
          -- destruct (closed ch) eqn:CF.
             { erewrite continue_return in H by exact G. injection H as <- <-. apply AN; reflexivity. }
             injection H as <- <-. unfold park. cbn [set_chan threads]. rewrite G. apply MV. reflexivity.
          -- injection H as H. eapply TK; try eassumption. reflexivity.
        * cbn [p_IsFinished operate] in H. destruct (nth_error (chans c) h) as [ch|] eqn:CH; [|discriminate].
          destruct (sendq ch) as [|[s v] q] eqn:SQ.
          -- erewrite continue_return in H by exact G. injection H as <- <-. apply AN; [reflexivity|]. eexists. reflexivity.
          -- injection H as H. eapply TK; try eassumption. eexists. reflexivity.
        * cbn [p_Gokio_Spawn operate] in H. unfold continue_ in H. cbn [threads] in H. rewrite G in H.
          injection H as <- <-. apply MV. reflexivity.
        * cbn [p_Await operate] in H. destruct (nth_error (chans c) h) as [ch|] eqn:CH; [|discriminate].
          destruct (sendq ch) as [|[s v] q] eqn:SQ.
          -- destruct (closed ch) eqn:CF.
             { erewrite continue_return in H by exact G. injection H as <- <-. apply AN; [reflexivity|exact Logic.I]. }
             injection H as <- <-. unfold park. cbn [set_chan threads]. rewrite G. apply MV. reflexivity.
          -- injection H as H. eapply TK; try eassumption. exact Logic.I.
      + cbn [operate] in H. erewrite continue_return in H by exact G. injection H as <- <-. apply AN; [reflexivity|]. eexists. reflexivity.
      + cbn [operate] in H. destruct (nth_error (mutexes c) m) as [mu|]; [|discriminate].
        erewrite continue_return in H by exact G. injection H as <- <-. apply AN; [reflexivity|]. eexists. reflexivity.
      + cbn [operate] in H. destruct (nth_error (mutexes c) m) as [mu|]; [|discriminate].
        erewrite continue_return in H by exact G. injection H as <- <-. apply AN; [reflexivity|]. right. eexists. reflexivity.
      + assert (GT : forall x, nth_error (threads c ++ [x]) t = Some (mkG (Inside (Spawn u) (Go u (rest_of (KJoin h)) (Return (VHandle h))) k (rest_of kd)) false)).
        { intros x. rewrite nth_error_app1 by (eapply nth_lt; exact G). exact G. }
        cbn [operate] in H. unfold then_ in H. erewrite continue_return in H by apply GT. injection H as <- <-.
        split; [constructor; exact MG|]. eapply modes_go. exact G.
      + assert (GT : forall x, nth_error (threads c ++ [x]) t = Some (mkG (Inside (Gokio_Spawn z u) (Go u (rest_of (KFut h)) (Return (VFuture h))) k (rest_of kd)) false)).
        { intros x. rewrite nth_error_app1 by (eapply nth_lt; exact G). exact G. }
        cbn [operate] in H. unfold then_ in H. erewrite continue_return in H by apply GT. injection H as <- <-.
        split; [constructor; exact MG|]. eapply modes_go. exact G.
    - edestruct send_result as (M & ch & CH & E); try eassumption; [reflexivity|]. split; [|exact M].
      destruct (recvq ch); [subst; constructor|]. destruct E as (f & x & -> & E & E2 & E3 & _). constructor; [assumption|assumption|right; exists h; destruct (zero ch); auto].
    - cbn [operate] in H. unfold fatal in H. injection H as <- <-. split; [eapply ev_crash; exact G|]. apply modes_same; reflexivity.
    - edestruct send_result as (M & ch & CH & E); try eassumption; [reflexivity|]. split; [|exact M].
      destruct (recvq ch); [subst; constructor|]. destruct E as (f & x & -> & E & E2 & E3 & _). constructor; [assumption|assumption|right; exists h; destruct (zero ch); auto].
    - edestruct close_result as (M & ch & z & CH & Z & EE & E & _); try eassumption. split; [rewrite EE; constructor; exact E|exact M].
  Qed.

  (** A channel stays of its kind. *)
  Lemma continue_chans c t p : chans (fst (continue_ c t p)) = chans c.
  Proof. unfold continue_. destruct (nth_error (threads c) t) as [[[? ?|? ? ? ?|?] ?]|]; try reflexivity. destruct p; reflexivity. Qed.
  Lemma park_chans c t : chans (park c t) = chans c.
  Proof. unfold park. destruct (nth_error (threads c) t); reflexivity. Qed.
  Lemma wake_receiver_chans c t v : chans (fst (wake_receiver c t v)) = chans c.
  Proof. unfold wake_receiver. destruct (gost_code c t) as [[]|]; try reflexivity. apply continue_chans. Qed.
  Lemma wake_sender_chans c t : chans (fst (wake_sender c t)) = chans c.
  Proof. unfold wake_sender. destruct (gost_code c t) as [[]|]; try reflexivity. apply continue_chans. Qed.
  Lemma wake_all_chans ts v : forall c, chans (fst (wake_all c ts v)) = chans c.
  Proof.
    induction ts as [|t ts IH]; intros c; [reflexivity|]. cbn [wake_all].
    destruct (wake_receiver c t v) as [c1 e1] eqn:E. destruct (wake_all c1 ts v) as [c2 e2] eqn:F. cbn [fst].
    specialize (IH c1). rewrite F in IH. cbn [fst] in IH. rewrite IH. rewrite <- (wake_receiver_chans c t v), E. reflexivity.
  Qed.
  Lemma then_chans (r : config * trace) k : (forall c, chans (fst (k c)) = chans c) -> chans (fst (then_ r k)) = chans (fst r).
  Proof. intros H. destruct r as [c1 e1]. unfold then_. specialize (H c1). destruct (k c1). exact H. Qed.
  Definition kept (chs chs' : list chan) : Prop :=
    forall h ch, nth_error chs h = Some ch -> exists ch', nth_error chs' h = Some ch' /\ zero ch' = zero ch.
  Lemma kept_refl chs : kept chs chs.
  Proof. intros h ch H. exists ch. split; [exact H|reflexivity]. Qed.
  Lemma kept_set c i ch0 a b d : nth_error (chans c) i = Some ch0 -> kept (chans c) (list_set (chans c) i (mkChan (zero ch0) a b d)).
  Proof.
    intros E h ch H. rewrite (chan_set _ _ _ _ _ E). destruct (Nat.eqb_spec h i) as [->|].
    - eexists. split; [reflexivity|]. cbn. congruence.
    - exists ch. split; [exact H|reflexivity].
  Qed.
  Lemma step_kept c t l c' e : step c t l = Some (c', e) -> kept (chans c) (chans c').
  Proof.
    assert (OP : forall p, operate c t l p = Some (c', e) -> kept (chans c) (chans c')).
    { assert (CF : forall c1 p1, Some (continue_ c1 t p1) = Some (c', e) -> chans c' = chans c1).
      { intros c1 p1 B. injection B as B. rewrite <- (continue_chans c1 t p1), B. reflexivity. }
      intros p H. destruct p; cbn [operate] in H.
      - discriminate.
      - apply CF in H. rewrite H. apply kept_refl.
      - apply CF in H. rewrite H. apply kept_refl.
      - destruct (nth_error (mutexes c) m); [|discriminate]. apply CF in H. rewrite H. apply kept_refl.
      - destruct (nth_error (mutexes c) m); [|discriminate]. destruct (locked m0); [discriminate|]. apply CF in H. rewrite H. apply kept_refl.
      - destruct (nth_error (mutexes c) m); [|discriminate]. destruct (locked m0); [apply CF in H; rewrite H; apply kept_refl|].
        injection H as <- <-. apply kept_refl.
      - destruct (nth_error (mutexes c) m); [|discriminate]. destruct (locked m0); [|destruct l]; apply CF in H; rewrite H; apply kept_refl.
      - apply CF in H. rewrite H. intros h ch HC. exists ch. split; [|reflexivity]. cbn [chans]. rewrite nth_error_app1; [exact HC|].
        eapply nth_lt. exact HC.
      - destruct (nth_error (chans c) _) as [ch0|] eqn:E in H; [|discriminate]. destruct (closed ch0) eqn:CL.
        + injection H as <- <-. apply kept_refl.
        + destruct (recvq ch0).
          * injection H as <- <-. rewrite park_chans. apply kept_set. exact E.
          * injection H as H. pose proof (f_equal (fun x => chans (fst x)) H) as B. cbv beta in B.
            rewrite then_chans, wake_receiver_chans in B by (intros; apply continue_chans). cbn [fst] in B. rewrite <- B. apply kept_set. exact E.
      - destruct (nth_error (chans c) _) as [ch0|] eqn:E in H; [|discriminate]. destruct (sendq ch0) as [|[s v] q].
        + destruct (closed ch0).
          * apply CF in H. rewrite H. apply kept_refl.
          * injection H as <- <-. rewrite park_chans. apply kept_set. exact E.
        + injection H as H. pose proof (f_equal (fun x => chans (fst x)) H) as B. cbv beta in B.
          rewrite then_chans, wake_sender_chans in B by (intros; apply continue_chans). cbn [fst] in B. rewrite <- B. apply kept_set. exact E.
      - destruct (nth_error (chans c) _) as [ch0|] eqn:E in H; [|discriminate]. destruct (sendq ch0) as [|[s v] q].
        + apply CF in H. rewrite H. apply kept_refl.
        + injection H as H. pose proof (f_equal (fun x => chans (fst x)) H) as B. cbv beta in B.
          rewrite then_chans, wake_sender_chans in B by (intros; apply continue_chans). cbn [fst] in B. rewrite <- B. apply kept_set. exact E.
      - destruct (nth_error (chans c) _) as [ch0|] eqn:E in H; [|discriminate]. destruct (closed ch0).
        + injection H as <- <-. apply kept_refl.
        + injection H as H. pose proof (f_equal (fun x => chans (fst x)) H) as B. cbv beta in B.
          rewrite then_chans, wake_all_chans in B by (intros; apply continue_chans). cbn [fst] in B. rewrite <- B. apply kept_set. exact E.
      - injection H as <- <-. apply kept_refl.
      - unfold then_ in H.
        match type of H with context [continue_ ?c1 t ?p1] => assert (B := continue_chans c1 t p1); destruct (continue_ c1 t p1) as [c2 e2] end.
        injection H as <- <-. cbn [fst chans] in B. rewrite B. apply kept_refl. }
    intros H. unfold step in H. destruct (dead c); [discriminate|].
    destruct (nth_error (threads c) t) as [[[u rest|f p k rest|p] [|]]|]; try discriminate.
    - destruct u as [v|f k|a k|a v k| |].
      + injection H as <- <-. apply kept_refl.
      + destruct (typed c _) in H; [|discriminate]. injection H as <- <-. apply kept_refl.
      + destruct (nth_error (cells c) a); [|discriminate]. injection H as <- <-. apply kept_refl.
      + destruct (nth_error (cells c) a); [|discriminate]. injection H as <- <-. apply kept_refl.
      + injection H as <- <-. apply kept_refl.
      + injection H as <- <-. apply kept_refl.
    - eapply OP. exact H.
    - eapply OP. exact H.
  Qed.

  (** *** Reachable states *)
  Lemma spawned_back tr e h t : spawned (tr ++ e) h t ->
    (forall u f v, ~ In (EAnswer u (Spawn f) v) e) -> spawned tr h t.
  Proof.
    intros (u & f & a & b & E) N.
    replace (a ++ EStart u t :: EAnswer u (Spawn f) (VHandle h) :: b) with ((a ++ [EStart u t]) ++ EAnswer u (Spawn f) (VHandle h) :: b) in E
      by (rewrite <- app_assoc; reflexivity).
    destruct (app_split _ _ _ _ _ E) as [(r & ->)|(d & _ & ->)].
    - exists u, f, a, r. rewrite <- app_assoc. reflexivity.
    - exfalso. eapply N. apply in_or_app. right. left. reflexivity.
  Qed.
  Lemma spawned_future_back tr e h t z : spawned_future (tr ++ e) h t z ->
    (forall u z f v, ~ In (EAnswer u (Gokio_Spawn z f) v) e) -> spawned_future tr h t z.
  Proof.
    intros (u & f & a & b & E) N.
    replace (a ++ EStart u t :: EAnswer u (Gokio_Spawn z f) (VFuture h) :: b) with ((a ++ [EStart u t]) ++ EAnswer u (Gokio_Spawn z f) (VFuture h) :: b) in E
      by (rewrite <- app_assoc; reflexivity).
    destruct (app_split _ _ _ _ _ E) as [(r & ->)|(d & _ & ->)].
    - exists u, f, a, r. rewrite <- app_assoc. reflexivity.
    - exfalso. eapply N. apply in_or_app. right. left. reflexivity.
  Qed.
  Lemma finished_back tr e t v : finished (tr ++ e) t v -> (forall u w, ~ In (EFinish u w) e) -> finished tr t v.
  Proof. intros H N. apply in_app_or in H. destruct H as [H|H]; [exact H|]. exfalso. eapply N. exact H. Qed.


  (** Handles are what Spawn returned them for. *)
  Definition tracks tr (owns : list own) : Prop :=
    (forall h t', spawned tr h t' -> nth_error owns h = Some (Post t')) /\
    (forall h t' z, spawned_future tr h t' z -> nth_error owns h = Some (Post t')).
  Definition Good c tr : Prop :=
    (exists kinds owns, AInv (threads c) (chans c) tr kinds owns /\ tracks tr owns) /\ forall u, mode c u = calling tr u.
  Lemma good_inv c tr : Good c tr -> Inv c tr.
  Proof. intros [(kinds & owns & I & _) _]. exists kinds, owns. exact I. Qed.

  Lemma adjacent_two (a : trace) : forall x y p q r b, a ++ [x; y] = p ++ q :: r :: b ->
    (exists d, a = p ++ q :: r :: d) \/ (b = [y] /\ r = x) \/ (b = [] /\ q = x /\ r = y).
  Proof.
    induction a as [|w a IH]; intros x y p q r b H.
    - destruct p as [|p0 [|p1 [|p2 p]]]; cbn [app] in H; inversion H; subst; [right; right; auto].
    - destruct p as [|p0 p]; cbn [app] in H.
      + destruct a as [|w2 a]; cbn [app] in H; inversion H; subst.
        * right. left. auto.
        * left. exists a. reflexivity.
      + assert (H2 : a ++ [x; y] = p ++ q :: r :: b) by (inversion H; reflexivity). assert (w = p0) by (inversion H; reflexivity). subst.
        destruct (IH _ _ _ _ _ _ H2) as [(d & ->)|D]; [|right; exact D]. left. exists d. reflexivity.
  Qed.
  Lemma spawned_two tr t t' f v h1 t1 : spawned (tr ++ [EStart t t'; EAnswer t f v]) h1 t1 ->
    spawned tr h1 t1 \/ (t1 = t' /\ v = VHandle h1 /\ exists g, f = Spawn g).
  Proof.
    intros (u & g & a & b & E). destruct (adjacent_two _ _ _ _ _ _ _ E) as [(d & ->)|[(_ & B)|(_ & B & C)]].
    - left. exists u, g, a, d. reflexivity.
    - discriminate.
    - right. injection B as <- <-. injection C as <- <-. eauto.
  Qed.
  Lemma spawned_future_two tr t t' f v h1 t1 z : spawned_future (tr ++ [EStart t t'; EAnswer t f v]) h1 t1 z ->
    spawned_future tr h1 t1 z \/ (t1 = t' /\ v = VFuture h1 /\ exists g, f = Gokio_Spawn z g).
  Proof.
    intros (u & g & a & b & E). destruct (adjacent_two _ _ _ _ _ _ _ E) as [(d & ->)|[(_ & B)|(_ & B & C)]].
    - left. exists u, g, a, d. reflexivity.
    - discriminate.
    - right. injection B as <- <-. injection C as <- <-. eauto.
  Qed.

  (** The step that starts a goroutine. *)
  Lemma start_step c t l c' tr kinds owns f v t' :
    AInv (threads c) (chans c) tr kinds owns -> step c t l = Some (c', [EStart t t'; EAnswer t f v]) ->
    exists h kinds', (v = VHandle h \/ v = VFuture h) /\ nth_error owns h = Some (Pre t) /\ t' = length (threads c) /\
      AInv (threads c') (chans c') (tr ++ [EStart t t'; EAnswer t f v]) kinds' (list_set owns h (Post t')).
  Proof.
    intros I H. assert (H' := H). unfold step in H. destruct (dead c); [discriminate|].
    destruct (nth_error (threads c) t) as [[th [|]]|] eqn:G; try discriminate.
    destruct (a_shape _ _ _ _ _ I _ _ G) as (kd & K & S).
    inversion S as [kd0 u|kd0 f0 p k w SB WT|x|h w|h|kd0|h x w|h p PP|h]; subst; try discriminate.
    - destruct u as [x|f1 k|a k|a x k| |]; [discriminate| | | |discriminate|discriminate].
      + destruct (typed c f1); discriminate.
      + destruct (nth_error (cells c) a); discriminate.
      + destruct (nth_error (cells c) a); discriminate.
    - assert (CO := a_call _ _ _ _ _ I _ _ _ _ _ _ G).
      destruct (step_shows _ _ _ _ _ tr (ex_intro _ kinds (ex_intro _ owns I)) H') as [EV _].
      assert (M : mode c t = Some f0) by (unfold mode; rewrite G; reflexivity).
      remember [EStart t t'; EAnswer t f v] as e eqn:E.
      destruct EV as [| | | | | | | | |t2 f2 h2 M2|t2 z2 f2 h2 M2| |h2 z2 rs _]; try discriminate E.
      + injection E as -> <- <-. assert (f0 = Spawn f2) by congruence. subst f0. exists h2.
        inversion SB as [f9|?|?|?|u h|?]; subst.
        * cbn [body p_Spawn operate] in H. unfold continue_ in H. cbn [threads] in H. rewrite G in H. discriminate.
        * cbn [operate] in H. unfold then_ in H. erewrite continue_return in H.
          2: { cbn [threads]. rewrite nth_error_app1 by (eapply nth_lt; exact G). exact G. }
          injection H as <- <- <-. exists (kinds ++ [KJoin h]).
          split; [left; reflexivity|].
          assert (O : nth_error owns h = Some (Pre t)) by (apply (a_go _ _ _ _ _ I); unfold vw; rewrite G; reflexivity).
          split; [exact O|]. split; [reflexivity|]. cbn [set_thread threads chans].
          eapply (go_step _ _ _ _ _ t kd _ f2 h None (KJoin h) (k (VHandle h))); try eassumption; try reflexivity.
          -- apply (CO _ _ _ eq_refl).
          -- split; [intros; split; reflexivity|]. apply noend_ends. reflexivity.
          -- exists t, f2, [], []. reflexivity.
      + injection E as -> <- <-. assert (f0 = Gokio_Spawn z2 f2) by congruence. subst f0. exists h2.
        inversion SB as [f9|?|?|?|?|z u h]; subst.
        * cbn [body p_Gokio_Spawn operate] in H. unfold continue_ in H. cbn [threads] in H. rewrite G in H. discriminate.
        * cbn [operate] in H. unfold then_ in H. erewrite continue_return in H.
          2: { cbn [threads]. rewrite nth_error_app1 by (eapply nth_lt; exact G). exact G. }
          injection H as <- <- <-. exists (kinds ++ [KFut h]).
          split; [right; reflexivity|].
          assert (O : nth_error owns h = Some (Pre t)) by (apply (a_go _ _ _ _ _ I); unfold vw; rewrite G; reflexivity).
          split; [exact O|]. split; [reflexivity|]. cbn [set_thread threads chans].
          eapply (go_step _ _ _ _ _ t kd _ f2 h (Some z2) (KFut h) (k (VFuture h))); try eassumption; try reflexivity.
          -- apply (CO _ _ _ eq_refl).
          -- split; [intros; split; reflexivity|]. apply noend_ends. reflexivity.
          -- exists t, f2, [], []. reflexivity.
      + exfalso. destruct rs; discriminate E.
    - edestruct send_result as (M & ch & CH & E); try eassumption; [reflexivity|]. destruct (recvq ch); [discriminate|].
      destruct E as (f0 & x & E & _). discriminate.
    - edestruct send_result as (M & ch & CH & E); try eassumption; [reflexivity|]. destruct (recvq ch); [discriminate|].
      destruct E as (f0 & y & E & _). discriminate.
    - edestruct close_result as (M & ch & z & CH & Z & E & _); try eassumption. destruct (recvq ch); discriminate.
  Qed.

  Lemma step_good c t l c' e tr : Good c tr -> step c t l = Some (c', e) -> Good c' (tr ++ e).
  Proof.
    intros G H. assert (I0 := good_inv _ _ G). destruct G as [(kinds & owns & I & T1 & T2) M].
    destruct (step_shows _ _ _ _ _ _ I0 H) as [EV MM]. split.
    2: { intros u. rewrite MM, M. unfold calling. rewrite fold_left_app. reflexivity. }
    assert (CASE : (exists f v t', e = [EStart t t'; EAnswer t f v]) \/
      ((forall u f v, ~ In (EAnswer u (Spawn f) v) e) /\ (forall u z f v, ~ In (EAnswer u (Gokio_Spawn z f) v) e))).
    { destruct EV as [| | | | | | | | |t2 f2 h2 M2|t2 z2 f2 h2 M2|u f v AO|h2 z2 rs _]; try (left; eauto; fail); right;
        split; intros; intros B; cbn [In] in B; try (destruct B as [B|[]]; discriminate B); try (destruct B; fail).
      - destruct B as [B|[]]. injection B as _ -> _. exact AO.
      - destruct B as [B|[]]. injection B as _ -> _. exact AO.
      - apply in_map_iff in B. destruct B as (? & B & _). discriminate.
      - apply in_map_iff in B. destruct B as (? & B & _). discriminate. }
    destruct CASE as [(f & v & t' & ->)|[N1 N2]].
    - destruct (start_step _ _ _ _ _ _ _ _ _ _ I H) as (h & kinds' & V & O & T' & I').
      exists kinds', (list_set owns h (Post t')). split; [exact I'|].
      assert (HL : nth_error (list_set owns h (Post t')) h = Some (Post t')).
      { rewrite nth_error_list_set, Nat.eqb_refl. destruct (Nat.ltb_spec h (length owns)); [reflexivity|].
        apply nth_lt in O. lia. }
      split.
      + intros h1 t1 S1. apply spawned_two in S1. destruct S1 as [S1|(-> & -> & _)].
        * eapply post_set; [apply T1; exact S1|exact O].
        * destruct V as [V|V]; [|discriminate]. injection V as <-. exact HL.
      + intros h1 t1 z S1. apply spawned_future_two in S1. destruct S1 as [S1|(-> & -> & _)].
        * eapply post_set; [eapply T2; exact S1|exact O].
        * destruct V as [V|V]; [discriminate|]. injection V as <-. exact HL.
    - destruct (step_grow _ _ _ _ _ _ _ _ I H) as (kinds' & owns' & I' & GR). exists kinds', owns'. split; [exact I'|]. split.
      + intros h1 t1 S1. apply GR, T1. eapply spawned_back; eassumption.
      + intros h1 t1 z S1. apply GR, (T2 _ _ z). eapply spawned_future_back; eassumption.
  Qed.
  Lemma start_good (mains : list user) : Good (start mains) [].
  Proof.
    split.
    - destruct (start_inv mains) as (kinds & owns & I). exists kinds, owns. split; [exact I|].
      split; [intros h t' (u & f & a & b & E)|intros h t' z (u & f & a & b & E)]; destruct a; discriminate.
    - intros u. unfold mode, start. cbn [threads]. rewrite nth_error_map. destruct (nth_error mains u); reflexivity.
  Qed.
  Lemma run_good s : forall c tr c' e, Good c tr -> run c s = (c', e) -> Good c' (tr ++ e).
  Proof.
    induction s as [|[t l] s IH]; intros c tr c' e I H; cbn [run] in H.
    - injection H as <- <-. rewrite app_nil_r. exact I.
    - destruct (step c t l) as [[c1 e1]|] eqn:E.
      + destruct (run c1 s) as [c2 e2] eqn:R. injection H as <- <-. rewrite app_assoc.
        eapply IH; [eapply step_good; eassumption|exact R].
      + eapply IH; eassumption.
  Qed.
  Lemma reach_good (mains : list user) s c tr : run (start mains) s = (c, tr) -> Good c tr.
  Proof. intros H. apply (run_good _ _ [] _ _ (start_good mains) H). Qed.

  Lemma mode_inside c u f : mode c u = Some f -> exists p k rest w, nth_error (threads c) u = Some (mkG (Inside f p k rest) w).
  Proof.
    unfold mode. destruct (nth_error (threads c) u) as [[[]]|]; try discriminate. intros H. injection H as ->. eauto.
  Qed.

  (** The moment of an answer. *)
  Lemma at_answer (mains : list user) s c tr1 t f v tr2 :
    run (start mains) s = (c, tr1 ++ EAnswer t f v :: tr2) ->
    exists c1 ea u l c2 b1 b2, Good c1 ea /\ step c1 u l = Some (c2, b1 ++ EAnswer t f v :: b2) /\
      Good c2 (ea ++ b1 ++ EAnswer t f v :: b2) /\ events_of c1 u (b1 ++ EAnswer t f v :: b2) /\ tr1 = ea ++ b1.
  Proof.
    intros H. destruct (run_split _ _ _ _ _ _ H) as (s1 & u & l & s2 & c1 & ea & c2 & b1 & b2 & _ & R1 & S1 & E).
    apply reach_good in R1. exists c1, ea, u, l, c2, b1, b2. split; [exact R1|]. split; [exact S1|].
    split; [eapply step_good; eassumption|]. split; [|exact E]. destruct R1 as [(kinds & owns & I & _) _]. eapply step_shows; [exists kinds, owns; exact I|exact S1].
  Qed.
  Lemma single {A} (x y : A) b1 b2 : [y] = b1 ++ x :: b2 -> b1 = [] /\ b2 = [] /\ y = x.
  Proof.
    destruct b1 as [|z b1]; cbn [app]; intros H; injection H as -> H.
    - subst. auto.
    - destruct b1; discriminate.
  Qed.
  Lemma single_answer c u t f v b1 b2 : events_of c u (b1 ++ EAnswer t f v :: b2) ->
    match f with Spawn _ | Gokio_Spawn _ _ | Await _ => True | _ => b1 = [] /\ b2 = [] /\ answer_ok f v /\ mode c t = Some f end.
  Proof.
    intros H. remember (b1 ++ EAnswer t f v :: b2) as e eqn:E. destruct H.
    - destruct b1; discriminate.
    - apply single in E. destruct E as (_ & _ & E). discriminate.
    - apply single in E. destruct E as (_ & _ & E). discriminate.
    - apply single in E. destruct E as (_ & _ & E). discriminate.
    - apply single in E. destruct E as (_ & _ & E). discriminate.
    - apply single in E. destruct E as (_ & _ & E). discriminate.
    - apply single in E. destruct E as (_ & _ & E). discriminate.
    - apply single in E. destruct E as (_ & _ & E). discriminate.
    - apply single in E. destruct E as (_ & _ & E). discriminate.
    - destruct b1 as [|x b1]; [discriminate|]. cbn [app] in E. injection E as <- E. apply single in E. destruct E as (_ & _ & E).
      injection E as _ <- _. exact Logic.I.
    - destruct b1 as [|x b1]; [discriminate|]. cbn [app] in E. injection E as <- E. apply single in E. destruct E as (_ & _ & E).
      injection E as _ <- _. exact Logic.I.
    - apply single in E. destruct E as (-> & -> & E). injection E as -> -> ->. destruct f; auto.
    - assert (B : In (EAnswer t f v) (map (fun r => EAnswer r (Await h) z) rs)) by (rewrite E; apply in_or_app; right; left; reflexivity).
      apply in_map_iff in B. destruct B as (r & B & _). injection B as _ <- _. exact Logic.I.
  Qed.

  (** *** Answers *)
  Lemma good_handle c tr t h : Good c tr -> mode c t = Some (Join h) \/ mode c t = Some (IsFinished h) -> kind_of_chan (chans c) h None.
  Proof.
    intros [(kinds & owns & I & _) _] [M|M]; apply mode_inside in M; destruct M as (p & k & rest & w & G);
      exact (a_call _ _ _ _ _ I _ _ _ _ _ _ G).
  Qed.
  Lemma token_taken (mains : list user) s c tr1 t f v tr2 h :
    run (start mains) s = (c, tr1 ++ EAnswer t f v :: tr2) ->
    f = Join h \/ f = IsFinished h /\ v = VBool true ->
    joined tr1 h = [] /\ exists t' w, spawned tr1 h t' /\ finished tr1 t' w.
  Proof.
    intros R F. destruct (at_answer _ _ _ _ _ _ _ _ R) as (c1 & ea & u & l & c2 & b1 & b2 & G1 & ST & G2 & EV & ->).
    apply single_answer in EV.
    assert (J : joined [EAnswer t f v] h = [v]).
    { destruct F as [->|[-> ->]]; cbn [joined]; rewrite Nat.eqb_refl; reflexivity. }
    assert (A : b1 = [] /\ b2 = [] /\ mode c1 t = Some f /\ kind_of_chan (chans c1) h None).
    { destruct F as [->|[-> ->]]; destruct EV as (-> & -> & _ & M); (split; [reflexivity|]; split; [reflexivity|]; split; [exact M|]);
        eapply good_handle; try exact G1; [left|right]; exact M. }
    destruct A as (-> & -> & M & ch & CH & Z). cbn [app] in *. rewrite app_nil_r.
    destruct (step_kept _ _ _ _ _ ST _ _ CH) as (ch' & CH' & Z'). rewrite Z in Z'.
    destruct G2 as [(kinds & owns & I & _) _].
    assert (P := a_phase _ _ _ _ _ I _ _ CH'). unfold phase in P. rewrite joined_app, J in P.
    destruct (nth_error owns h) as [[t'|t']|]; [destruct P as (_ & _ & P & _); destruct (joined ea h); discriminate| |contradiction].
    rewrite Z' in P. destruct P as (_ & SP & P).
    assert (SP' : spawned ea h t').
    { eapply spawned_back; [exact SP|]. intros x g y [B|[]]. destruct F as [->|[-> _]]; discriminate. }
    assert (Q : (exists w, finished (ea ++ [EAnswer t f v]) t' w) /\ exists x, joined ea h ++ [v] = [x]).
    { destruct (vw (threads c2) t') as [[| | |x w| |]|]; try (destruct P as [_ P]; destruct (joined ea h); discriminate).
      - destruct P as (P & _). destruct (joined ea h); discriminate.
      - destruct P.
      - destruct P as (_ & [P|[_ P]]); [exact P|]. destruct (joined ea h); discriminate. }
    destruct Q as ((w & FI) & x & JJ). split.
    - destruct (joined ea h) as [|y [|? ?]]; [reflexivity| |]; discriminate.
    - exists t', w. split; [exact SP'|]. eapply finished_back; [exact FI|]. intros ? ? [B|[]]. discriminate.
  Qed.

  Lemma events_no_finish c u t f v b1 b2 : events_of c u (b1 ++ EAnswer t f v :: b2) -> noend (b1 ++ EAnswer t f v :: b2).
  Proof.
    intros H. remember (b1 ++ EAnswer t f v :: b2) as e eqn:E. destruct H; try (apply noend_ends; reflexivity).
    - apply single in E. destruct E as (_ & _ & E). discriminate.
    - apply single in E. destruct E as (_ & _ & E). discriminate.
    - apply single in E. destruct E as (_ & _ & E). discriminate.
    - apply noend_ends. clear. induction rs as [|r q IH]; [reflexivity|exact IH].
  Qed.
  Lemma await_events c u t h v b1 b2 : events_of c u (b1 ++ EAnswer t (Await h) v :: b2) ->
    mode c t = Some (Await h) /\ forall x z f y, ~ In (EAnswer x (Gokio_Spawn z f) y) (b1 ++ EAnswer t (Await h) v :: b2).
  Proof.
    intros H. remember (b1 ++ EAnswer t (Await h) v :: b2) as e eqn:E.
    assert (IN : In (EAnswer t (Await h) v) e) by (rewrite E; apply in_or_app; right; left; reflexivity).
    clear E. destruct H; cbn [In] in IN; try (destruct IN as [B|[]]; discriminate).
    - destruct IN.
    - destruct IN as [B|[B|[]]]; discriminate.
    - destruct IN as [B|[B|[]]]; discriminate.
    - destruct IN as [B|[]]. injection B as -> -> ->. split; [assumption|]. intros x z g y [C|[]]. discriminate.
    - apply in_map_iff in IN. destruct IN as (r & B & IN). injection B as -> -> ->. split; [auto|].
      intros x z' g y C. apply in_map_iff in C. destruct C as (r' & C & _). discriminate.
  Qed.

  Lemma await_answer (mains : list user) s c tr1 t h v tr2 :
    run (start mains) s = (c, tr1 ++ EAnswer t (Await h) v :: tr2) ->
    exists t' z, spawned_future tr1 h t' z /\
      ((exists w, finished tr1 t' w /\ (awaited tr1 h = [] -> v = w) /\ (awaited tr1 h <> [] -> v = z)) \/
       gone tr1 t' /\ v = z).
  Proof.
    intros R. destruct (at_answer _ _ _ _ _ _ _ _ R) as (c1 & ea & u & l & c2 & b1 & b2 & G1 & ST & G2 & EV & ->).
    assert (NF := events_no_finish _ _ _ _ _ _ _ EV). apply await_events in EV. destruct EV as [M NG].
    assert (KC : exists z, kind_of_chan (chans c1) h (Some z)).
    { destruct G1 as [(kinds & owns & I & _) _]. apply mode_inside in M. destruct M as (p & k & rest & w & G).
      exact (a_call _ _ _ _ _ I _ _ _ _ _ _ G). }
    destruct KC as (z & ch & CH & Z).
    destruct (step_kept _ _ _ _ _ ST _ _ CH) as (ch' & CH' & Z'). rewrite Z in Z'.
    destruct G2 as [(kinds & owns & I & _) _].
    assert (AW : awaited (ea ++ b1 ++ EAnswer t (Await h) v :: b2) h = awaited (ea ++ b1) h ++ v :: awaited b2 h).
    { rewrite app_assoc, (awaited_app (ea ++ b1)). cbn [awaited]. rewrite Nat.eqb_refl. reflexivity. }
    assert (P := a_phase _ _ _ _ _ I _ _ CH'). unfold phase in P. rewrite AW in P.
    destruct (nth_error owns h) as [[t'|t']|]; [destruct P as (_ & _ & _ & P); destruct (awaited (ea ++ b1) h); discriminate| |contradiction].
    rewrite Z' in P. destruct P as (SP & P).
    assert (SP' : spawned_future ea h t' z).
    { eapply spawned_future_back; [exact SP|]. exact NG. }
    assert (Q : exists n, (exists w, finished (ea ++ b1 ++ EAnswer t (Await h) v :: b2) t' w /\ awaited (ea ++ b1) h ++ v :: awaited b2 h = w :: repeat z n) \/
      gone (ea ++ b1 ++ EAnswer t (Await h) v :: b2) t' /\ awaited (ea ++ b1) h ++ v :: awaited b2 h = repeat z n).
    { destruct (vw (threads c2) t') as [[| | |x w| |]|]; try (destruct P as (_ & P & _); destruct (awaited (ea ++ b1) h); discriminate).
      - destruct P as (P & _). destruct (awaited (ea ++ b1) h); discriminate.
      - destruct P as (_ & _ & [(w & P1 & P2)|[_ P]]); [|destruct (awaited (ea ++ b1) h); discriminate].
        exists 0. left. exists w. split; assumption.
      - destruct P as (_ & _ & _ & n & [(w & P1 & P2)|P]); exists n; [left; exists w; split; assumption|right; exact P]. }
    destruct Q as (n & Q). exists t', z. split; [apply spawned_future_app; exact SP'|].
    destruct Q as [(w & FI & Q)|[GO Q]].
    - left. exists w. split; [apply finished_app; eapply noend_finished; [exact NF|exact FI]|].
      destruct (awaited (ea ++ b1) h) as [|y r] eqn:A; cbn [app] in Q; injection Q as Q1 Q2.
      + split; [intros _; exact Q1|congruence].
      + split; [discriminate|]. intros _. apply (repeat_spec n). rewrite <- Q2. apply in_or_app. right. left. reflexivity.
    - right. split; [apply gone_app; eapply noend_gone; [exact NF|exact GO]|].
      apply (repeat_spec n). rewrite <- Q. apply in_or_app. right. left. reflexivity.
  Qed.

  (** *** A waiting call can go on *)
  Lemma step_inside c t l f p k rest : dead c = false -> nth_error (threads c) t = Some (mkG (Inside f p k rest) false) ->
    step c t l = operate c t l p.
  Proof. intros D G. unfold step. rewrite D, G. reflexivity. Qed.
  Lemma step_ending c t l p : dead c = false -> nth_error (threads c) t = Some (mkG (Ending p) false) ->
    step c t l = operate c t l p.
  Proof. intros D G. unfold step. rewrite D, G. reflexivity. Qed.
  Lemma step_waiting c t l th : nth_error (threads c) t = Some (mkG th true) -> step c t l = None.
  Proof. intros G. unfold step. rewrite G. destruct (dead c); reflexivity. Qed.

  Lemma good_call c tr t f : Good c tr -> calling tr t = Some f ->
    exists kd p k w, nth_error (threads c) t = Some (mkG (Inside f p k (rest_of kd)) w) /\ sub f p /\ call_ok (chans c) f p.
  Proof.
    intros [(kinds & owns & I & _) M] C. rewrite <- M in C. apply mode_inside in C. destruct C as (p & k & rest & w & G).
    destruct (a_shape _ _ _ _ _ I _ _ G) as (kd & K & S). inversion S; subst. exists kd, p, k, w.
    split; [exact G|]. split; [assumption|]. exact (a_call _ _ _ _ _ I _ _ _ _ _ _ G).
  Qed.

  Lemma park_or_parked c tr t l f h q k kd wt ch :
    Good c tr -> dead c = false -> nth_error (threads c) t = Some (mkG (Inside f (Recv h q) k (rest_of kd)) wt) ->
    nth_error (chans c) h = Some ch -> sendq ch = [] -> closed ch = false ->
    exists c1, run c [(t, l)] = (c1, []) /\ Good c1 tr /\ dead c1 = false /\
      (forall u, u <> t -> nth_error (threads c1) u = nth_error (threads c) u) /\
      exists ch1, nth_error (chans c1) h = Some ch1 /\ In t (recvq ch1) /\ zero ch1 = zero ch /\ sendq ch1 = [].
  Proof.
    intros GO D G CH SQ CF. destruct wt.
    - exists c. cbn [run]. rewrite (step_waiting _ _ _ _ G). split; [reflexivity|]. split; [exact GO|]. split; [exact D|].
      split; [reflexivity|]. exists ch. split; [exact CH|]. split; [|split; [reflexivity|exact SQ]].
      destruct GO as [(kinds & owns & I & _) _]. apply (a_wait _ _ _ _ _ I _ _ _ CH). unfold vw. rewrite G. reflexivity.
    - assert (ST : step c t l = Some (park (set_chan c h (mkChan (zero ch) [] (recvq ch ++ [t]) (closed ch))) t, [])).
      { rewrite (step_inside _ _ _ _ _ _ _ D G). cbn [operate]. rewrite CH, SQ, CF. reflexivity. }
      exists (park (set_chan c h (mkChan (zero ch) [] (recvq ch ++ [t]) (closed ch))) t).
      cbn [run]. rewrite ST. split; [reflexivity|].
      split; [rewrite <- (app_nil_r tr); eapply step_good; eassumption|].
      unfold park. cbn [set_chan threads]. rewrite G. cbn [set_thread threads chans dead set_chan]. split; [exact D|]. split.
      + intros u N. rewrite (nth_set _ _ _ _ _ G). apply Nat.eqb_neq in N. rewrite N. reflexivity.
      + eexists. rewrite (chan_set _ _ _ _ _ CH), Nat.eqb_refl. split; [reflexivity|]. split; [|split; reflexivity].
        cbn [recvq]. apply in_or_app. right. left. reflexivity.
  Qed.

  Lemma take_result c tr kinds owns t h ch s v q f p k kd a :
    AInv (threads c) (chans c) tr kinds owns ->
    nth_error (threads c) t = Some (mkG (Inside f p k (rest_of kd)) false) ->
    nth_error (chans c) h = Some ch -> sendq ch = (s, v) :: q ->
    snd (then_ (wake_sender (set_chan c h (mkChan (zero ch) q (recvq ch) (closed ch))) s) (fun c => continue_ c t (Return a))) = [EAnswer t f a].
  Proof.
    intros I G CH SQ. destruct (sendq_spec _ _ _ _ _ _ _ _ _ _ I CH SQ) as (-> & O & V & R).
    destruct (sender_spec _ _ _ _ _ _ _ _ _ _ I O V CH) as (ks & p' & KS & GS & SH & AB & _).
    assert (NE : t <> s) by (intros ->; rewrite G in GS; discriminate).
    unfold wake_sender, gost_code. cbn [set_chan threads]. rewrite GS.
    erewrite continue_ending by exact GS. unfold then_.
    erewrite continue_return.
    2: { cbn [set_thread set_chan threads]. rewrite (nth_set _ _ _ _ _ GS). apply Nat.eqb_neq in NE. rewrite NE. exact G. }
    reflexivity.
  Qed.

  Lemma run_cons c t l s c1 e1 : step c t l = Some (c1, e1) -> run c ((t, l) :: s) = (fst (run c1 s), e1 ++ snd (run c1 s)).
  Proof. intros H. cbn [run]. rewrite H. destruct (run c1 s). reflexivity. Qed.

  (** A goroutine ready to hand over its value, with somebody waiting. *)
  Lemma hand_over c tr t' l h v p' ch r0 :
    Good c tr -> dead c = false -> nth_error (threads c) t' = Some (mkG (Ending (Send h v p')) false) ->
    nth_error (chans c) h = Some ch -> In r0 (recvq ch) ->
    exists c' r q x, step c t' l = Some (c', [EAnswer r (match zero ch with None => Join h | Some _ => Await h end) x]) /\
      recvq ch = r :: q /\ calling tr r = Some (match zero ch with None => Join h | Some _ => Await h end) /\
      answer_ok (match zero ch with None => Join h | Some _ => Await h end) x /\ (zero ch <> None -> x = v) /\
      nth_error (threads c') t' = Some (mkG (Ending p') false) /\ dead c' = false /\
      chans c' = list_set (chans c) h (mkChan (zero ch) (sendq ch) q false).
  Proof.
    intros GO D G CH R. assert (GO' := GO). destruct GO as [(kinds & owns & I & TR) M].
    destruct (a_shape _ _ _ _ _ I _ _ G) as (kd & K & S).
    assert (CK : chan_of kd = Some h) by (inversion S; subst; reflexivity).
    assert (O : nth_error owns h = Some (Post t')) by (apply (a_own _ _ _ _ _ I); exists kd; split; assumption).
    assert (V : vw (threads c) t' = Some (ASend v false)) by (unfold vw; rewrite G; reflexivity).
    assert (CF : closed ch = false).
    { assert (P := a_phase _ _ _ _ _ I _ _ CH). unfold phase in P. rewrite O, V in P.
      destruct (zero ch); [destruct P as (_ & _ & _ & P & _)|destruct P as (P & _)]; exact P. }
    destruct (operate c t' l (Send h v p')) as [[c' e]|] eqn:OP.
    2: { cbn [operate] in OP. rewrite CH, CF in OP. destruct (recvq ch); discriminate. }
    edestruct send_result as (_ & ch' & CH' & E); try eassumption. assert (ch' = ch) by congruence. subst ch'.
    destruct (recvq ch) as [|r q]; [destruct R|]. destruct E as (f & x & -> & E1 & E2 & -> & E3 & E4 & E5 & E6).
    exists c', r, q, x. split; [rewrite (step_ending _ _ _ _ D G); exact OP|]. split; [reflexivity|].
    split; [rewrite <- M; exact E2|]. split; [exact E1|]. split; [exact E3|]. split; [exact E4|]. split; [congruence|exact E6].
  Qed.

  Lemma join_live c tr t h t' w l l' :
    Good c tr -> dead c = false -> calling tr t = Some (Join h) -> spawned tr h t' -> finished tr t' w -> joined tr h = [] ->
    exists c' e r, run c [(t, l); (t', l')] = (c', e) /\ calling tr r = Some (Join h) /\ In (EAnswer r (Join h) (VOk VUnit)) e.
  Proof.
    intros GO D C SP FI J. destruct (good_call _ _ _ _ GO C) as (kd & p & k & wt & G & SB & ch & CH & Z).
    inversion SB; subst p. cbn [body] in *. unfold p_Join in *.
    assert (GO' := GO). destruct GO' as [(kinds & owns & I & T1 & T2) M].
    assert (O := T1 _ _ SP). assert (P := a_phase _ _ _ _ _ I _ _ CH). unfold phase in P. rewrite O, Z, J in P.
    destruct P as (CF & _ & P). destruct (a_fin _ _ _ _ _ I _ (or_introl (ex_intro _ w FI))) as (a & V & OV). rewrite V in P.
    destruct a as [| | |v [|]| |]; try destruct OV; [| |destruct P|destruct P as (_ & [[_ (x & P)]|[P _]]); [discriminate|destruct (a_excl _ _ _ _ _ I _ _ FI P)]].
    - destruct P as (_ & _ & SQ & RQ). specialize (RQ eq_refl).
      assert (wt = false) as ->.
      { destruct wt; [|reflexivity]. assert (B : In t (recvq ch)) by (apply (a_wait _ _ _ _ _ I _ _ _ CH); unfold vw; rewrite G; reflexivity).
        rewrite RQ in B. destruct B. }
      assert (ST := step_inside _ _ l _ _ _ _ D G). cbn [operate] in ST. rewrite CH, SQ in ST.
      assert (E := take_result c tr kinds owns t h ch t' v [] _ _ _ _ (VOk VUnit) I G CH SQ).
      destruct (then_ _ _) as [c1 e1] in ST, E. cbn [snd] in E. subst e1.
      rewrite (run_cons _ _ _ _ _ _ ST). eexists _, _, t. split; [reflexivity|]. split; [exact C|]. left. reflexivity.
    - destruct P as (_ & _ & SQ & _).
      destruct (sender_spec _ _ _ _ _ _ _ _ _ _ I O V CH) as (ks & p' & KS & GS & _).
      assert (NE : t' <> t) by (intros ->; rewrite G in GS; discriminate).
      destruct (park_or_parked c tr t l _ h _ k kd wt ch GO D G CH SQ CF) as (c1 & R1 & GO1 & D1 & TH & ch1 & CH1 & IN1 & Z1 & _).
      rewrite <- (TH _ NE) in GS.
      destruct (hand_over c1 tr t' l' h v p' ch1 t GO1 D1 GS CH1 IN1) as (c2 & r & q & x & ST & _ & CR & AO & _).
      rewrite Z1, Z in *. cbn in AO. subst x.
      exists c2, [EAnswer r (Join h) (VOk VUnit)], r.
      split; [|split; [exact CR|left; reflexivity]].
      change [(t, l); (t', l')] with ([(t, l)] ++ [(t', l')]). rewrite run_app, R1. cbn [run]. rewrite ST. reflexivity.
  Qed.

  Lemma await_live c tr t h t' z l l1 l2 :
    Good c tr -> dead c = false -> calling tr t = Some (Await h) -> spawned_future tr h t' z -> ended tr t' ->
    exists c' e v, run c [(t, l); (t', l1); (t', l2)] = (c', e) /\ In (EAnswer t (Await h) v) e.
  Proof.
    intros GO D C SP FI. destruct (good_call _ _ _ _ GO C) as (kd & p & k & wt & G & SB & z' & ch & CH & Z).
    inversion SB; subst p. cbn [body] in *. unfold p_Await in *.
    assert (GO' := GO). destruct GO' as [(kinds & owns & I & T1 & T2) M].
    assert (O := T2 _ _ _ SP). assert (P := a_phase _ _ _ _ _ I _ _ CH). unfold phase in P. rewrite O, Z in P.
    destruct P as (_ & P). destruct (a_fin _ _ _ _ _ I _ FI) as (a & V & OV). rewrite V in P.
    assert (FREE : recvq ch = [] -> wt = false).
    { intros RQ. destruct wt; [|reflexivity].
      assert (B : In t (recvq ch)) by (apply (a_wait _ _ _ _ _ I _ _ _ CH); unfold vw; rewrite G; reflexivity).
      rewrite RQ in B. destruct B. }
    assert (CLOSE : forall c1 l0 pc, Good c1 tr \/ (exists e0, Good c1 (tr ++ e0)) -> dead c1 = false ->
      nth_error (threads c1) t' = Some (mkG (Ending (Close h pc)) false) ->
      forall ch1, nth_error (chans c1) h = Some ch1 -> In t (recvq ch1) ->
      exists c2 e2 v, step c1 t' l0 = Some (c2, e2) /\ In (EAnswer t (Await h) v) e2).
    { intros c1 l0 pc GG D1 GC ch1 CH1 IN1.
      assert (GX : exists trx, Good c1 trx) by (destruct GG as [GG|(e0 & GG)]; eauto). destruct GX as (trx & GX).
      destruct GX as [(kinds1 & owns1 & I1 & _) _].
      destruct (a_shape _ _ _ _ _ I1 _ _ GC) as (kd1 & K1 & S1). inversion S1; subst kd1. subst.
      assert (O1 : nth_error owns1 h = Some (Post t')) by (apply (a_own _ _ _ _ _ I1); exists (KFut h); split; [exact K1|reflexivity]).
      assert (V1 : vw (threads c1) t' = Some AClose) by (unfold vw; rewrite GC; reflexivity).
      assert (CF1 : closed ch1 = false).
      { assert (P1 := a_phase _ _ _ _ _ I1 _ _ CH1). unfold phase in P1. rewrite O1, V1 in P1.
        destruct (zero ch1); [destruct P1 as (_ & P1 & _)|destruct P1 as (P1 & _)]; exact P1. }
      destruct (operate c1 t' l0 (Close h pc)) as [[c2 e2]|] eqn:OP.
      2: { cbn [operate] in OP. rewrite CH1, CF1 in OP. discriminate. }
      edestruct close_result as (_ & ch2 & z2 & CH2 & _ & E & _); try eassumption. assert (ch2 = ch1) by congruence. subst ch2.
      exists c2, e2, z2. split; [rewrite (step_ending _ _ _ _ D1 GC); exact OP|]. rewrite E.
      apply (in_map (fun r => EAnswer r (Await h) z2)). exact IN1. }
    destruct a as [| | |v [|]| |]; try destruct OV.
    - destruct P as (_ & _ & _ & SQ & RQ). rewrite (FREE (RQ eq_refl)) in G.
      assert (ST := step_inside _ _ l _ _ _ _ D G). cbn [operate] in ST. rewrite CH, SQ in ST.
      assert (E := take_result c tr kinds owns t h ch t' v [] _ _ _ _ v I G CH SQ).
      destruct (then_ _ _) as [c1 e1] in ST, E. cbn [snd] in E. subst e1.
      rewrite (run_cons _ _ _ _ _ _ ST). eexists _, _, v. split; [reflexivity|]. left. reflexivity.
    - destruct P as (_ & _ & CF & SQ & _).
      destruct (sender_spec _ _ _ _ _ _ _ _ _ _ I O V CH) as (ks & p' & KS & GS & SH & AB & _).
      assert (NE : t' <> t) by (intros ->; rewrite G in GS; discriminate).
      destruct (park_or_parked c tr t l _ h _ k kd wt ch GO D G CH SQ CF) as (c1 & R1 & GO1 & D1 & TH & ch1 & CH1 & IN1 & Z1 & SQ1).
      rewrite <- (TH _ NE) in GS.
      assert (P' : p' = Close h (Return VUnit)).
      { destruct GO1 as [(kinds1 & owns1 & I1 & _) _]. destruct (a_shape _ _ _ _ _ I1 _ _ GS) as (kd1 & K1 & S1).
        inversion S1; subst; [|reflexivity]. rewrite Z in AB. discriminate AB. }
      destruct (hand_over c1 tr t' l1 h v p' ch1 t GO1 D1 GS CH1 IN1) as (c2 & r & q & x & ST & RQ & CR & AO & _ & GS2 & D2 & CS).
      rewrite Z1, Z in ST, CR. subst p'.
      assert (RR : run c [(t, l); (t', l1); (t', l2)] = run c1 [(t', l1); (t', l2)]).
      { change [(t, l); (t', l1); (t', l2)] with ([(t, l)] ++ [(t', l1); (t', l2)]). rewrite run_app, R1.
        destruct (run c1 _). reflexivity. }
      rewrite RR, (run_cons _ _ _ _ _ _ ST). rewrite RQ in IN1. destruct IN1 as [->|IN1].
      + eexists _, _, x. split; [reflexivity|]. left. reflexivity.
      + destruct (CLOSE c2 l2 (Return VUnit)) with (ch1 := mkChan (zero ch1) (sendq ch1) q false) as (c3 & e3 & y & ST3 & IN3); try assumption.
        * right. eexists. eapply step_good; eassumption.
        * rewrite CS, (chan_set _ _ _ _ _ CH1), Nat.eqb_refl. reflexivity.
        * rewrite (run_cons _ _ _ _ _ _ ST3). eexists _, _, y. split; [reflexivity|]. cbn [run snd]. rewrite app_nil_r.
          right. exact IN3.
    - destruct P as (CF & SQ & _).
      assert (GS : exists pc, nth_error (threads c) t' = Some (mkG (Ending (Close h pc)) false)).
      { unfold vw in V. destruct (nth_error (threads c) t') as [g|] eqn:GT; [|discriminate]. injection V as V.
        destruct (a_shape _ _ _ _ _ I _ _ GT) as (kd1 & K1 & S1).
        destruct (proj1 (a_own _ _ _ _ _ I _ _) O) as (kd2 & K2 & CK). assert (kd2 = kd1) by congruence. subst kd2.
        inversion S1 as [| ? f0 p0 k0 w0 SB0 | | | | | | |]; subst; try discriminate V.
        - inversion SB0; subst; try discriminate V. destruct f0; try discriminate V; destruct w0; discriminate V.
        - cbn in CK. injection CK as ->. eexists. reflexivity. }
      destruct GS as (pc & GS).
      assert (NE : t' <> t) by (intros ->; rewrite G in GS; discriminate).
      destruct (park_or_parked c tr t l _ h _ k kd wt ch GO D G CH SQ CF) as (c1 & R1 & GO1 & D1 & TH & ch1 & CH1 & IN1 & Z1 & SQ1).
      rewrite <- (TH _ NE) in GS.
      assert (RR : run c [(t, l); (t', l1); (t', l2)] = run c1 [(t', l1); (t', l2)]).
      { change [(t, l); (t', l1); (t', l2)] with ([(t, l)] ++ [(t', l1); (t', l2)]). rewrite run_app, R1.
        destruct (run c1 _). reflexivity. }
      destruct (CLOSE c1 l1 pc (or_introl GO1) D1 GS ch1 CH1 IN1) as (c3 & e3 & y & ST3 & IN3).
      rewrite RR, (run_cons _ _ _ _ _ _ ST3). eexists _, _, y. split; [reflexivity|]. apply in_or_app. left. exact IN3.
    - destruct P as (CF & SQ & RQ & _). rewrite (FREE RQ) in G.
      assert (ST := step_inside _ _ l _ _ _ _ D G). cbn [operate] in ST. rewrite CH, SQ, CF in ST.
      erewrite continue_return in ST by exact G.
      rewrite (run_cons _ _ _ _ _ _ ST). eexists _, _, _. split; [reflexivity|]. left. reflexivity.
  Qed.

  (** IsFinished answers at once, and says true when the end of the thread is on offer. *)
  Lemma poll_answers c tr t h l : Good c tr -> dead c = false -> calling tr t = Some (IsFinished h) ->
    exists c' ch, nth_error (chans c) h = Some ch /\ step c t l = Some (c', [EAnswer t (IsFinished h) (VBool (match sendq ch with [] => closed ch | _ => true end))]).
  Proof.
    intros GO D C. destruct (good_call _ _ _ _ GO C) as (kd & p & k & wt & G & SB & ch & CH & Z).
    inversion SB; subst p. cbn [body] in *. unfold p_IsFinished in *.
    assert (GO' := GO). destruct GO' as [(kinds & owns & I & T1 & T2) M].
    assert (wt = false) as ->.
    { destruct (a_shape _ _ _ _ _ I _ _ G) as (kd1 & K1 & S1). inversion S1; subst. destruct wt; [|reflexivity].
      match goal with W : true = true -> _ |- _ => destruct (W eq_refl) as (? & ? & ?); discriminate end. }
    assert (ST := step_inside _ _ l _ _ _ _ D G). cbn [operate] in ST. rewrite CH in ST.
    destruct (sendq ch) as [|[s v] q] eqn:SQ.
    - erewrite continue_return in ST by exact G. eexists _, ch. split; [exact CH|]. rewrite SQ. exact ST.
    - assert (E := take_result c tr kinds owns t h ch s v q _ _ _ _ (VBool true) I G CH SQ).
      destruct (then_ _ _) as [c1 e1] in ST, E. cbn [snd] in E. subst e1. exists c1, ch. split; [exact CH|]. rewrite SQ. exact ST.
  Qed.
  Lemma poll_live c tr t h t' w l l' :
    Good c tr -> dead c = false -> calling tr t = Some (IsFinished h) -> spawned tr h t' -> finished tr t' w -> joined tr h = [] ->
    (forall u, calling tr u <> Some (Join h)) ->
    exists c' e, run c [(t', l'); (t, l)] = (c', e) /\ In (EAnswer t (IsFinished h) (VBool true)) e.
  Proof.
    intros GO D C SP FI J NJ. destruct (good_call _ _ _ _ GO C) as (kd & p & k & wt & G & SB & ch & CH & Z).
    inversion SB; subst p. cbn [body] in *. unfold p_IsFinished in *.
    assert (GO' := GO). destruct GO' as [(kinds & owns & I & T1 & T2) M].
    assert (O := T1 _ _ SP). assert (P := a_phase _ _ _ _ _ I _ _ CH). unfold phase in P. rewrite O, Z, J in P.
    destruct P as (CF & _ & P). destruct (a_fin _ _ _ _ _ I _ (or_introl (ex_intro _ w FI))) as (a & V & OV). rewrite V in P.
    destruct a as [| | |v [|]| |]; try destruct OV; [| |destruct P|destruct P as (_ & [[_ (x & P)]|[P _]]); [discriminate|destruct (a_excl _ _ _ _ _ I _ _ FI P)]].
    - destruct P as (_ & _ & SQ & RQ).
      assert (WT : exists th, nth_error (threads c) t' = Some (mkG th true)).
      { unfold vw in V. destruct (nth_error (threads c) t') as [[th wq]|] eqn:GT; [|discriminate]. injection V as V.
        destruct th as [|f0 p0 k0 r0|p0]; try discriminate V.
        - cbn in V. destruct p0; try discriminate V; try (destruct wq; discriminate V). destruct p0; try discriminate V. destruct v0; discriminate V.
        - cbn in V. destruct p0; try discriminate V. injection V as _ ->. eauto. }
      destruct WT as (th & WT). cbn [run]. rewrite (step_waiting _ _ _ _ WT).
      destruct (poll_answers c tr t h l GO D C) as (c' & ch' & CH' & ST). assert (ch' = ch) by congruence. subst ch'. rewrite SQ in ST.
      rewrite ST. eexists _, _. split; [reflexivity|]. left. reflexivity.
    - destruct P as (_ & _ & SQ & _).
      destruct (sender_spec _ _ _ _ _ _ _ _ _ _ I O V CH) as (ks & p' & KS & GS & _).
      assert (RQ : recvq ch = []).
      { destruct (recvq ch) as [|r q] eqn:RQ; [reflexivity|exfalso].
        destruct (receiver_spec _ _ _ _ _ _ _ r I CH) as (kr & kk & KR & GR); [rewrite RQ; left; reflexivity|]. rewrite Z in GR.
        apply (NJ r). rewrite <- M. unfold mode. rewrite GR. reflexivity. }
      assert (ST := step_ending _ _ l' _ D GS). cbn [operate] in ST. rewrite CH, CF, RQ, SQ in ST.
      rewrite (run_cons _ _ _ _ _ _ ST).
      assert (GO1 := step_good _ _ _ _ _ _ GO ST). rewrite app_nil_r in GO1.
      set (c1 := park _ _) in *.
      assert (D1 : dead c1 = false) by (unfold c1, park; cbn [set_chan threads]; rewrite GS; exact D).
      destruct (poll_answers c1 tr t h l GO1 D1 C) as (c' & ch' & CH' & ST').
      assert (E : ch' = mkChan None ([] ++ [(t', v)]) [] false).
      { unfold c1, park in CH'. cbn [set_chan threads] in CH'. rewrite GS in CH'. cbn [set_thread chans set_chan] in CH'.
        rewrite (chan_set _ _ _ _ _ CH), Nat.eqb_refl, Z in CH'. congruence. }
      rewrite E in ST'. cbn [sendq app] in ST'. cbn [run]. rewrite ST'. eexists _, _. split; [reflexivity|]. left. reflexivity.
  Qed.
End Join.
