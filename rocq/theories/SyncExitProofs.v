(** SyncExitProofs.v -- goroutines that end by a panic or by runtime.Goexit. *)
From Verif Require Import Base BaseLemmas SyncModel SyncSpec SyncProofs SyncJoinProofs SyncLockProofs SyncOnceProofs.

Section Exit.
  Context {T : Type}.
  Notation event := (event T).
  Notation trace := (list event).
  Notation user := (user T).
  Notation val := (val T).
  Notation config := (config T).
  Notation goroutine := (goroutine T).
  Notation prog := (prog T).
  Implicit Types (c : config) (tr e : trace).

  Lemma not_both (mains : list user) s c tr t w : run (start mains) s = (c, tr) -> finished tr t w -> gone tr t -> False.
  Proof.
    intros R F [G|G]; [assert (E : EFinish t w = EExit t)|assert (E : EFinish t w = EPanic t)]; try discriminate E;
      (eapply ended_once; [exact R|exact F|left; eauto|exact G|]); right; auto.
  Qed.

  (** *** The zero value of a future is the one given to Spawn *)
  Definition Zeros c tr : Prop := forall h t' z, spawned_future tr h t' z -> kind_of_chan (chans c) h (Some z).
  Lemma kept_kind chs chs' h z : kept chs chs' -> kind_of_chan chs h z -> kind_of_chan (T:=T) chs' h z.
  Proof. intros K (ch & C & Z). destruct (K _ _ C) as (ch' & C' & Z'). exists ch'. split; congruence. Qed.
  Lemma zeros_step c t l c' e tr : Good c tr -> Zeros c tr -> step c t l = Some (c', e) -> Zeros c' (tr ++ e).
  Proof.
    intros G ZZ H h t' z SP. eapply kept_kind; [eapply step_kept; exact H|].
    assert (I0 := good_inv _ _ G). destruct (step_shows _ _ _ _ _ _ I0 H) as [EV _].
    assert (CASE : (forall u z f v, ~ In (EAnswer u (Gokio_Spawn z f) v) e) \/
                   exists t1 z1 f1 h1, e = [EStart t t1; EAnswer t (Gokio_Spawn z1 f1) (VFuture h1)] /\ mode c t = Some (Gokio_Spawn z1 f1)).
    { destruct EV as [| | | | | | | | |t2 f2 h2 M2|t2 z2 f2 h2 M2|u f v AO|h2 z2 rs _];
        try (left; intros; intros B; cbn [In] in B; try (destruct B as [B|[]]; discriminate B); try (destruct B as [B|[B|[]]]; discriminate B); try (destruct B; fail); fail).
      - right. exists t2, z2, f2, h2. split; [reflexivity|exact M2].
      - left. intros u0 z0 f0 v0 [B|[]]. injection B as _ -> _. exact AO.
      - left. intros u0 z0 f0 v0 B. apply in_map_iff in B. destruct B as (? & B & _). discriminate. }
    destruct CASE as [N|(t1 & z1 & f1 & h1 & -> & M)].
    - eapply ZZ. eapply spawned_future_back; eassumption.
    - destruct (spawned_future_two _ _ _ _ _ _ _ _ SP) as [S1|(-> & E & g & E2)]; [eapply ZZ; exact S1|].
      injection E as ->. injection E2 as -> ->.
      assert (C : calling tr t = Some (Gokio_Spawn z g)) by (destruct G as [_ G]; rewrite <- G; exact M).
      destruct (good_call _ _ _ _ G C) as (kd & p & k & w & GT & SB & CO). cbn [call_ok] in CO.
      unfold step in H. destruct (dead c); [discriminate|]. rewrite GT in H. destruct w; [discriminate|].
      inversion SB as [f9|?|?|?|?|z0 u0 h0]; subst.
      + cbn [body p_Gokio_Spawn operate] in H. unfold continue_ in H. cbn [threads] in H. rewrite GT in H. discriminate.
      + cbn [operate] in H. unfold then_ in H. erewrite continue_return in H.
        2: { cbn [threads]. rewrite nth_error_app1 by (eapply nth_lt; exact GT). exact GT. }
        injection H as _ _ <-. eapply CO. reflexivity.
  Qed.
  Lemma zeros_run s : forall c tr c' e, Good c tr -> Zeros c tr -> run c s = (c', e) -> Zeros c' (tr ++ e).
  Proof.
    induction s as [|[t l] s IH]; intros c tr c' e G Z H; cbn [run] in H.
    - injection H as <- <-. rewrite app_nil_r. exact Z.
    - destruct (step c t l) as [[c1 e1]|] eqn:E.
      + destruct (run c1 s) as [c2 e2] eqn:R. injection H as <- <-. rewrite app_assoc.
        eapply IH; [eapply step_good; eassumption|eapply zeros_step; eassumption|exact R].
      + eapply IH; eassumption.
  Qed.
  Lemma one_zero (mains : list user) s c tr h t1 z1 t2 z2 : run (start mains) s = (c, tr) ->
    spawned_future tr h t1 z1 -> spawned_future tr h t2 z2 -> t1 = t2 /\ z1 = z2.
  Proof.
    intros R S1 S2. split; [eapply one_owner; [exact R|right; eauto|right; eauto]|].
    assert (Z : Zeros c tr).
    { apply (zeros_run s _ [] _ _ (start_good mains)); [|exact R]. intros h0 t0 z0 (u & f & a & b & E). destruct a; discriminate. }
    destruct (Z _ _ _ S1) as (ch & C & E1). destruct (Z _ _ _ S2) as (ch' & C' & E2). congruence.
  Qed.

  (** *** Join and IsFinished *)
  Lemma joined_split tr h : joined tr h <> [] -> exists tr1 t f v tr2, tr = tr1 ++ EAnswer t f v :: tr2 /\ (f = Join h \/ f = IsFinished h /\ v = VBool true).
  Proof.
    induction tr as [|x tr IH]; intros N; [contradiction|].
    assert (R : joined tr h <> [] -> exists tr1 t f v tr2, x :: tr = tr1 ++ EAnswer t f v :: tr2 /\ (f = Join h \/ f = IsFinished h /\ v = VBool true)).
    { intros M. destruct (IH M) as (a & t & f & v & b & -> & F). exists (x :: a), t, f, v, b. split; [reflexivity|exact F]. }
    destruct x as [| t f v| | | | | | |]; try (apply R; exact N).
    destruct f as [| | | | |h0|h0| |]; try (apply R; exact N); cbn [joined] in N.
    - destruct (Nat.eqb_spec h0 h) as [->|]; [|apply R; exact N]. exists [], t, (Join h), v, tr. split; [reflexivity|left; reflexivity].
    - destruct v as [|[|]| | | | | | |]; try (apply R; exact N).
      destruct (Nat.eqb_spec h0 h) as [->|]; [|apply R; exact N]. exists [], t, (IsFinished h), (VBool true), tr. split; [reflexivity|right; auto].
  Qed.
  Theorem join_gone (mains : list user) s c tr h t' : run (start mains) s = (c, tr) -> spawned tr h t' -> gone tr t' -> joined tr h = [].
  Proof.
    intros R SP G. destruct (joined tr h) as [|x l] eqn:J; [reflexivity|]. exfalso.
    destruct (joined_split tr h) as (a & t & f & v & b & -> & F); [rewrite J; discriminate|].
    destruct (token_taken _ _ _ _ _ _ _ _ h R F) as (_ & t1 & w & S1 & F1).
    assert (t1 = t') by (eapply (one_owner _ _ _ _ h _ _ R); [left; apply spawned_app; exact S1|left; exact SP]). subst t1.
    eapply not_both; [exact R| |exact G]. apply finished_app. exact F1.
  Qed.

  (** *** Await *)
  Theorem await_gone (mains : list user) s c tr1 t h v tr2 t' z :
    run (start mains) s = (c, tr1 ++ EAnswer t (Await h) v :: tr2) ->
    spawned_future (tr1 ++ EAnswer t (Await h) v :: tr2) h t' z -> gone (tr1 ++ EAnswer t (Await h) v :: tr2) t' -> v = z /\ gone tr1 t'.
  Proof.
    intros R SP G. destruct (await_answer _ _ _ _ _ _ _ _ R) as (t1 & z1 & S1 & C).
    destruct (one_zero _ _ _ _ _ _ _ _ _ R (spawned_future_app _ _ _ _ _ S1) SP) as [-> ->].
    destruct C as [(w & F & _)|[G1 ->]]; [|auto]. exfalso. eapply not_both; [exact R| |exact G]. apply finished_app. exact F.
  Qed.
  Theorem await_gone_live (mains : list user) s c tr t h t' z l l1 l2 :
    run (start mains) s = (c, tr) -> dead c = false -> calling tr t = Some (Await h) ->
    spawned_future tr h t' z -> gone tr t' ->
    In (EAnswer t (Await h) z) (snd (run c [(t, l); (t', l1); (t', l2)])).
  Proof.
    intros R D C SP G. destruct (await_live c tr t h t' z l l1 l2 (reach_good _ _ _ _ R) D C SP (or_intror G)) as (c' & e & v & R2 & IN).
    assert (R3 : run (start mains) (s ++ [(t, l); (t', l1); (t', l2)]) = (c', tr ++ e)) by (rewrite run_app, R, R2; reflexivity).
    rewrite R2. cbn [snd]. assert (IN' := IN). apply in_split in IN'. destruct IN' as (a & b & ->). rewrite app_assoc in R3.
    destruct (await_gone _ _ _ _ _ _ _ _ t' z R3) as [-> _]; [| |exact IN].
    - rewrite <- app_assoc. apply spawned_future_app. exact SP.
    - rewrite <- app_assoc. apply gone_app. exact G.
  Qed.

  (** *** A panic ends the process *)
  Lemma run_two c t l l' c1 e1 : step c t l = Some (c1, e1) -> snd (run c [(t, l); (t, l')]) = e1 ++ snd (run c1 [(t, l')]) /\
    fst (run c [(t, l); (t, l')]) = fst (run c1 [(t, l')]).
  Proof. intros H. rewrite (run_cons _ _ _ _ _ _ H). split; reflexivity. Qed.
  Lemma run_crash c t l w : dead c = false -> nth_error (threads c) t = Some (mkG (Ending Crash) w) -> w = false ->
    step c t l = Some (fatal c t).
  Proof. intros D G ->. unfold step. rewrite D, G. reflexivity. Qed.
  Lemma run_dead c s : dead c = true -> run c s = (c, []).
  Proof. intros D. induction s as [|[t l] s IH]; [reflexivity|]. cbn [run]. unfold step. rewrite D. exact IH. Qed.
  Theorem panic_kills (mains : list user) s c tr t l l' : run (start mains) s = (c, tr) -> In (EPanic t) tr -> dead c = false ->
    exists c' e, run c [(t, l); (t, l')] = (c', e) /\ dead c' = true /\ In (EFatal t) e.
  Proof.
    intros R P D. apply (p_reach _ _ _ _ R) in P. assert (GO := reach_good _ _ _ _ R). destruct GO as [(kinds & owns & I & TR) M].
    unfold crashing in P. destruct (nth_error (threads c) t) as [[th w]|] eqn:G; [|discriminate].
    destruct (a_shape _ _ _ _ _ I _ _ G) as (kd & K & S).
    inversion S as [kd0 u|kd0 f p k w0 SB WT|v|h w0|h|kd0|h v w0|h p PP|h]; subst; try discriminate P.
    - assert (ST := run_crash c t l false D G eq_refl). unfold fatal in ST.
      rewrite (run_cons _ _ _ _ _ _ ST), run_dead by reflexivity. eexists _, _. split; [reflexivity|]. split; [reflexivity|left; reflexivity].
    - destruct PP as [-> | ->]; [discriminate P|].
      assert (ST := step_ending _ _ l _ D G).
      assert (O : nth_error owns h = Some (Post t)) by (apply (a_own _ _ _ _ _ I); exists (KFut h); split; [assumption|reflexivity]).
      destruct (chan_exists _ _ _ _ _ _ _ I O) as (ch & CH).
      assert (V : vw (threads c) t = Some AClose) by (unfold vw; rewrite G; reflexivity).
      assert (CF : closed ch = false).
      { assert (P1 := a_phase _ _ _ _ _ I _ _ CH). unfold phase in P1. rewrite O, V in P1.
        destruct (zero ch); [destruct P1 as (_ & P1 & _)|destruct P1 as (P1 & _)]; exact P1. }
      destruct (operate c t l (Close h Crash)) as [[c2 e2]|] eqn:OP.
      2: { cbn [operate] in OP. rewrite CH, CF in OP. discriminate. }
      destruct (close_result c c2 tr kinds owns t l h e2 Crash I G K OP) as (_ & ch2 & z2 & _ & _ & _ & _ & G2 & D2). rewrite D in D2.
      rewrite (run_cons _ _ _ _ _ _ ST). assert (ST2 := run_crash c2 t l' false D2 G2 eq_refl). unfold fatal in ST2.
      rewrite (run_cons _ _ _ _ _ _ ST2), run_dead by reflexivity. eexists _, _. split; [reflexivity|]. split; [reflexivity|].
      apply in_or_app. right. left. reflexivity.
  Qed.

  (** *** Behind the end of its function a goroutine makes no calls *)
  Lemma over_silent (mains : list user) s c tr s' c' e t f v : run (start mains) s = (c, tr) ->
    (exists w, finished tr t w) \/ gone tr t -> run c s' = (c', e) -> ~ In (EAnswer t f v) e.
  Proof.
    intros R FI R' IN. apply in_split in IN. destruct IN as (e1 & e2 & ->).
    destruct (run_split _ _ _ _ _ _ R') as (s1 & u & l & s2 & c3 & ea & c4 & b1 & b2 & _ & R1 & S1 & E).
    assert (R3 : run (start mains) (s ++ s1) = (c3, tr ++ ea)) by (rewrite run_app, R, R1; reflexivity).
    assert (GD := reach_good _ _ _ _ R3).
    assert (EN : SyncOnceProofs.ended c3 t = true).
    { assert (X := run_ends _ _ _ _ t R3).
      assert (N : 1 <= ends (tr ++ ea) t).
      { rewrite ends_app.
        assert (1 <= ends tr t); [|lia]. destruct FI as [(w & F)|[F|F]]; (eapply ends_in; [exact F|]); unfold ending; eauto. }
      destruct (SyncOnceProofs.ended c3 t); [reflexivity|]. destruct (SyncOnceProofs.ended (start mains) t); lia. }
    assert (MO : mode c3 t = Some f).
    { destruct (step_shows _ _ _ _ _ _ (good_inv _ _ GD) S1) as [EV _].
      assert (IN : In (EAnswer t f v) (b1 ++ EAnswer t f v :: b2)) by (apply in_elt). revert IN. generalize dependent (b1 ++ EAnswer t f v :: b2).
      intros e0 _ EV IN. destruct EV as [| | | | | | | | |t2 f2 h2 M2|t2 z2 f2 h2 M2|u0 f0 v0 AO MD|h2 z2 rs HR]; cbn [In] in IN;
        try (destruct IN as [B|[]]; discriminate B); try (destruct IN; fail).
      - destruct IN as [B|[B|[]]]; [discriminate|]. injection B as <- <- <-. exact M2.
      - destruct IN as [B|[B|[]]]; [discriminate|]. injection B as <- <- <-. exact M2.
      - destruct IN as [B|[]]. injection B as <- <- <-. exact MD.
      - apply in_map_iff in IN. destruct IN as (r & B & IN). injection B as <- <- <-. auto. }
    unfold SyncOnceProofs.ended in EN. unfold mode, mode_of in MO.
    destruct (nth_error (threads c3) t) as [[[| |] ?]|]; discriminate.
  Qed.
  Lemma held_silent e t l : (forall f v, ~ In (EAnswer t f v) e) -> fold_left (holds_after t) e l = l.
  Proof.
    revert l. induction e as [|x e IH]; intros l N; [reflexivity|]. cbn [fold_left].
    rewrite IH by (intros f v B; eapply N; right; exact B).
    destruct x as [|u f v| | | | | | |]; try reflexivity.
    assert (U : u <> t) by (intros ->; eapply N; left; reflexivity). apply Nat.eqb_neq in U.
    destruct f; try reflexivity; cbn [holds_after]; rewrite ?U; try reflexivity;
      repeat match goal with |- match ?x with _ => _ end = _ => destruct x; try reflexivity end.
  Qed.
  (** A goroutine that ends inside a mutex leaves it locked for ever. *)
  Theorem mutex_lost (mains : list user) s c tr s' c' e t m u : Forall disciplined mains -> run (start mains) s = (c, tr) ->
    (exists w, finished tr t w) \/ gone tr t -> inside tr t m -> run c s' = (c', e) ->
    (forall a, ~ In (EAnswer u (Lock m) (VPtr a)) e) /\ forall a, ~ In (EAnswer u (TryLock m) (VOk (VPtr a))) e.
  Proof.
    intros F R FI IN R'.
    assert (X : forall f a w, (f = Lock m /\ w = VPtr a) \/ (f = TryLock m /\ w = VOk (VPtr a)) -> ~ In (EAnswer u f w) e).
    { intros f a w FW B. assert (UT : u <> t) by (intros ->; eapply over_silent; eassumption).
      apply in_split in B. destruct B as (e1 & e2 & ->).
      destruct (run_split _ _ _ _ _ _ R') as (s1 & u1 & l & s2 & c3 & ea & c4 & b1 & b2 & _ & R1 & S1 & ->).
      assert (R4 : run c (s1 ++ [(u1, l)]) = (c4, ea ++ b1 ++ EAnswer u f w :: b2)).
      { rewrite run_app, R1. cbn [run]. rewrite S1, app_nil_r. reflexivity. }
      assert (R5 : run (start mains) (s ++ s1 ++ [(u1, l)]) = (c4, tr ++ ea ++ b1 ++ EAnswer u f w :: b2)) by (rewrite run_app, R, R4; reflexivity).
      assert (A1 : inside (tr ++ ea ++ b1 ++ EAnswer u f w :: b2) t m).
      { unfold inside in *. rewrite held_app, held_silent; [exact IN|]. intros f0 v0. exact (over_silent _ _ _ _ _ _ _ t f0 v0 R FI R4). }
      assert (GD : Good c3 (tr ++ ea)) by (eapply run_good; [eapply reach_good; exact R|exact R1]).
      destruct (step_shows _ _ _ _ _ _ (good_inv _ _ GD) S1) as [EV _].
      assert (EV' := single_answer _ _ _ _ _ _ _ EV).
      assert (b2 = []) by (destruct FW as [[-> ->]|[-> ->]]; apply EV'). subst b2.
      assert (A2 : inside (tr ++ ea ++ b1 ++ [EAnswer u f w]) u m).
      { unfold inside. rewrite !app_assoc, held_app. cbn [fold_left holds_after].
        destruct FW as [[-> ->]|[-> ->]]; rewrite Nat.eqb_refl; left; reflexivity. }
      apply UT. eapply exclusion; eassumption. }
    split; intros a; eapply (X _ a); [left|right]; auto.
  Qed.
End Exit.
