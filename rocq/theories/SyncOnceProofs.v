(** SyncOnceProofs.v -- a goroutine finishes once, a handle belongs to one goroutine. *)
From Coq Require Import Bool.
From Verif Require Import Base BaseLemmas SyncModel SyncSpec SyncProofs SyncJoinProofs.

Section Once.
  Context {T : Type}.
  Notation event := (event T).
  Notation trace := (list event).
  Notation user := (user T).
  Notation val := (val T).
  Notation config := (config T).
  Notation goroutine := (goroutine T).
  Notation prog := (prog T).
  Implicit Types (c : config) (tr e : trace).

  Definition ended c (u : nat) : bool :=
    match nth_error (threads c) u with Some (mkG (Ending _) _) => true | _ => false end.
  Fixpoint ends (tr : trace) (u : nat) : nat :=
    match tr with
    | [] => 0
    | EFinish t _ :: r | EExit t :: r | EPanic t :: r => if t =? u then Datatypes.S (ends r u) else ends r u
    | _ :: r => ends r u
    end.
  Lemma ends_app a b u : ends (a ++ b) u = ends a u + ends b u.
  Proof.
    induction a as [|x a IH]; [reflexivity|]. cbn [app ends]. destruct x; try exact IH; (destruct (t =? u); [rewrite IH; reflexivity|exact IH]).
  Qed.
  Definition same c (r : config * trace) : Prop := forall u, ended (fst r) u = ended c u /\ ends (snd r) u = 0.
  Lemma set_same c t g g0 : nth_error (threads c) t = Some g0 ->
    (match g with mkG (Ending _) _ => true | _ => false end) = (match g0 with mkG (Ending _) _ => true | _ => false end) ->
    forall u, ended (set_thread c t g) u = ended c u.
  Proof.
    intros G E u. unfold ended. cbn [set_thread threads]. rewrite (nth_set _ _ _ _ _ G). destruct (u =? t) eqn:U; [|reflexivity].
    apply Nat.eqb_eq in U. subst. rewrite G. destruct g as [[] ?], g0 as [[] ?]; try discriminate; reflexivity.
  Qed.
  Lemma continue_same c t p : same c (continue_ c t p).
  Proof.
    intros u. unfold continue_. destruct (nth_error (threads c) t) as [[[v r|f q k r|q] w]|] eqn:G; try (split; reflexivity).
    - destruct p; (split; [|reflexivity]); cbn [fst]; eapply set_same; try exact G; reflexivity.
    - split; [|reflexivity]. cbn [fst]. eapply set_same; [exact G|reflexivity].
  Qed.
  Lemma park_same c t u : ended (park c t) u = ended c u.
  Proof.
    unfold park. destruct (nth_error (threads c) t) as [[th w]|] eqn:G; [|reflexivity]. eapply set_same; [exact G|]. cbn [code]. destruct th; reflexivity.
  Qed.
  Lemma then_same c r k : same c r -> (forall c1, same c1 (k c1)) -> same c (then_ r k).
  Proof.
    intros H K u. unfold then_. destruct r as [c1 e1]. specialize (K c1 u). specialize (H u). destruct (k c1) as [c2 e2]. cbn [fst snd] in *.
    rewrite ends_app. destruct H as [H1 H2], K as [K1 K2]. rewrite K1, K2, H2. auto.
  Qed.
  Lemma receiver_same c t v : same c (wake_receiver c t v).
  Proof. unfold wake_receiver. destruct (gost_code c t) as [[]|]; try (intros u; split; reflexivity). apply continue_same. Qed.
  Lemma sender_same c t : same c (wake_sender c t).
  Proof. unfold wake_sender. destruct (gost_code c t) as [[]|]; try (intros u; split; reflexivity). apply continue_same. Qed.
  Lemma all_same ts v : forall c, same c (wake_all c ts v).
  Proof.
    induction ts as [|t ts IH]; intros c u; [split; reflexivity|]. cbn [wake_all]. assert (H := receiver_same c t v u).
    destruct (wake_receiver c t v) as [c1 e1]. specialize (IH c1 u). destruct (wake_all c1 ts v) as [c2 e2]. cbn [fst snd] in *.
    rewrite ends_app. destruct H as [H1 H2], IH as [K1 K2]. rewrite K1, K2, H2. auto.
  Qed.
  Lemma same_threads c c0 r : threads c0 = threads c -> same c0 r -> same c r.
  Proof. intros E H u. destruct (H u) as [A B]. split; [|exact B]. rewrite A. unfold ended. rewrite E. reflexivity. Qed.
  Lemma operate_same c t l p r : operate c t l p = Some r -> same c r.
  Proof.
    destruct p; cbn [operate]; intros H; try discriminate;
      repeat match type of H with
             | context [match ?x with _ => _ end] => destruct x; try discriminate
             end; injection H as <-;
      try (eapply same_threads; [|apply continue_same]; reflexivity);
      try (intros u; split; reflexivity);
      try (apply then_same; [|intros; apply continue_same]; eapply same_threads; [|first [apply receiver_same|apply sender_same|apply all_same]]; reflexivity);
      try (intros u; split; [|reflexivity]; cbn [fst]; rewrite park_same; reflexivity).
    intros u. set (c1 := mkConfig (threads c ++ _) _ _ _ _). assert (K := continue_same c1 t p u). destruct (continue_ c1 t p) as [c2 e2].
    cbn [fst snd ends] in *. destruct K as [K1 K2]. rewrite K1, K2. split; [|reflexivity]. unfold ended, c1. cbn [threads].
    destruct (Nat.lt_ge_cases u (length (threads c))) as [L|L]; [rewrite nth_error_app1 by exact L; reflexivity|].
    rewrite nth_error_app2 by exact L. assert (N := L). apply nth_error_None in N. rewrite N. destruct (u - length (threads c)) as [|n]; [reflexivity|].
    destruct n; reflexivity.
  Qed.
  Lemma step_ends c t l c' e : step c t l = Some (c', e) -> forall u, (if ended c' u then 1 else 0) = (if ended c u then 1 else 0) + ends e u.
  Proof.
    intros H u. unfold step in H. destruct (dead c); [discriminate|].
    destruct (nth_error (threads c) t) as [[th [|]]|] eqn:G; try discriminate.
    assert (OP : forall p, operate c t l p = Some (c', e) -> (if ended c' u then 1 else 0) = (if ended c u then 1 else 0) + ends e u).
    { intros p O. destruct (operate_same _ _ _ _ _ O u) as [A B]. cbn [fst snd] in A, B. rewrite A, B. lia. }
    assert (EN : forall p (x : event), c' = set_thread c t (mkG (Ending p) false) -> e = [x] -> ends [x] u = (if t =? u then 1 else 0) ->
      forall r rest, th = Running r rest -> (if ended c' u then 1 else 0) = (if ended c u then 1 else 0) + ends e u).
    { intros p x -> -> X r rest ->. rewrite X, (Nat.eqb_sym t u). unfold ended. cbn [set_thread threads]. rewrite (nth_set _ _ _ _ _ G).
      destruct (u =? t) eqn:U; [apply Nat.eqb_eq in U; subst; rewrite G; reflexivity|]. lia. }
    destruct th as [[v|f k|a k|a v k| |] rest|f p k rest|p]; [| | | | | |apply (OP _ H)|apply (OP _ H)].
    - injection H as <- <-. eapply EN; reflexivity.
    - destruct (typed c f); [|discriminate]. injection H as <- <-. rewrite (set_same _ _ _ _ G) by reflexivity. cbn [ends]. lia.
    - destruct (nth_error (cells c) a); [|discriminate]. injection H as <- <-. rewrite (set_same _ _ _ _ G) by reflexivity. cbn [ends]. lia.
    - destruct (nth_error (cells c) a); [|discriminate]. injection H as <- <-.
      assert (E : ended (set_thread (set_cell c a v) t (mkG (Running k rest) false)) u = ended (set_cell c a v) u) by (eapply set_same; [exact G|reflexivity]).
      rewrite E. cbn [ends]. unfold ended, set_cell. cbn [threads]. lia.
    - injection H as <- <-. eapply EN; reflexivity.
    - injection H as <- <-. eapply EN; reflexivity.
  Qed.
  Lemma run_ends s : forall c c' e u, run c s = (c', e) -> (if ended c' u then 1 else 0) = (if ended c u then 1 else 0) + ends e u.
  Proof.
    induction s as [|[t l] s IH]; intros c c' e u H; cbn [run] in H; [injection H as <- <-; cbn [ends]; lia|].
    destruct (step c t l) as [[c1 e1]|] eqn:ST; [|eauto]. destruct (run c1 s) as [c2 e2] eqn:R. injection H as <- <-.
    rewrite ends_app, Nat.add_assoc, <- (step_ends _ _ _ _ _ ST). eauto.
  Qed.
  Definition ending (t : nat) (x : event) : Prop := (exists v, x = EFinish t v) \/ x = EExit t \/ x = EPanic t.
  Lemma ends_in tr u x : In x tr -> ending u x -> 1 <= ends tr u.
  Proof.
    intros H E. apply in_split in H. destruct H as (a & b & ->). rewrite ends_app.
    destruct E as [(v & ->)|[-> | ->]]; cbn [ends]; rewrite Nat.eqb_refl; lia.
  Qed.
  Theorem ended_once (mains : list user) s c tr t x y : run (start mains) s = (c, tr) ->
    In x tr -> ending t x -> In y tr -> ending t y -> x = y.
  Proof.
    intros H F1 X F2 Y. assert (E := run_ends _ _ _ _ t H).
    assert (N : ends tr t <= 1) by (destruct (ended c t), (ended (start mains) t); lia). clear E H.
    apply in_split in F1. destruct F1 as (a & b & ->). rewrite ends_app in N.
    assert (M : ends (x :: b) t = S (ends b t)) by (destruct X as [(v & ->)|[-> | ->]]; cbn [ends]; rewrite Nat.eqb_refl; reflexivity).
    apply in_app_or in F2. destruct F2 as [F2|[F2|F2]]; [apply (ends_in _ t) in F2; [lia|exact Y]|exact F2|apply (ends_in _ t) in F2; [lia|exact Y]].
  Qed.
  Theorem finished_once (mains : list user) s c tr t v w : run (start mains) s = (c, tr) -> finished tr t v -> finished tr t w -> v = w.
  Proof.
    intros H F1 F2. assert (E : EFinish t v = EFinish t w); [|congruence].
    apply (ended_once _ _ _ _ t _ _ H F1); [left; eauto|exact F2|left; eauto].
  Qed.
  Theorem one_owner (mains : list user) s c tr h t1 t2 : run (start mains) s = (c, tr) ->
    (spawned tr h t1 \/ exists z, spawned_future tr h t1 z) -> (spawned tr h t2 \/ exists z, spawned_future tr h t2 z) -> t1 = t2.
  Proof.
    intros H S1 S2. destruct (reach_good _ _ _ _ H) as [(kinds & owns & _ & TR) _]. destruct TR as [TR1 TR2].
    assert (X : forall t, (spawned tr h t \/ exists z, spawned_future tr h t z) -> nth_error owns h = Some (Post t)) by (intros t [A|(z & A)]; eauto).
    apply X in S1. apply X in S2. congruence.
  Qed.
End Once.
