(** SyncProps.v -- mutexes, threads and futures (C60 to C64, C106).

    Every theorem ranges over all programs (arbitrary goroutines, which may run for
    ever and start others), all schedules and all moments of a run. *)
From Coq Require Import ZArith.
From Verif Require Import Base BaseLemmas SyncModel SyncSpec SyncProofs SyncJoinProofs SyncLockProofs SyncCountProofs SyncOnceProofs SyncWorkProofs SyncExitProofs.

(** *** C60: mutual exclusion *)

(** At most one goroutine is between Lock (or a successful TryLock) and Unlock. *)
Theorem C60_exclusion : forall T (mains : list (user T)) s c tr t1 t2 m,
  Forall disciplined mains -> run (start mains) s = (c, tr) ->
  inside tr t1 m -> inside tr t2 m -> t1 = t2.
Proof. intros T mains s c tr t1 t2 m. apply exclusion. Qed.
Print Assumptions C60_exclusion.

(** Without any assumption on the program: the mutex is not handed out again before
    somebody has called Unlock. *)
Theorem C60_alternation : forall T (mains : list (user T)) s c tr m,
  run (start mains) s = (c, tr) -> granted tr m <= returned tr m + 1.
Proof. intros T mains s c tr m. apply alternate. Qed.
Print Assumptions C60_alternation.

(** Every read and write of a mutex's value is done by the goroutine that is inside,
    and a read sees the last write (or the value given to MutexNew): nothing is lost. *)
Theorem C60_accesses : forall T (mains : list (user T)) s c tr1 x tr2 t a,
  Forall disciplined mains -> run (start mains) s = (c, tr1 ++ x :: tr2) ->
  (exists v, x = ELoad t a v) \/ (exists v, x = EStore t a v) ->
  exists m, In (m, a) (held tr1 t) /\ (forall v, x = ELoad t a v -> current tr1 m a = Some v).
Proof. intros T mains s c tr1 x tr2 t a. apply access. Qed.
Print Assumptions C60_accesses.

(** Lock gives everybody the same pointer for the same mutex; no two mutexes share one. *)
Theorem C60_pointers : forall T (mains : list (user T)) s c tr t1 t2 m1 m2 a1 a2,
  Forall disciplined mains -> run (start mains) s = (c, tr) ->
  In (m1, a1) (held tr t1) -> In (m2, a2) (held tr t2) ->
  (m1 = m2 <-> a1 = a2).
Proof.
  intros T mains s c tr t1 t2 m1 m2 a1 a2 F R H1 H2. split; intros <-.
  - eapply pointer_same; eassumption.
  - exact (proj1 (pointer_private mains s c tr t1 t2 m1 m2 a1 F R H1 H2)).
Qed.
Print Assumptions C60_pointers.

(** A program that keeps the rule is never stopped by a fatal error, as long as no
    goroutine of its own panics; only the goroutine that panicked is ever fatal. *)
Theorem C60_no_fatal : forall T (mains : list (user T)) s c tr,
  Forall disciplined mains -> run (start mains) s = (c, tr) -> (forall t, ~ In (EPanic t) tr) ->
  dead c = false /\ forall t, ~ In (EFatal t) tr.
Proof.
  intros T mains s c tr F R N. destruct (alive _ _ _ _ F R) as [A B]. split.
  - destruct (dead c); [|reflexivity]. destruct (A eq_refl) as (t & P & _). destruct (N t P).
  - intros t I. apply in_split in I. destruct I as (a & b & ->). apply (N t). apply in_or_app. left. eapply B. reflexivity.
Qed.
Print Assumptions C60_no_fatal.
Theorem C60_only_panics_are_fatal : forall T (mains : list (user T)) s c tr,
  Forall disciplined mains -> run (start mains) s = (c, tr) ->
  (dead c = true -> exists t, In (EPanic t) tr /\ In (EFatal t) tr) /\
  forall tr1 t tr2, tr = tr1 ++ EFatal t :: tr2 -> In (EPanic t) tr1.
Proof. intros T mains s c tr. apply alive. Qed.
Print Assumptions C60_only_panics_are_fatal.

(** Any number of workers, any jobs, any schedule: the value is what some order of the
    jobs done so far gives, each worker's jobs in its own order; when all workers have
    finished, every job is in it exactly once. *)
Theorem C60_no_lost_update : forall T v0 (jobs : list (list (job (T:=T)))) s c tr v,
  run (start (team v0 jobs)) s = (c, tr) -> finished tr 0 v ->
  exists log rest, interleaving jobs (log ++ rest) /\ current tr 0 0 = Some (apply_all v0 (map snd log)) /\
    ((forall i, i < length jobs -> exists w, finished tr (S i) w) -> rest = []) /\
    (forall t a, In (EAnswer t (Lock 0) (VPtr a)) tr \/ In (EAnswer t (TryLock 0) (VOk (VPtr a))) tr -> a = 0).
Proof.
  intros T v0 jobs s c tr v H F. destruct (team_log v0 jobs s c tr v H F) as (log & rest & A & B & C & D).
  exists log, rest. repeat (split; [assumption|]). split; [|auto]. rewrite B. f_equal. unfold value_of, apply_all. clear.
  revert v0. induction log as [|j log IH]; intros v0; [reflexivity|]. apply IH.
Qed.
Print Assumptions C60_no_lost_update.

(** ... and from every state some schedule lets all of them finish: no deadlock. *)
Theorem C60_no_deadlock : forall T v0 (jobs : list (list (job (T:=T)))) s c tr,
  run (start (team v0 jobs)) s = (c, tr) ->
  exists s', forall i, i <= length jobs -> exists v, finished (tr ++ snd (run c s')) i v.
Proof. intros T v0 jobs s c tr. apply team_progress. Qed.
Print Assumptions C60_no_deadlock.

(** Lock waits while somebody is inside and gets the mutex when it is free. *)
Theorem C60_lock_waits : forall T (mains : list (user T)) s c tr t m l,
  run (start mains) s = (c, tr) -> calling tr t = Some (Lock m) -> granted tr m = returned tr m + 1 -> step c t l = None.
Proof. intros T mains s c tr t m l. apply lock_held. Qed.
Print Assumptions C60_lock_waits.
Theorem C60_lock_gets : forall T (mains : list (user T)) s c tr t m l,
  run (start mains) s = (c, tr) -> dead c = false -> calling tr t = Some (Lock m) ->
  granted tr m <= returned tr m -> (forall u, u <> t -> ~ locking tr u m) ->
  exists a, In (EAnswer t (Lock m) (VPtr a)) (snd (run c [(t, true); (t, l)])).
Proof. intros T mains s c tr t m l R D C G N. apply (free_answers mains s c tr t m (Lock m) l); auto. Qed.
Print Assumptions C60_lock_gets.

(** The hypotheses hold: teams keep the rule, and a run of two workers (one with Lock,
    one with TryLock; one adds, one doubles) really interleaves and ends. *)
Example C60_nonvacuous_rule : forall T v0 (jobs : list (list (job (T:=T)))), Forall disciplined (team v0 jobs).
Proof. intros T v0 jobs. apply team_disciplined. Qed.
Definition add (n : Z) (v : val Z) : val Z := match v with VData x => VData (x + n)%Z | _ => v end.
Definition double (v : val Z) : val Z := match v with VData x => VData (2 * x)%Z | _ => v end.
Definition two_workers : list (user Z) := team (VData 1%Z) [[(false, add 10); (false, add 100)]; [(true, double)]].
(** Goroutine 2 tries while 1 is inside, fails, and gets in between the two jobs of 1. *)
Definition rounds : schedule :=
  [(0, true); (0, true); (0, true); (0, true); (1, true); (1, true); (2, true); (1, true); (2, true); (1, true);
   (1, true); (2, true); (1, true); (1, true); (2, true); (1, true); (2, true); (1, true); (2, true); (1, true);
   (2, true); (2, true); (2, true); (1, true); (1, true); (1, true); (1, true); (1, true); (1, true); (2, true); (1, true)].
Example C60_nonvacuous :
  let (c, tr) := run (start two_workers) rounds in
  last_store tr 0 = Some (VData 122%Z) /\ finished tr 0 VUnit /\ finished tr 1 VUnit /\ finished tr 2 VUnit /\
  In (EAnswer 2 (TryLock 0) VErr) tr /\ In (EAnswer 2 (TryLock 0) (VOk (VPtr 0))) tr /\
  granted tr 0 = 3 /\ returned tr 0 = 3.
Proof. vm_compute. repeat split; repeat (first [left; reflexivity | right]). Qed.

(** *** C61: TryLock *)

(** The claim as given is false: a mutex that nobody holds or is locking can be
    reported as held.  (The Go memory model allows it: "TryLock may be seen as able to
    return false even when the mutex is unlocked".) *)
Theorem C61_exactly_when_held_refuted : exists (mains : list (user nat)) s c tr1 t m tr2,
  run (start mains) s = (c, tr1 ++ EAnswer t (TryLock m) VErr :: tr2) /\
  granted tr1 m = returned tr1 m /\ forall u, u <> t -> ~ locking tr1 u m.
Proof.
  exists [UCall (MutexNew (VData 0)) (fun _ => UCall (TryLock 0) (fun _ => UReturn VUnit))],
    [(0, true); (0, true); (0, true); (0, true); (0, false)].
  eexists. exists [ECall 0 (MutexNew (VData 0)); EAnswer 0 (MutexNew (VData 0)) (VMutex 0); ECall 0 (TryLock 0)], 0, 0, [].
  split; [vm_compute; reflexivity|]. split; [reflexivity|]. intros u N [H|H]; destruct u; try contradiction; discriminate.
Qed.
Print Assumptions C61_exactly_when_held_refuted.

(** As long as the runtime does not make use of that freedom: Err only when somebody
    is inside or on the way in. *)
Theorem C61_err_partial : forall T (mains : list (user T)) s c tr1 t m tr2,
  run (start mains) s = (c, tr1 ++ EAnswer t (TryLock m) VErr :: tr2) -> (forall u l, In (u, l) s -> l = true) ->
  granted tr1 m = returned tr1 m + 1 \/ exists u, u <> t /\ locking tr1 u m.
Proof. intros T mains s c tr1 t m tr2. apply trylock_exact. Qed.
Print Assumptions C61_err_partial.
Theorem C61_free_partial : forall T (mains : list (user T)) s c tr t m l,
  run (start mains) s = (c, tr) -> dead c = false -> calling tr t = Some (TryLock m) ->
  granted tr m <= returned tr m -> (forall u, u <> t -> ~ locking tr u m) ->
  exists a, In (EAnswer t (TryLock m) (VOk (VPtr a))) (snd (run c [(t, true); (t, l)])).
Proof. intros T mains s c tr t m l R D C G N. apply (free_answers mains s c tr t m (TryLock m) l); auto. Qed.
Print Assumptions C61_free_partial.
(** While somebody is inside, the answer is Err, whatever the runtime does. *)
Theorem C61_held : forall T (mains : list (user T)) s c tr t m l,
  run (start mains) s = (c, tr) -> dead c = false -> calling tr t = Some (TryLock m) -> granted tr m = returned tr m + 1 ->
  exists c', step c t l = Some (c', [EAnswer t (TryLock m) VErr]).
Proof. intros T mains s c tr t m l. apply trylock_held. Qed.
Print Assumptions C61_held.
(** TryLock never waits for another goroutine. *)
Theorem C61_never_blocks : forall T (mains : list (user T)) s c tr t m l1 l2,
  run (start mains) s = (c, tr) -> dead c = false -> calling tr t = Some (TryLock m) ->
  exists v, In (EAnswer t (TryLock m) v) (snd (run c [(t, l1); (t, l2)])).
Proof. intros T mains s c tr t m l1 l2. apply trylock_answers. Qed.
Print Assumptions C61_never_blocks.
(** Unlock of a mutex that is not handed out ends the process ... *)
Theorem C61_unlock_fatal : forall T (mains : list (user T)) s c tr t m l,
  run (start mains) s = (c, tr) -> dead c = false -> calling tr t = Some (Unlock m) ->
  granted tr m <= returned tr m -> (forall u, ~ locking tr u m) ->
  exists c', step c t l = Some (c', [EFatal t]) /\ dead c' = true.
Proof. intros T mains s c tr t m l. apply unlock_fatal. Qed.
Print Assumptions C61_unlock_fatal.
(** ... and nothing else in sync.go, thread.go and gokio.go does: the rest is panics of
    the functions that run on the goroutines. *)
Theorem C61_only_unlock_is_fatal : forall T (mains : list (user T)) s c tr1 t tr2,
  run (start mains) s = (c, tr1 ++ EFatal t :: tr2) ->
  In (EPanic t) tr1 \/ exists m, calling tr1 t = Some (Unlock m) /\ granted tr1 m <= returned tr1 m.
Proof. intros T mains s c tr1 t tr2. apply fatal_only. Qed.
Print Assumptions C61_only_unlock_is_fatal.
Example C61_nonvacuous :
  let mains := [UCall (MutexNew (VData 0)) (fun _ => UCall (Unlock 0) (fun _ => UReturn VUnit))] : list (user nat) in
  let (c, tr) := run (start mains) [(0, true); (0, true); (0, true); (0, true)] in
  dead c = false /\ calling tr 0 = Some (Unlock 0) /\ granted tr 0 = 0 /\ returned tr 0 = 0 /\
  snd (run c [(0, true); (0, true)]) = [EFatal 0].
Proof. vm_compute. repeat split. Qed.
Example C61_nonvacuous_held :
  let mains := [UCall (MutexNew (VData 0)) (fun _ => UCall (Lock 0) (fun _ => UCall (TryLock 0) (fun _ => UReturn VUnit)))] : list (user nat) in
  let (c, tr) := run (start mains) (repeat (0, true) 7) in
  dead c = false /\ calling tr 0 = Some (TryLock 0) /\ granted tr 0 = 1 /\ returned tr 0 = 0.
Proof. vm_compute. repeat split. Qed.

(** *** C62: Join *)

(** Join returns only after the function behind the handle has finished. *)
Theorem C62_join_waits : forall T (mains : list (user T)) s c tr1 t h v tr2,
  run (start mains) s = (c, tr1 ++ EAnswer t (Join h) v :: tr2) ->
  exists t' w, spawned tr1 h t' /\ finished tr1 t' w.
Proof. intros T mains s c tr1 t h v tr2 R. apply (token_taken _ _ _ _ _ _ _ _ h R). left. reflexivity. Qed.
Print Assumptions C62_join_waits.
(** Handles are not mixed up: one handle, one goroutine; it finishes at most once. *)
Theorem C62_one_goroutine : forall T (mains : list (user T)) s c tr h t1 t2,
  run (start mains) s = (c, tr) ->
  (spawned tr h t1 \/ exists z, spawned_future tr h t1 z) -> (spawned tr h t2 \/ exists z, spawned_future tr h t2 z) -> t1 = t2.
Proof. intros T mains s c tr h t1 t2. apply one_owner. Qed.
Print Assumptions C62_one_goroutine.
Theorem C62_finishes_once : forall T (mains : list (user T)) s c tr t v w,
  run (start mains) s = (c, tr) -> finished tr t v -> finished tr t w -> v = w.
Proof. intros T mains s c tr t v w. apply finished_once. Qed.
Print Assumptions C62_finishes_once.
(** When the function has finished and the handle is not used up, one step of the
    waiter and one of the goroutine let a waiting Join return. *)
Theorem C62_join_returns : forall T (mains : list (user T)) s c tr t h t' w l l',
  run (start mains) s = (c, tr) -> dead c = false -> calling tr t = Some (Join h) ->
  spawned tr h t' -> finished tr t' w -> joined tr h = [] ->
  exists c' e r, run c [(t, l); (t', l')] = (c', e) /\ calling tr r = Some (Join h) /\ In (EAnswer r (Join h) (VOk VUnit)) e.
Proof. intros T mains s c tr t h t' w l l' R. apply join_live. eapply reach_good. exact R. Qed.
Print Assumptions C62_join_returns.
Definition main_join : user nat :=
  UCall (Spawn (UReturn VUnit)) (fun h => match h with VHandle h => UCall (Join h) (fun _ => UReturn VUnit) | _ => UReturn VErr end).
Example C62_nonvacuous :
  let (c, tr) := run (start [main_join]) [(0, true); (0, true); (0, true); (0, true); (1, true)] in
  dead c = false /\ calling tr 0 = Some (Join 0) /\ finished tr 1 VUnit /\ joined tr 0 = [] /\
  snd (run c [(0, true); (1, true)]) = [EAnswer 0 (Join 0) (VOk VUnit)].
Proof. vm_compute. repeat split. repeat (first [left; reflexivity | right]). Qed.
Example C62_nonvacuous_spawned :
  spawned (snd (run (start [main_join]) [(0, true); (0, true); (0, true); (0, true); (1, true)])) 0 1.
Proof. exists 0, (UReturn VUnit), [ECall 0 (Spawn (UReturn VUnit))], [ECall 0 (Join 0); EFinish 1 VUnit]. vm_compute. reflexivity. Qed.

(** *** C63: IsFinished *)

(** The claim is false: the first IsFinished that answers true eats the only message;
    the next one answers false. *)
Definition poll_twice : user nat :=
  UCall (Spawn (UReturn VUnit)) (fun h => match h with
    | VHandle h => UCall (IsFinished h) (fun _ => UCall (IsFinished h) (fun _ => UCall (Join h) (fun _ => UReturn VUnit)))
    | _ => UReturn VErr end).
Theorem C63_stable_refuted : exists (mains : list (user nat)) s c tr1 t h tr2 tr3,
  run (start mains) s = (c, tr1 ++ EAnswer t (IsFinished h) (VBool true) :: tr2 ++ EAnswer t (IsFinished h) (VBool false) :: tr3).
Proof.
  exists [poll_twice], [(0, true); (0, true); (0, true); (1, true); (1, true); (0, true); (0, true); (0, true); (0, true)].
  eexists. exists [ECall 0 (Spawn (UReturn VUnit)); EStart 0 1; EAnswer 0 (Spawn (UReturn VUnit)) (VHandle 0); EFinish 1 VUnit; ECall 0 (IsFinished 0)], 0, 0,
    [ECall 0 (IsFinished 0)], [].
  vm_compute. reflexivity.
Qed.
Print Assumptions C63_stable_refuted.
(** For all programs and schedules: all the Joins and IsFinished calls on a handle
    together succeed at most once.  So after IsFinished has answered true no Join on
    that handle ever returns and every IsFinished answers false. *)
Theorem C63_characterised : forall T (mains : list (user T)) s c tr1 t h f v tr2,
  run (start mains) s = (c, tr1 ++ EAnswer t f v :: tr2) -> f = Join h \/ f = IsFinished h /\ v = VBool true ->
  joined tr1 h = [].
Proof. intros T mains s c tr1 t h f v tr2 R F. apply (token_taken _ _ _ _ _ _ _ _ h R F). Qed.
Print Assumptions C63_characterised.
Theorem C63_join_lost_after_poll : forall T (mains : list (user T)) s c tr1 t h tr2,
  run (start mains) s = (c, tr1 ++ EAnswer t (IsFinished h) (VBool true) :: tr2) ->
  forall u v, ~ In (EAnswer u (Join h) v) tr2 /\ ~ In (EAnswer u (IsFinished h) (VBool true)) tr2.
Proof.
  intros T mains s c tr1 t h tr2 R u v.
  assert (X : forall f w, In (EAnswer u f w) tr2 -> f = Join h \/ f = IsFinished h /\ w = VBool true -> False).
  { intros f w I F. apply in_split in I. destruct I as (a & b & ->). rewrite app_comm_cons, app_assoc in R.
    assert (J := C63_characterised _ _ _ _ _ _ _ _ _ _ R F). rewrite joined_app in J. apply app_eq_nil in J. destruct J as [_ J].
    cbn [joined] in J. rewrite Nat.eqb_refl in J. discriminate. }
  split; intros I; (eapply X; [exact I|]); [left|right]; auto.
Qed.
Print Assumptions C63_join_lost_after_poll.
(** What holds: true only after the function has finished, ... *)
Theorem C63_true_means_finished_partial : forall T (mains : list (user T)) s c tr1 t h tr2,
  run (start mains) s = (c, tr1 ++ EAnswer t (IsFinished h) (VBool true) :: tr2) ->
  exists t' w, spawned tr1 h t' /\ finished tr1 t' w.
Proof. intros T mains s c tr1 t h tr2 R. apply (token_taken _ _ _ _ _ _ _ _ h R). right. auto. Qed.
Print Assumptions C63_true_means_finished_partial.
(** ... IsFinished never waits, ... *)
Theorem C63_never_blocks : forall T (mains : list (user T)) s c tr t h l,
  run (start mains) s = (c, tr) -> dead c = false -> calling tr t = Some (IsFinished h) ->
  exists c' b, step c t l = Some (c', [EAnswer t (IsFinished h) (VBool b)]).
Proof.
  intros T mains s c tr t h l R D C. destruct (poll_answers c tr t h l (reach_good _ _ _ _ R) D C) as (c' & ch & _ & S).
  eexists c', _. exact S.
Qed.
Print Assumptions C63_never_blocks.
(** ... and once the function has finished, the handle is unused and nobody is in Join,
    one more step of the goroutine (which offers its message) makes the answer true. *)
Theorem C63_turns_true_partial : forall T (mains : list (user T)) s c tr t h t' w l l',
  run (start mains) s = (c, tr) -> dead c = false -> calling tr t = Some (IsFinished h) ->
  spawned tr h t' -> finished tr t' w -> joined tr h = [] -> (forall u, calling tr u <> Some (Join h)) ->
  exists c' e, run c [(t', l'); (t, l)] = (c', e) /\ In (EAnswer t (IsFinished h) (VBool true)) e.
Proof. intros T mains s c tr t h t' w l l' R. apply poll_live. eapply reach_good. exact R. Qed.
Print Assumptions C63_turns_true_partial.
(** Between the end of the function and that step the answer is still false. *)
Example C63_window :
  let (c, tr) := run (start [poll_twice]) [(0, true); (0, true); (0, true); (1, true); (0, true)] in
  finished tr 1 VUnit /\ calling tr 0 = Some (IsFinished 0) /\ joined tr 0 = [] /\ dead c = false /\
  snd (run c [(0, true)]) = [EAnswer 0 (IsFinished 0) (VBool false)] /\
  snd (run c [(1, true); (0, true)]) = [EAnswer 0 (IsFinished 0) (VBool true)].
Proof. vm_compute. repeat split. repeat (first [left; reflexivity | right]). Qed.

(** *** C64: futures *)

(** The claim is false: the second Await gets the zero value of a closed channel. *)
Definition await_twice : user nat :=
  UCall (Gokio_Spawn (VData 0) (UReturn (VData 7))) (fun h => match h with
    | VFuture h => UCall (Await h) (fun _ => UCall (Await h) (fun v => UReturn v))
    | _ => UReturn VErr end).
Theorem C64_every_await_refuted : exists (mains : list (user nat)) s c tr h t t' w z tr1 tr2,
  run (start mains) s = (c, tr) /\ spawned_future tr h t' z /\ finished tr t' w /\
  tr = tr1 ++ EAnswer t (Await h) z :: tr2 /\ z <> w.
Proof.
  exists [await_twice], [(0, true); (0, true); (0, true); (1, true); (1, true); (0, true); (0, true); (1, true); (0, true); (0, true)].
  eexists. exists ([ECall 0 (Gokio_Spawn (VData 0) (UReturn (VData 7))); EStart 0 1; EAnswer 0 (Gokio_Spawn (VData 0) (UReturn (VData 7))) (VFuture 0);
     EFinish 1 (VData 7); ECall 0 (Await 0); EAnswer 0 (Await 0) (VData 7); ECall 0 (Await 0)] ++ [EAnswer 0 (Await 0) (VData 0)]), 0, 0, 1, (VData 7), (VData 0).
  eexists. exists [].
  split; [vm_compute; reflexivity|]. split; [eexists 0, _, [_], _; reflexivity|]. split; [cbn; auto|]. split; [reflexivity|discriminate].
Qed.
Print Assumptions C64_every_await_refuted.
(** For all programs and schedules: the first Await on a future returns what the
    function computed, after it has been computed; every other one returns the zero
    value of its type.  If the function has ended without returning, all do. *)
Theorem C64_characterised : forall T (mains : list (user T)) s c tr1 t h v tr2,
  run (start mains) s = (c, tr1 ++ EAnswer t (Await h) v :: tr2) ->
  exists t' z, spawned_future tr1 h t' z /\
    ((exists w, finished tr1 t' w /\ (awaited tr1 h = [] -> v = w) /\ (awaited tr1 h <> [] -> v = z)) \/
     gone tr1 t' /\ v = z).
Proof. intros T mains s c tr1 t h v tr2. apply await_answer. Qed.
Print Assumptions C64_characterised.
Theorem C64_first_await_partial : forall T (mains : list (user T)) s c tr1 t h v tr2 t' z w,
  run (start mains) s = (c, tr1 ++ EAnswer t (Await h) v :: tr2) -> awaited tr1 h = [] ->
  spawned_future tr1 h t' z -> finished (tr1 ++ EAnswer t (Await h) v :: tr2) t' w -> v = w /\ finished tr1 t' w.
Proof.
  intros T mains s c tr1 t h v tr2 t' z w R A SP F. destruct (await_answer _ _ _ _ _ _ _ _ R) as (t1 & z1 & S1 & CS).
  assert (X : forall tr2' t0 z0, spawned_future tr1 h t0 z0 -> spawned_future (tr1 ++ tr2') h t0 z0).
  { intros tr2' t0 z0 (u & f & a & b & ->). exists u, f, a, (b ++ tr2'). rewrite <- app_assoc. reflexivity. }
  assert (t1 = t') by (eapply (one_owner _ _ _ _ h _ _ R); right; eexists; apply X; eassumption). subst t1.
  destruct CS as [(w1 & F1 & V & _)|[GN _]].
  2: { exfalso. eapply not_both; [exact R|exact F|apply gone_app; exact GN]. }
  assert (w1 = w). { eapply (finished_once _ _ _ _ t' _ _ R); [|exact F]. apply in_or_app. left. exact F1. }
  subst w1. auto.
Qed.
Print Assumptions C64_first_await_partial.
(** No Await waits for ever on a finished function, however many wait. *)
Theorem C64_await_returns : forall T (mains : list (user T)) s c tr t h t' z w l l1 l2,
  run (start mains) s = (c, tr) -> dead c = false -> calling tr t = Some (Await h) ->
  spawned_future tr h t' z -> finished tr t' w ->
  exists c' e v, run c [(t, l); (t', l1); (t', l2)] = (c', e) /\ In (EAnswer t (Await h) v) e.
Proof. 
  intros T mains s c tr t h t' z w l l1 l2 R D C SP F. apply (await_live _ _ _ _ _ _ _ _ _ (reach_good _ _ _ _ R) D C SP). left. eauto.
Qed.
Print Assumptions C64_await_returns.
Example C64_nonvacuous :
  let (c, tr) := run (start [await_twice]) [(0, true); (0, true); (0, true); (1, true); (0, true)] in
  finished tr 1 (VData 7) /\ calling tr 0 = Some (Await 0) /\ awaited tr 0 = [] /\ dead c = false /\
  snd (run c [(0, true); (1, true); (1, true)]) = [EAnswer 0 (Await 0) (VData 7)].
Proof. vm_compute. repeat split. repeat (first [left; reflexivity | right]). Qed.

(** *** C106: functions that end without returning *)

(** For all programs and schedules: a goroutine's function ends once, in one of three
    ways: it returns, it calls Goexit, it panics. *)
Theorem C106_one_end : forall T (mains : list (user T)) s c tr t x y,
  run (start mains) s = (c, tr) -> In x tr -> In y tr ->
  (exists v, x = EFinish t v) \/ x = EExit t \/ x = EPanic t -> (exists v, y = EFinish t v) \/ y = EExit t \/ y = EPanic t -> x = y.
Proof. intros T mains s c tr t x y R X Y EX EY. apply (ended_once _ _ _ _ t _ _ R X EX Y EY). Qed.
Print Assumptions C106_one_end.
(** If it did not return, no Join on its handle ever returns (nor has one returned) ... *)
Theorem C106_join_never : forall T (mains : list (user T)) s c tr h t' s' c' e,
  run (start mains) s = (c, tr) -> spawned tr h t' -> gone tr t' -> run c s' = (c', e) ->
  forall u v, ~ In (EAnswer u (Join h) v) (tr ++ e).
Proof.
  intros T mains s c tr h t' s' c' e R SP G R' u v IN.
  assert (R2 : run (start mains) (s ++ s') = (c', tr ++ e)) by (rewrite run_app, R, R'; reflexivity).
  assert (J := join_gone _ _ _ _ h t' R2 (spawned_app _ _ _ _ SP) (gone_app _ _ _ G)).
  apply in_split in IN. destruct IN as (a & b & E). rewrite E, joined_app in J. apply app_eq_nil in J. destruct J as [_ J].
  cbn [joined] in J. rewrite Nat.eqb_refl in J. discriminate.
Qed.
Print Assumptions C106_join_never.
(** ... and every IsFinished answers, at once, false. *)
Theorem C106_isfinished_false : forall T (mains : list (user T)) s c tr t h t' l,
  run (start mains) s = (c, tr) -> dead c = false -> calling tr t = Some (IsFinished h) -> spawned tr h t' -> gone tr t' ->
  exists c', step c t l = Some (c', [EAnswer t (IsFinished h) (VBool false)]).
Proof.
  intros T mains s c tr t h t' l R D C SP G. destruct (C63_never_blocks _ _ _ _ _ _ _ l R D C) as (c' & b & S). exists c'. rewrite S.
  destruct b; [|reflexivity]. exfalso.
  assert (R2 : run (start mains) (s ++ [(t, l)]) = (c', tr ++ [EAnswer t (IsFinished h) (VBool true)])) by (rewrite run_app, R; cbn [run]; rewrite S; reflexivity).
  assert (J := join_gone _ _ _ _ h t' R2 (spawned_app _ _ _ _ SP) (gone_app _ _ _ G)).
  rewrite joined_app in J. apply app_eq_nil in J. destruct J as [_ J]. cbn [joined] in J. rewrite Nat.eqb_refl in J. discriminate.
Qed.
Print Assumptions C106_isfinished_false.
(** The claim is false: after runtime.Goexit the goroutine is gone and the process goes
    on, but a waiting Join never returns. *)
Definition join_exit : user nat :=
  UCall (Spawn UGoexit) (fun h => match h with VHandle h => UCall (Join h) (fun _ => UReturn VUnit) | _ => UReturn VErr end).
Theorem C106_told_refuted : exists (mains : list (user nat)) s c tr t h t',
  run (start mains) s = (c, tr) /\ dead c = false /\ spawned tr h t' /\ gone tr t' /\ calling tr t = Some (Join h) /\
  forall s' v, ~ In (EAnswer t (Join h) v) (snd (run c s')).
Proof.
  destruct (run (start [join_exit]) [(0, true); (0, true); (0, true); (0, true); (1, true)]) as [c tr] eqn:R.
  assert (R' := R). vm_compute in R'. injection R' as C E.
  assert (SP : spawned tr 0 1) by (exists 0, UGoexit, [ECall 0 (Spawn UGoexit)], [ECall 0 (Join 0); EExit 1]; rewrite <- E; reflexivity).
  assert (G : gone tr 1) by (left; rewrite <- E; cbn; auto 10).
  exists [join_exit], [(0, true); (0, true); (0, true); (0, true); (1, true)], c, tr, 0, 0, 1.
  split; [exact R|]. split; [rewrite <- C; reflexivity|]. split; [exact SP|]. split; [exact G|]. split; [rewrite <- E; reflexivity|].
  intros s' v IN. destruct (run c s') as [c' e] eqn:R2.
  apply (C106_join_never _ _ _ _ _ _ _ _ _ _ R SP G R2 0 v). apply in_or_app. right. exact IN.
Qed.
Print Assumptions C106_told_refuted.
(** Await on such a future makes up a value, the zero value of its type: always, and
    within three steps. *)
Theorem C106_await_zero : forall T (mains : list (user T)) s c tr1 t h v tr2 t' z,
  let tr := tr1 ++ EAnswer t (Await h) v :: tr2 in
  run (start mains) s = (c, tr) -> spawned_future tr h t' z -> gone tr t' -> v = z /\ gone tr1 t'.
Proof. intros T mains s c tr1 t h v tr2 t' z tr. apply await_gone. Qed.
Print Assumptions C106_await_zero.
Theorem C106_await_returns : forall T (mains : list (user T)) s c tr t h t' z l l1 l2,
  run (start mains) s = (c, tr) -> dead c = false -> calling tr t = Some (Await h) -> spawned_future tr h t' z -> gone tr t' ->
  In (EAnswer t (Await h) z) (snd (run c [(t, l); (t', l1); (t', l2)])).
Proof. intros T mains s c tr t h t' z l l1 l2. apply await_gone_live. Qed.
Print Assumptions C106_await_returns.
(** A panic on any goroutine ends the whole process, at the latest with the second step
    of that goroutine (the first closes the channel of a future). *)
Theorem C106_panic_kills : forall T (mains : list (user T)) s c tr t l l',
  run (start mains) s = (c, tr) -> In (EPanic t) tr -> dead c = false ->
  exists c' e, run c [(t, l); (t, l')] = (c', e) /\ dead c' = true /\ In (EFatal t) e.
Proof. intros T mains s c tr t l l'. apply panic_kills. Qed.
Print Assumptions C106_panic_kills.
(** A goroutine that ends, in any of the ways, inside a mutex takes it along: nobody is
    ever let in again, and nobody is told why. *)
Theorem C106_mutex_lost : forall T (mains : list (user T)) s c tr s' c' e t m u,
  Forall disciplined mains -> run (start mains) s = (c, tr) -> (exists w, finished tr t w) \/ gone tr t -> inside tr t m ->
  run c s' = (c', e) ->
  (forall a, ~ In (EAnswer u (Lock m) (VPtr a)) e) /\ forall a, ~ In (EAnswer u (TryLock m) (VOk (VPtr a))) e.
Proof. intros T mains s c tr s' c' e t m u. apply mutex_lost. Qed.
Print Assumptions C106_mutex_lost.
(** What holds of the claim: Goexit stops nobody else.  Every event that ends the
    process is of a goroutine that panicked or misused Unlock. *)
Theorem C106_goexit_stops_nobody_partial : forall T (mains : list (user T)) s c tr1 t tr2,
  run (start mains) s = (c, tr1 ++ EFatal t :: tr2) -> ~ In (EExit t) tr1.
Proof.
  intros T mains s c tr1 t tr2 R EX. destruct (fatal_only _ _ _ _ _ _ R) as [P|(m & C & _)].
  - assert (B : EExit (T:=T) t = EPanic t); [|discriminate].
    apply (ended_once _ _ _ _ t _ _ R); [apply in_or_app; left; exact EX|right; auto|apply in_or_app; left; exact P|right; auto].
  - apply in_split in EX. destruct EX as (a & b & ->).
    destruct (run_split _ _ _ _ _ _ R) as (s1 & u & l & s2 & c1 & ea & c2 & b1 & b2 & _ & R1 & S1 & E).
    assert (GD := reach_good _ _ _ _ R1). destruct (step_shows _ _ _ _ _ _ (good_inv _ _ GD) S1) as [EV _].
    destruct (lonely_event _ _ _ _ _ EV Logic.I) as (-> & -> & _). rewrite app_nil_r in E. subst ea.
    assert (M : mode c1 t = Some (Unlock m)) by (destruct GD as [_ GD]; rewrite GD; exact C).
    assert (X := run_ends _ _ _ _ t R1). rewrite ends_app in X. cbn [ends] in X. rewrite Nat.eqb_refl in X.
    unfold mode, mode_of in M. unfold ended in X at 1.
    destruct (nth_error (threads c1) t) as [[[| |] ?]|]; try discriminate. destruct (ended (start mains) t); lia.
Qed.
Print Assumptions C106_goexit_stops_nobody_partial.

(** The hypotheses are met: a future whose function panics, with a waiting Await that
    gets the zero value just before the process dies; a poll of an exited thread; a
    mutex taken along by Goexit. *)
Definition await_panic : user nat :=
  UCall (Gokio_Spawn (VData 0) UPanic) (fun h => match h with VFuture h => UCall (Await h) (fun v => UReturn v) | _ => UReturn VErr end).
Example C106_nonvacuous_await :
  let (c, tr) := run (start [await_panic]) [(0, true); (0, true); (0, true); (0, true); (1, true)] in
  dead c = false /\ calling tr 0 = Some (Await 0) /\ gone tr 1 /\ In (EPanic 1) tr /\
  snd (run c [(0, true); (1, true); (1, true)]) = [EAnswer 0 (Await 0) (VData 0); EFatal 1].
Proof. vm_compute. repeat split; repeat (first [left; reflexivity | right]). Qed.
Example C106_nonvacuous_future :
  spawned_future (snd (run (start [await_panic]) [(0, true); (0, true); (0, true); (0, true); (1, true)])) 0 1 (VData 0).
Proof. eexists 0, _, [ECall 0 (Gokio_Spawn (VData 0) UPanic)], [ECall 0 (Await 0); EPanic 1]. vm_compute. reflexivity. Qed.
Definition poll_exit : user nat :=
  UCall (Spawn UGoexit) (fun h => match h with VHandle h => UCall (IsFinished h) (fun _ => UReturn VUnit) | _ => UReturn VErr end).
Example C106_nonvacuous_poll :
  let (c, tr) := run (start [poll_exit]) [(0, true); (0, true); (0, true); (1, true); (0, true)] in
  dead c = false /\ calling tr 0 = Some (IsFinished 0) /\ gone tr 1 /\
  snd (run c [(1, true); (0, true)]) = [EAnswer 0 (IsFinished 0) (VBool false)].
Proof. vm_compute. repeat split; first [left; reflexivity | left; repeat (first [left; reflexivity | right]); fail]. Qed.
Definition exit_inside : list (user nat) :=
  [UCall (MutexNew (VData 0)) (fun _ => UCall (Lock 0) (fun _ => UGoexit)); UCall (Lock 0) (fun _ => UCall (Unlock 0) (fun _ => UReturn VUnit))].
Example C106_nonvacuous_mutex :
  let (c, tr) := run (start exit_inside) (repeat (0, true) 7 ++ [(1, true)]) in
  dead c = false /\ gone tr 0 /\ inside tr 0 0 /\ calling tr 1 = Some (Lock 0) /\ snd (run c [(1, true); (0, true); (1, true)]) = [].
Proof. vm_compute. repeat split; first [left; reflexivity | left; repeat (first [left; reflexivity | right]); fail]. Qed.
Example C106_nonvacuous_rule : Forall disciplined exit_inside.
Proof.
  repeat constructor.
  - exists (fun h u => (h = [] /\ u = UCall (MutexNew (VData 0)) (fun _ => UCall (Lock 0) (fun _ => UGoexit))) \/
                      (h = [] /\ u = UCall (Lock 0) (fun _ => UGoexit)) \/ u = UGoexit). split; [|auto].
    intros h u [[-> ->]|[[-> ->]| ->]]; cbn; auto.
  - exists (fun h u => (h = [] /\ u = UCall (Lock 0) (fun _ => UCall (Unlock 0) (fun _ => UReturn VUnit))) \/
                      (In 0 (map fst h) /\ u = UCall (Unlock 0) (fun _ => UReturn VUnit)) \/ u = UReturn VUnit). split; [|auto].
    intros h u [[-> ->]|[[I ->]| ->]]; cbn; auto.
Qed.
