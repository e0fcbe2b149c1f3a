(** SyncWorkProofs.v -- many goroutines updating one value under a mutex. *)
From Coq Require Import Bool.
From Verif Require Import Base BaseLemmas SyncModel SyncSpec SyncProofs SyncJoinProofs SyncLockProofs.

Section Work.
  Context {T : Type}.
  Notation event := (event T).
  Notation trace := (list event).
  Notation user := (user T).
  Notation val := (val T).
  Notation config := (config T).
  Notation goroutine := (goroutine T).
  Notation prog := (prog T).
  Notation job := (@job T).
  Notation call := (@call T user).
  Implicit Types (c : config) (tr e : trace).

  Lemma user_eta (u : user) : u = match u with UReturn v => UReturn v | UCall f k => UCall f k | ULoad a k => ULoad a k | UStore a v k => UStore a v k | UPanic => UPanic | UGoexit => UGoexit end.
  Proof. destruct u; reflexivity. Qed.
  Definition section (f : val -> val) (r : list job) (a : nat) : user :=
    ULoad a (fun v => UStore a (f v) (UCall (Unlock 0) (fun _ => worker 0 r))).
  Definition after_lock (f : val -> val) (r : list job) (p : val) : user :=
    match p with VPtr a => section f r a | _ => UReturn VErr end.
  Definition after_try (f : val -> val) (r : list job) (p : val) : user :=
    match p with VOk (VPtr a) => section f r a | _ => worker 0 ((true, f) :: r) end.
  Lemma worker_nil : worker (T:=T) 0 [] = UReturn VUnit.
  Proof. rewrite (user_eta (worker 0 [])). reflexivity. Qed.
  Lemma worker_lock f r : worker (T:=T) 0 ((false, f) :: r) = UCall (Lock 0) (after_lock f r).
  Proof. rewrite (user_eta (worker 0 ((false, f) :: r))). reflexivity. Qed.
  Lemma worker_try f r : worker (T:=T) 0 ((true, f) :: r) = UCall (TryLock 0) (after_try f r).
  Proof. rewrite (user_eta (worker 0 ((true, f) :: r))). reflexivity. Qed.

  Notation lget := (GetValue 0 (fun value => Return (VPtr value))).
  Notation tget := (GetValue 0 (fun value => Return (VOk (VPtr value)))).

  (** A worker outside the mutex, with the jobs left and the steps it needs. *)
  Inductive free : list job -> nat -> goroutine -> Prop :=
  | f_run r : free r (8 * length r + 1) (mkG (Running (worker 0 r) main_rest) false)
  | f_lock f r : free ((false, f) :: r) (8 * length r + 8) (mkG (Inside (Lock 0) (p_Lock 0) (after_lock f r) main_rest) false)
  | f_try f r : free ((true, f) :: r) (8 * length r + 8) (mkG (Inside (TryLock 0) (p_TryLock 0) (after_try f r) main_rest) false)
  | f_end : free [] 0 (mkG (Ending (Return VUnit)) false).
  (** A worker that has the mutex, whose value is x. *)
  Inductive crit (x : val) : list job -> nat -> goroutine -> Prop :=
  | c_lget f r : crit x ((false, f) :: r) (8 * length r + 7) (mkG (Inside (Lock 0) lget (after_lock f r) main_rest) false)
  | c_tget f r : crit x ((true, f) :: r) (8 * length r + 7) (mkG (Inside (TryLock 0) tget (after_try f r) main_rest) false)
  | c_load b f r : crit x ((b, f) :: r) (8 * length r + 6) (mkG (Running (section f r 0) main_rest) false)
  | c_store b f r : crit x ((b, f) :: r) (8 * length r + 5) (mkG (Running (UStore 0 (f x) (UCall (Unlock 0) (fun _ => worker 0 r))) main_rest) false)
  | c_unlock r : crit x r (8 * length r + 3) (mkG (Running (UCall (Unlock 0) (fun _ => worker 0 r)) main_rest) false)
  | c_in r : crit x r (8 * length r + 2) (mkG (Inside (Unlock 0) (p_Unlock 0) (fun _ => worker 0 r) main_rest) false).

  (** [merges ls log ls']: taking the elements of log from the heads of ls leaves ls'. *)
  Inductive merges {A} : list (list A) -> list A -> list (list A) -> Prop :=
  | mg_nil ls : merges ls [] ls
  | mg_snoc ls log ls' i x l : merges ls log ls' -> nth_error ls' i = Some (x :: l) -> merges ls (log ++ [x]) (list_set ls' i l).
  Lemma merges_cons {A} ls i (x : A) l log ls' : nth_error ls i = Some (x :: l) -> merges (list_set ls i l) log ls' -> merges ls (x :: log) ls'.
  Proof.
    intros H M. remember (list_set ls i l) as ls1 eqn:E. revert ls H E. induction M as [ls1|ls1 log ls' j y k M IH N]; intros ls H E; subst.
    - apply (mg_snoc ls [] ls i x l); [constructor|exact H].
    - change (x :: log ++ [y]) with ((x :: log) ++ [y]). econstructor; [|exact N]. apply IH; [exact H|reflexivity].
  Qed.
  Lemma merges_prepend {A} ls log (ls' : list (list A)) : merges ls log ls' -> forall rest, interleaving ls' rest -> interleaving ls (log ++ rest).
  Proof.
    induction 1 as [ls|ls log ls' i x l M IH N]; intros rest H; [exact H|].
    rewrite <- app_assoc. apply IH. cbn [app]. econstructor; eassumption.
  Qed.
  Lemma merges_all {A} ls log (ls' : list (list A)) : merges ls log ls' -> (forall l, In l ls' -> l = []) -> interleaving ls log.
  Proof. intros M H. rewrite <- (app_nil_r log). eapply merges_prepend; [exact M|]. constructor. exact H. Qed.

  Definition sum (ns : list nat) : nat := fold_right plus 0 ns.
  Lemma sum_set ns : forall i k k', nth_error ns i = Some k -> sum (list_set ns i k') + k = sum ns + k'.
  Proof.
    induction ns as [|n ns IH]; intros [|i] k k' H; cbn [nth_error] in H; try discriminate; cbn [list_set sum fold_right].
    - injection H as ->. lia.
    - specialize (IH i k k' H). unfold sum in IH. lia.
  Qed.

  (** *** The invariant *)
  Section Inv.
  Variables (v0 : val) (jobs : list (list job)).

  Definition value_of (log : list job) : val := fold_left (fun v j => snd j v) log v0.
  Record Team (c : config) tr (x : val) (rs : list (list job)) (ns : list nat) (owner : option nat) (log : list job) : Prop := {
    t_merge : merges jobs log rs;
    t_value : x = value_of log;
    t_len : length rs = length jobs;
    t_lenn : length ns = length jobs;
    t_lent : length (threads c) = S (length jobs);
    t_own : forall i, owner = Some i -> i < length jobs;
    t_state : forall i r n g, nth_error rs i = Some r -> nth_error ns i = Some n -> nth_error (threads c) (S i) = Some g ->
      if match owner with Some j => j =? i | None => false end then crit x r n g else free r n g;
    t_dead : dead c = false;
    t_finish : forall i v, In (EFinish (S i) v) tr -> nth_error ns i = Some 0;
    t_done : forall i, nth_error ns i = Some 0 -> exists v, In (EFinish (S i) v) tr;
    t_ptr : forall t a, In (EAnswer t (Lock 0) (VPtr a)) tr \/ In (EAnswer t (TryLock 0) (VOk (VPtr a))) tr -> a = 0 }.

  Inductive WInv (c : config) tr : option nat -> nat -> Prop :=
  | w_before rs ns bn :
      Team c tr v0 rs ns None [] -> mutexes c = [] ->
      (forall i g, nth_error (threads c) (S i) = Some g -> mode_of (Some g) = None) ->
      (forall m, initial tr m = None) -> (forall a, last_store tr a = None) -> (forall v, ~ In (EFinish 0 v) tr) ->
      (bn = 5 /\ cells c = [] /\ nth_error (threads c) 0 = Some (mkG (Running (UCall (MutexNew v0) (fun _ => UReturn VUnit)) main_rest) false)
       \/ bn = 4 /\ cells c = [] /\ nth_error (threads c) 0 = Some (mkG (Inside (MutexNew v0) (p_MutexNew v0) (fun _ => UReturn VUnit) main_rest) false)
       \/ bn = 3 /\ cells c = [v0] /\ nth_error (threads c) 0 = Some (mkG (Inside (MutexNew v0) (NewMutex 0 (fun m => Return (VMutex m))) (fun _ => UReturn VUnit) main_rest) false)) ->
      WInv c tr None (bn + sum ns)
  | w_after x rs ns owner log bn :
      Team c tr x rs ns owner log -> mutexes c = [mkMutex 0 (match owner with Some _ => true | None => false end)] -> cells c = [x] ->
      current tr 0 0 = Some x ->
      (bn = 2 /\ nth_error (threads c) 0 = Some (mkG (Running (UReturn VUnit) main_rest) false)
       \/ bn = 0 /\ nth_error (threads c) 0 = Some (mkG (Ending (Return VUnit)) false) /\ exists v, In (EFinish 0 v) tr) ->
      WInv c tr owner (bn + sum ns).

  Lemma nth_some {A} (l : list A) i : i < length l -> exists x, nth_error l i = Some x.
  Proof. intros H. destruct (nth_error l i) eqn:E; [eauto|]. apply nth_error_None in E. lia. Qed.

  (** Worker i moves. *)
  Lemma team_move c c1 tr x x' rs ns owner owner' log log' i r n r' n' g g' e :
    Team c tr x rs ns owner log -> nth_error rs i = Some r -> nth_error ns i = Some n -> nth_error (threads c) (S i) = Some g ->
    threads c1 = threads c -> dead c1 = dead c ->
    (log' = log /\ x' = x /\ r' = r \/ exists j, r = j :: r' /\ log' = log ++ [j] /\ x' = snd j x) ->
    (forall j, j <> i -> owner = Some j <-> owner' = Some j) ->
    (if match owner' with Some j => j =? i | None => false end then crit x' r' n' g' else free r' n' g') ->
    (x' = x \/ owner = Some i) ->
    (forall t v, In (EFinish t v) e -> t = S i /\ n' = 0) -> (n = 0 -> n' = 0) -> (n' = 0 -> exists v, In (EFinish (S i) v) e) ->
    (forall t a, In (EAnswer t (Lock 0) (VPtr a)) e \/ In (EAnswer t (TryLock 0) (VOk (VPtr a))) e -> a = 0) ->
    Team (set_thread c1 (S i) g') (tr ++ e) x' (list_set rs i r') (list_set ns i n') owner' log'.
  Proof.
    intros I R N G T1 D1 LG OW ST XO FI NZ DN PT.
    assert (LI : i < length jobs) by (rewrite <- (t_len _ _ _ _ _ _ _ I); eapply nth_lt; exact R).
    constructor.
    - destruct LG as [(-> & -> & ->)|(j & -> & -> & _)].
      + assert (E : list_set rs i r = rs).
        { apply nth_error_ext. intros k. rewrite nth_error_list_set. destruct (Nat.eqb_spec i k) as [->|]; [|reflexivity].
          apply nth_lt in R as L. destruct (Nat.ltb_spec k (length rs)); [|lia]. symmetry. exact R. }
        rewrite E. apply (t_merge _ _ _ _ _ _ _ I).
      + econstructor; [apply (t_merge _ _ _ _ _ _ _ I)|exact R].
    - destruct LG as [(-> & -> & _)|(j & _ & -> & ->)]; [apply (t_value _ _ _ _ _ _ _ I)|].
      unfold value_of. rewrite fold_left_app. cbn [fold_left]. rewrite (t_value _ _ _ _ _ _ _ I). reflexivity.
    - rewrite list_set_length. apply (t_len _ _ _ _ _ _ _ I).
    - rewrite list_set_length. apply (t_lenn _ _ _ _ _ _ _ I).
    - cbn [set_thread threads]. rewrite list_set_length, T1. apply (t_lent _ _ _ _ _ _ _ I).
    - intros k H. destruct (Nat.eq_dec k i) as [->|NE]; [exact LI|]. apply (t_own _ _ _ _ _ _ _ I). apply OW; assumption.
    - intros k rk nk gk. rewrite !nth_error_list_set. cbn [set_thread threads]. rewrite T1, (nth_set _ _ _ _ _ G).
      destruct (Nat.eqb_spec i k) as [<-|NE].
      + rewrite Nat.eqb_refl. rewrite (t_len _ _ _ _ _ _ _ I), (t_lenn _ _ _ _ _ _ _ I).
        destruct (Nat.ltb_spec i (length jobs)); [|lia]. intros A B C. injection A as <-. injection B as <-. injection C as <-. exact ST.
      + destruct (Nat.eqb_spec (S k) (S i)) as [B|_]; [congruence|]. intros A B C. assert (X := t_state _ _ _ _ _ _ _ I _ _ _ _ A B C).
        assert (E : match owner' with Some j => j =? k | None => false end = match owner with Some j => j =? k | None => false end).
        { destruct owner as [j|] eqn:O, owner' as [j'|] eqn:O'; try reflexivity.
          - destruct (Nat.eqb_spec j' k) as [->|Q'], (Nat.eqb_spec j k) as [->|Q]; try reflexivity.
            + assert (B2 : Some j = Some k) by (apply OW; [congruence|reflexivity]). congruence.
            + assert (B2 : Some j' = Some k) by (apply (OW k); [congruence|reflexivity]). congruence.
          - destruct (Nat.eqb_spec j k) as [->|]; [|reflexivity]. assert (B2 : None = Some k) by (apply (OW k); [congruence|reflexivity]). discriminate.
          - destruct (Nat.eqb_spec j' k) as [->|]; [|reflexivity]. assert (B2 : None = Some k) by (apply (OW k); [congruence|reflexivity]). discriminate. }
        rewrite E. destruct owner as [j|]; [|exact X]. destruct (Nat.eqb_spec j k) as [->|]; [|exact X].
        destruct XO as [->|XO]; [exact X|]. congruence.
    - cbn [set_thread dead]. rewrite D1. apply (t_dead _ _ _ _ _ _ _ I).
    - intros k v H. apply in_app_or in H. rewrite nth_error_list_set, (t_lenn _ _ _ _ _ _ _ I). destruct H as [H|H].
      + apply (t_finish _ _ _ _ _ _ _ I) in H. destruct (Nat.eqb_spec i k) as [<-|]; [|exact H].
        destruct (Nat.ltb_spec i (length jobs)); [|lia]. rewrite H in N. injection N as <-. f_equal. apply NZ. reflexivity.
      + destruct (FI _ _ H) as [E Z]. injection E as ->. rewrite Nat.eqb_refl. destruct (Nat.ltb_spec i (length jobs)); [|lia]. congruence.
    - intros k. rewrite nth_error_list_set, (t_lenn _ _ _ _ _ _ _ I). destruct (Nat.eqb_spec i k) as [<-|].
      + destruct (Nat.ltb_spec i (length jobs)); [|lia]. intros H1. injection H1 as ->. destruct (DN eq_refl) as (v & H2).
        exists v. apply in_or_app. auto.
      + intros H1. destruct (t_done _ _ _ _ _ _ _ I _ H1) as (v & H2). exists v. apply in_or_app. auto.
    - intros t a [H|H]; apply in_app_or in H; destruct H as [H|H];
        try (apply (t_ptr _ _ _ _ _ _ _ I t a); auto; fail); apply (PT t a); auto.
  Qed.

  Lemma team_boss c c1 tr x rs ns owner log g0 g e :
    Team c tr x rs ns owner log -> nth_error (threads c) 0 = Some g0 -> threads c1 = threads c -> dead c1 = dead c ->
    (forall t v, In (EFinish t v) e -> t = 0) ->
    (forall t a, In (EAnswer t (Lock 0) (VPtr a)) e \/ In (EAnswer t (TryLock 0) (VOk (VPtr a))) e -> a = 0) ->
    Team (set_thread c1 0 g) (tr ++ e) x rs ns owner log.
  Proof.
    intros I G T1 D1 FI PT. constructor; try apply I.
    - cbn [set_thread threads]. rewrite list_set_length, T1. apply (t_lent _ _ _ _ _ _ _ I).
    - intros i r n g1 R N. cbn [set_thread threads]. rewrite T1, (nth_set _ _ _ _ _ G). cbn [Nat.eqb]. apply (t_state _ _ _ _ _ _ _ I); assumption.
    - cbn [set_thread dead]. rewrite D1. apply (t_dead _ _ _ _ _ _ _ I).
    - intros i v H. apply in_app_or in H. destruct H as [H|H]; [apply (t_finish _ _ _ _ _ _ _ I _ _ H)|]. apply FI in H. discriminate.
    - intros i H. destruct (t_done _ _ _ _ _ _ _ I _ H) as (v & B). exists v. apply in_or_app. auto.
    - intros t a [H|H]; apply in_app_or in H; destruct H as [H|H];
        try (apply (t_ptr _ _ _ _ _ _ _ I t a); auto; fail); apply (PT t a); auto.
  Qed.
  Lemma no_finish (e : trace) : (forall t v, ~ In (EFinish t v) e) -> forall (P : nat -> Prop) t v, In (EFinish t v) e -> P t.
  Proof. intros H P t v B. destruct (H _ _ B). Qed.

  Lemma last_quiet tr e a : (forall b, last_store e b = None) -> last_store (tr ++ e) a = last_store tr a.
  Proof. intros H. rewrite last_store_app, H. reflexivity. Qed.
  Lemma current_quiet tr e m a : (forall b, last_store e b = None) -> current tr m a <> None -> current (tr ++ e) m a = current tr m a.
  Proof.
    intros H C. unfold current in *. rewrite last_quiet by exact H. destruct (last_store tr a); [reflexivity|].
    rewrite initial_app. destruct (initial tr m); [reflexivity|congruence].
  Qed.

  Ltac side := first [reflexivity | assumption | lia | match goal with QC : forall e0, _ -> current _ 0 0 = _ |- current _ 0 0 = _ => apply QC; reflexivity end | left; repeat split; fail | intros ? ? []; fail
    | intros ? ? [?E|[]]; discriminate | intros ? ? [[]|[]]; fail
    | intros ? ? [[?E|[]]|[?E|[]]]; first [discriminate | congruence] ].
  Ltac st := match goal with |- crit _ _ _ _ => constructor | |- free _ _ _ => constructor end.
  Lemma w_step c tr o n t l c' e : WInv c tr o n -> step c t l = Some (c', e) ->
    exists o' n', WInv c' (tr ++ e) o' n' /\ (l = true -> (o = None \/ o = Some (pred t)) -> n' < n).
  Proof.
    intros W H. unfold step in H. destruct W as [rs ns bn I MU MO IN LS NF B|x rs ns owner log bn I MU CE CU B].
    - rewrite (t_dead _ _ _ _ _ _ _ I) in H. destruct t as [|i].
      + destruct B as [(-> & CE & G)|[(-> & CE & G)|(-> & CE & G)]]; rewrite G in H.
        * cbn [typed] in H. injection H as <- <-. exists None, (4 + sum ns). split; [|lia].
          apply (w_before _ _ rs ns 4); try assumption.
          -- eapply team_boss; try eassumption; try reflexivity; cbn [In]; intros; [destruct H as [H|[]]; discriminate|destruct H as [[H|[]]|[H|[]]]; discriminate].
          -- intros j g. cbn [set_thread threads]. rewrite (nth_set _ _ _ _ _ G). cbn [Nat.eqb]. apply MO.
          -- intros m. rewrite initial_app, IN. reflexivity.
          -- intros a. rewrite last_quiet by reflexivity. apply LS.
          -- intros v X. apply in_app_or in X. destruct X as [X|X]; [apply (NF _ X)|]. cbn [In] in X. destruct X as [X|[]]; discriminate.
          -- right. left. split; [reflexivity|]. split; [exact CE|]. cbn [set_thread threads]. rewrite (nth_set _ _ _ _ _ G). reflexivity.
        * cbn [p_MutexNew operate] in H. erewrite continue_inside in H; [|exact G|congruence]. injection H as <- <-. exists None, (3 + sum ns). split; [|lia].
          apply (w_before _ _ rs ns 3); try assumption.
          -- eapply team_boss; try eassumption; try reflexivity; cbn [In]; intros; [destruct H|destruct H as [[]|[]]].
          -- intros j g. cbn [set_thread threads]. rewrite (nth_set _ _ _ _ _ G). cbn [Nat.eqb]. apply MO.
          -- intros m. rewrite initial_app, IN. reflexivity.
          -- intros a. rewrite last_quiet by reflexivity. apply LS.
          -- intros v X. rewrite app_nil_r in X. apply (NF _ X).
          -- right. right. split; [reflexivity|]. cbn [set_thread cells threads]. rewrite (nth_set _ _ _ _ _ G), CE. split; reflexivity.
        * cbn [operate] in H. erewrite continue_return in H by exact G. injection H as <- <-. exists None, (2 + sum ns). split; [|lia].
          rewrite MU. apply (w_after _ _ v0 rs ns None [] 2).
          -- eapply team_boss; try eassumption; try reflexivity; cbn [In]; intros; [destruct H as [H|[]]; discriminate|destruct H as [[H|[]]|[H|[]]]; discriminate].
          -- reflexivity.
          -- exact CE.
          -- unfold current. rewrite last_quiet, LS, initial_app, IN by reflexivity. reflexivity.
          -- left. split; [reflexivity|]. cbn [set_thread threads]. rewrite (nth_set _ _ _ _ _ G). reflexivity.
      + destruct (nth_error (threads c) (S i)) as [g|] eqn:G; [|discriminate].
        assert (LI : i < length jobs) by (apply nth_lt in G; rewrite (t_lent _ _ _ _ _ _ _ I) in G; lia).
        destruct (nth_some rs i) as (r & R); [rewrite (t_len _ _ _ _ _ _ _ I); exact LI|].
        destruct (nth_some ns i) as (k & N); [rewrite (t_lenn _ _ _ _ _ _ _ I); exact LI|].
        assert (ST := t_state _ _ _ _ _ _ _ I _ _ _ _ R N G). cbv beta iota in ST. assert (M := MO _ _ G).
        inversion ST; subst; try discriminate.
        destruct r as [|[[|] f] r].
        * rewrite worker_nil in H. injection H as <- <-. exists None, (bn + sum (list_set ns i 0)). split.
          -- apply (w_before _ _ (list_set rs i []) (list_set ns i 0) bn); try assumption.
             ++ eapply team_move; try eassumption; try reflexivity.
                ** left. auto.
                ** apply f_end.
                ** left. reflexivity.
                ** intros t v [E|[]]. injection E as <- _. auto.
                ** intros _. exists VUnit. left. reflexivity.
                ** intros t a [[E|[]]|[E|[]]]; discriminate.
             ++ intros j g. cbn [set_thread threads]. rewrite (nth_set _ _ _ _ _ G). destruct (S j =? S i); [intros E; injection E as <-; reflexivity|apply MO].
             ++ intros m. rewrite initial_app, IN. reflexivity.
             ++ intros a. rewrite last_quiet by reflexivity. apply LS.
             ++ intros v X. apply in_app_or in X. destruct X as [X|[X|[]]]; [apply (NF _ X)|discriminate].
             ++ cbn [set_thread threads cells]. rewrite (nth_set _ _ _ _ _ G). exact B.
          -- intros _ _. assert (SS := sum_set _ _ _ 0 N). cbn [length] in SS. lia.
        * rewrite worker_try in H. cbn [typed] in H. rewrite MU in H. discriminate.
        * rewrite worker_lock in H. cbn [typed] in H. rewrite MU in H. discriminate.
    - rewrite (t_dead _ _ _ _ _ _ _ I) in H. destruct t as [|i].
      + destruct B as [(-> & G)|(-> & G & _)]; rewrite G in H; [|discriminate].
        injection H as <- <-. exists owner, (0 + sum ns). split; [|lia].
        apply (w_after _ _ x rs ns owner log 0); try assumption.
        * eapply team_boss; try eassumption; try reflexivity; cbn [In]; intros; [destruct H as [H|[]]; congruence|destruct H as [[H|[]]|[H|[]]]; discriminate].
        * rewrite current_quiet; [exact CU|reflexivity|congruence].
        * right. split; [reflexivity|]. cbn [set_thread threads]. rewrite (nth_set _ _ _ _ _ G). split; [reflexivity|].
          exists VUnit. apply in_or_app. right. left. reflexivity.
      + destruct (nth_error (threads c) (S i)) as [g|] eqn:G; [|discriminate].
        assert (LI : i < length jobs) by (apply nth_lt in G; rewrite (t_lent _ _ _ _ _ _ _ I) in G; lia).
        destruct (nth_some rs i) as (r & R); [rewrite (t_len _ _ _ _ _ _ _ I); exact LI|].
        destruct (nth_some ns i) as (k & N); [rewrite (t_lenn _ _ _ _ _ _ _ I); exact LI|].
        assert (ST := t_state _ _ _ _ _ _ _ I _ _ _ _ R N G).
        assert (MOVE : forall c1 g' owner' x' log' r' k' e0,
          threads c1 = threads c -> dead c1 = dead c ->
          (log' = log /\ x' = x /\ r' = r \/ exists j, r = j :: r' /\ log' = log ++ [j] /\ x' = snd j x) ->
          (forall j, j <> i -> owner = Some j <-> owner' = Some j) ->
          (if match owner' with Some j => j =? i | None => false end then crit x' r' k' g' else free r' k' g') ->
          (x' = x \/ owner = Some i) ->
          (forall t v, In (EFinish t v) e0 -> t = S i /\ k' = 0) -> k <> 0 -> (k' = 0 -> exists v, In (EFinish (S i) v) e0) ->
          (forall t a, In (EAnswer t (Lock 0) (VPtr a)) e0 \/ In (EAnswer t (TryLock 0) (VOk (VPtr a))) e0 -> a = 0) ->
          mutexes c1 = [mkMutex 0 (match owner' with Some _ => true | None => false end)] -> cells c1 = [x'] ->
          current (tr ++ e0) 0 0 = Some x' ->
          (l = true -> (owner = None \/ owner = Some i) -> k' < k) ->
          exists o' n', WInv (set_thread c1 (S i) g') (tr ++ e0) o' n' /\ (l = true -> (owner = None \/ owner = Some i) -> n' < bn + sum ns)).
        { intros c1 g' owner' x' log' r' k' e0 T1 D1 LG OW ST' XO FI NZ DN PT MU1 CE1 CU1 DEC.
          exists owner', (bn + sum (list_set ns i k')). split.
          - apply (w_after _ _ x' (list_set rs i r') (list_set ns i k') owner' log' bn); try assumption.
            + eapply team_move; try eassumption. contradiction.
            + cbn [set_thread threads]. rewrite T1, (nth_set _ _ _ _ _ G). cbn [Nat.eqb].
              destruct B as [B|(B1 & B2 & v & B3)]; [left; exact B|right]. repeat (split; [assumption|]). exists v. apply in_or_app. auto.
          - intros L O. specialize (DEC L O). assert (SS := sum_set _ _ _ k' N). lia. }
        assert (QC : forall e0, (forall b, last_store e0 b = None) -> current (tr ++ e0) 0 0 = Some x).
        { intros e0 Q. rewrite current_quiet; [exact CU|exact Q|congruence]. }
        cbn [pred].
        destruct (match owner with Some j => j =? i | None => false end) eqn:OI.
        * assert (OWN : owner = Some i) by (destruct owner as [j|]; [apply Nat.eqb_eq in OI; congruence|discriminate]).
          rewrite OWN in MU, MOVE. inversion ST as [f r0|f r0|b f r0|b f r0|r0|r0]; subst r g k.
          -- cbn [operate] in H. rewrite MU in H. cbn [nth_error value] in H. erewrite continue_return in H by exact G. injection H as <- <-.
             rewrite OWN. apply (MOVE c _ (Some i) x log ((false, f) :: r0) (8 * length r0 + 6)); try side; rewrite ?Nat.eqb_refl; try st.
          -- cbn [operate] in H. rewrite MU in H. cbn [nth_error value] in H. erewrite continue_return in H by exact G. injection H as <- <-.
             rewrite OWN. apply (MOVE c _ (Some i) x log ((true, f) :: r0) (8 * length r0 + 6)); try side; rewrite ?Nat.eqb_refl; try st.
          -- unfold section in H. rewrite CE in H. cbn [nth_error] in H. injection H as <- <-.
             rewrite OWN. apply (MOVE c _ (Some i) x log ((b, f) :: r0) (8 * length r0 + 5)); try side; rewrite ?Nat.eqb_refl; try st.
          -- rewrite CE in H. cbn [nth_error] in H. injection H as <- <-.
             rewrite OWN. apply (MOVE (set_cell c 0 (f x)) _ (Some i) (f x) (log ++ [(b, f)]) r0 (8 * length r0 + 3)); try side; rewrite ?Nat.eqb_refl; try st.
             ++ right. exists (b, f). repeat split.
             ++ right. reflexivity.
             ++ cbn [set_cell cells]. rewrite CE. reflexivity.
             ++ unfold current. rewrite last_store_app. reflexivity.
          -- cbn [typed] in H. rewrite MU in H. cbn [length Nat.ltb Nat.leb] in H. injection H as <- <-.
             rewrite OWN. apply (MOVE c _ (Some i) x log r0 (8 * length r0 + 2)); try side; rewrite ?Nat.eqb_refl; try st.
          -- cbn [p_Unlock operate] in H. rewrite MU in H. cbn [nth_error locked value] in H. erewrite continue_return in H by exact G. injection H as <- <-.
             rewrite OWN. apply (MOVE (set_mutex c 0 (mkMutex 0 false)) _ None x log r0 (8 * length r0 + 1)); try side; try st.
             ++ intros j NE. split; congruence.
             ++ cbn [set_mutex mutexes]. rewrite MU. reflexivity.
        * assert (OWN : owner <> Some i) by (intros ->; rewrite Nat.eqb_refl in OI; discriminate).
          inversion ST as [r0|f r0|f r0|]; subst r g k; [| | |discriminate].
          -- destruct r0 as [|[[|] f] r0].
             ++ rewrite worker_nil in H. injection H as <- <-.
                apply (MOVE c _ owner x log [] 0); try side; try (rewrite OI; st); try (cbn [length]; lia).
                ** intros t v [E|[]]. injection E as <- _. auto.
                ** intros _. exists VUnit. left. reflexivity.
             ++ rewrite worker_try in H. cbn [typed] in H. rewrite MU in H. cbn [length Nat.ltb Nat.leb] in H. injection H as <- <-.
                apply (MOVE c _ owner x log ((true, f) :: r0) (8 * length r0 + 8)); try side; try (rewrite OI; st); cbn [length]; lia.
             ++ rewrite worker_lock in H. cbn [typed] in H. rewrite MU in H. cbn [length Nat.ltb Nat.leb] in H. injection H as <- <-.
                apply (MOVE c _ owner x log ((false, f) :: r0) (8 * length r0 + 8)); try side; try (rewrite OI; st); cbn [length]; lia.
          -- cbn [p_Lock operate] in H. rewrite MU in H. cbn [nth_error locked value] in H. destruct owner as [j|]; [discriminate|].
             erewrite continue_inside in H; [|exact G|congruence]. injection H as <- <-.
             apply (MOVE (set_mutex c 0 (mkMutex 0 true)) _ (Some i) x log ((false, f) :: r0) (8 * length r0 + 7)); try side; rewrite ?Nat.eqb_refl; try st.
             ++ intros j NE. split; congruence.
             ++ cbn [set_mutex mutexes]. rewrite MU. reflexivity.
          -- cbn [p_TryLock operate] in H. rewrite MU in H. cbn [nth_error locked value] in H. destruct owner as [j|].
             ++ erewrite continue_return in H by exact G. injection H as <- <-.
                apply (MOVE c _ (Some j) x log ((true, f) :: r0) (8 * length ((true, f) :: r0) + 1)); try side; try (rewrite OI; st).
                intros _ [E|E]; [discriminate|contradiction].
             ++ destruct l.
                ** erewrite continue_inside in H; [|exact G|congruence]. injection H as <- <-.
                   apply (MOVE (set_mutex c 0 (mkMutex 0 true)) _ (Some i) x log ((true, f) :: r0) (8 * length r0 + 7)); try side; rewrite ?Nat.eqb_refl; try st.
                   --- intros j NE. split; congruence.
                   --- cbn [set_mutex mutexes]. rewrite MU. reflexivity.
                ** erewrite continue_return in H by exact G. injection H as <- <-.
                   apply (MOVE c _ None x log ((true, f) :: r0) (8 * length ((true, f) :: r0) + 1)); try side; try st; try discriminate.
  Qed.

  Lemma merge_start c' : c' = start (team v0 jobs) -> exists rs ns, Team c' [] v0 rs ns None [].
  Proof.
    intros ->. exists jobs, (map (fun r => 8 * length r + 1) jobs). constructor; try reflexivity; try discriminate.
    - constructor.
    - rewrite map_length. reflexivity.
    - cbn [start team threads map length]. rewrite map_map, !map_length. reflexivity.
    - intros i r n g R N G. cbn [start team threads map nth_error] in G. rewrite map_map, nth_error_map, R in G. cbn [option_map] in G.
      rewrite nth_error_map, R in N. cbn [option_map] in N. injection G as <-. injection N as <-. constructor.
    - intros i v [].
    - intros i H. rewrite nth_error_map in H. destruct (nth_error jobs i); [|discriminate]. injection H as H. lia.
    - intros t a [[]|[]].
  Qed.
  Lemma w_start : exists n, WInv (start (team v0 jobs)) [] None n.
  Proof.
    destruct (merge_start _ eq_refl) as (rs & ns & I). exists (5 + sum ns). apply (w_before _ _ rs ns 5); try assumption; try reflexivity.
    - intros i g H. cbn [start team threads map nth_error] in H. rewrite map_map, nth_error_map in H. destruct (nth_error jobs i); [|discriminate].
      injection H as <-. reflexivity.
    - intros v [].
    - left. repeat split.
  Qed.
  Lemma w_run s : forall c tr o n c' e, WInv c tr o n -> run c s = (c', e) -> exists o' n', WInv c' (tr ++ e) o' n'.
  Proof.
    induction s as [|[t l] s IH]; intros c tr o n c' e W H; cbn [run] in H.
    - injection H as <- <-. rewrite app_nil_r. eauto.
    - destruct (step c t l) as [[c1 e1]|] eqn:E; [|eapply IH; eassumption].
      destruct (run c1 s) as [c2 e2] eqn:R. injection H as <- <-. rewrite app_assoc.
      destruct (w_step _ _ _ _ _ _ _ _ W E) as (o' & n' & W' & _). eapply IH; eassumption.
  Qed.
  Lemma w_reach s c tr : run (start (team v0 jobs)) s = (c, tr) -> exists o n, WInv c tr o n.
  Proof. destruct w_start as (n & W). intros H. apply (w_run _ _ [] _ _ _ _ W H). Qed.

  Lemma free_zero r n g : free r n g -> n = 0 -> r = [] /\ g = mkG (Ending (Return VUnit)) false.
  Proof. intros H Z. inversion H; subst; try lia. auto. Qed.
  Lemma crit_pos x r n g : crit x r n g -> n <> 0.
  Proof. intros H. inversion H; lia. Qed.

  Lemma interleaving_exists {A} (n : nat) : forall ls : list (list A), length (concat ls) = n -> exists r, interleaving ls r.
  Proof.
    induction n as [|n IH]; intros ls H.
    - exists []. constructor. intros l IL. destruct l as [|x l]; [reflexivity|]. apply in_split in IL. destruct IL as (a & b & ->).
      rewrite concat_app, app_length in H. cbn in H. lia.
    - assert (E : exists i x l, nth_error ls i = Some (x :: l) /\ length (concat (list_set ls i l)) = n).
      { clear IH. revert n H. induction ls as [|[|x l] ls IH]; intros n H; [discriminate| |].
        - destruct (IH _ H) as (i & x & l & B & C). exists (S i), x, l. auto.
        - exists 0, x, l. split; [reflexivity|]. cbn in *. lia. }
      destruct E as (i & x & l & B & C). destruct (IH _ C) as (r & R). exists (x :: r). econstructor; eassumption.
  Qed.
  Lemma team_log s c tr v : run (start (team v0 jobs)) s = (c, tr) -> finished tr 0 v ->
    exists log rest, interleaving jobs (log ++ rest) /\ current tr 0 0 = Some (value_of log) /\
      ((forall i, i < length jobs -> exists w, finished tr (S i) w) -> rest = []) /\
      (forall t a, In (EAnswer t (Lock 0) (VPtr a)) tr \/ In (EAnswer t (TryLock 0) (VOk (VPtr a))) tr -> a = 0).
  Proof.
    intros H F. destruct (w_reach _ _ _ H) as (o & n & W). destruct W as [rs ns bn I MU MO IN LS NF B|x rs ns owner log bn I MU CE CU B].
    - destruct (NF _ F).
    - destruct (interleaving_exists _ rs eq_refl) as (rest & RE). exists log, rest.
      split; [eapply merges_prepend; [apply (t_merge _ _ _ _ _ _ _ I)|exact RE]|].
      split; [rewrite CU; f_equal; apply (t_value _ _ _ _ _ _ _ I)|]. split; [|apply (t_ptr _ _ _ _ _ _ _ I)].
      intros AF. assert (E : forall l, In l rs -> l = []).
      { intros l IL. apply In_nth_error in IL. destruct IL as (i & R).
        assert (LI : i < length jobs) by (apply nth_lt in R; rewrite (t_len _ _ _ _ _ _ _ I) in R; exact R).
        destruct (AF _ LI) as (w & FW). apply (t_finish _ _ _ _ _ _ _ I) in FW.
        destruct (nth_some (threads c) (S i)) as (g & G); [rewrite (t_lent _ _ _ _ _ _ _ I); lia|].
        assert (ST := t_state _ _ _ _ _ _ _ I _ _ _ _ R FW G).
        destruct (match owner with Some j => j =? i | None => false end); [apply crit_pos in ST; congruence|].
        apply free_zero in ST; [apply ST|reflexivity]. }
      destruct RE as [|ls i y l r NE _]; [reflexivity|]. apply nth_error_In in NE. apply E in NE. discriminate.
  Qed.

  (** From every state the team can finish. *)
  Lemma first_busy ns : (forall i, i < length ns -> nth_error ns i = Some 0) \/ exists i k, nth_error ns i = Some (S k).
  Proof.
    induction ns as [|[|n] ns IH]; [left; cbn; lia| |right; exists 0, n; reflexivity].
    destruct IH as [IH|(i & k & IH)]; [left|right; exists (S i), k; exact IH].
    intros [|i] L; [reflexivity|]. apply IH. cbn in L. lia.
  Qed.
  Lemma w_move c tr o n : WInv c tr o n -> (exists i, i <= length jobs /\ forall v, ~ In (EFinish i v) tr) ->
    exists t c' e, step c t true = Some (c', e) /\ (o = None \/ o = Some (pred t)).
  Proof.
    intros W (i0 & L0 & NO). unfold step. destruct W as [rs ns bn I MU MO IN LS NF B|x rs ns owner log bn I MU CE CU B].
    - exists 0. rewrite (t_dead _ _ _ _ _ _ _ I). destruct B as [(_ & CE & G)|[(_ & CE & G)|(_ & CE & G)]]; rewrite G.
      + cbn [typed]. eauto 6.
      + cbn [p_MutexNew operate]. erewrite continue_inside; [|exact G|congruence]. eauto 6.
      + cbn [operate]. erewrite continue_return by exact G. eauto 6.
    - assert (BUSY : forall i r k g, nth_error rs i = Some r -> nth_error ns i = Some (S k) -> nth_error (threads c) (S i) = Some g ->
        owner = None \/ owner = Some i -> exists c' e, step c (S i) true = Some (c', e)).
      { intros i r k g R N G O. assert (ST := t_state _ _ _ _ _ _ _ I _ _ _ _ R N G). unfold step. rewrite (t_dead _ _ _ _ _ _ _ I), G.
        destruct O as [->| ->]; [|rewrite Nat.eqb_refl in ST].
        - inversion ST; subst.
          + destruct r as [|[[|] f] r]; [rewrite worker_nil|rewrite worker_try|rewrite worker_lock]; cbn [typed]; rewrite ?MU; cbn [length Nat.ltb Nat.leb]; eauto.
          + cbn [p_Lock operate]. rewrite MU. cbn [nth_error locked]. erewrite continue_inside; [|exact G|congruence]. eauto.
          + cbn [p_TryLock operate]. rewrite MU. cbn [nth_error locked]. erewrite continue_inside; [|exact G|congruence]. eauto.
        - inversion ST; subst; unfold section; cbn [typed p_Unlock operate]; rewrite ?MU, ?CE; cbn [nth_error length Nat.ltb Nat.leb locked];
            try (erewrite continue_return by exact G); eauto. }
      assert (AT : forall i k, nth_error ns i = Some (S k) -> owner = None \/ owner = Some i -> exists c' e, step c (S i) true = Some (c', e)).
      { intros i k N O. assert (LI : i < length jobs) by (apply nth_lt in N; rewrite (t_lenn _ _ _ _ _ _ _ I) in N; exact N).
        destruct (nth_some rs i) as (r & R); [rewrite (t_len _ _ _ _ _ _ _ I); exact LI|].
        destruct (nth_some (threads c) (S i)) as (g & G); [rewrite (t_lent _ _ _ _ _ _ _ I); lia|]. eapply BUSY; eassumption. }
      fold (step c). destruct owner as [j|].
      + assert (LJ := t_own _ _ _ _ _ _ _ I j eq_refl).
        destruct (nth_some rs j) as (r & R); [rewrite (t_len _ _ _ _ _ _ _ I); exact LJ|].
        destruct (nth_some ns j) as (k & N); [rewrite (t_lenn _ _ _ _ _ _ _ I); exact LJ|].
        destruct (nth_some (threads c) (S j)) as (g & G); [rewrite (t_lent _ _ _ _ _ _ _ I); lia|].
        assert (ST := t_state _ _ _ _ _ _ _ I _ _ _ _ R N G). cbv beta iota in ST. rewrite Nat.eqb_refl in ST. apply crit_pos in ST.
        destruct k as [|k]; [congruence|]. destruct (AT _ _ N (or_intror eq_refl)) as (c' & e & E). exists (S j), c', e. auto.
      + destruct (first_busy ns) as [Z|(i & k & N)].
        * destruct i0 as [|i].
          -- destruct B as [(_ & G)|(_ & _ & v & F)]; [|destruct (NO _ F)].
             exists 0. rewrite (t_dead _ _ _ _ _ _ _ I), G. eauto 6.
          -- destruct (t_done _ _ _ _ _ _ _ I i) as (v & F); [apply Z; rewrite (t_lenn _ _ _ _ _ _ _ I); lia|]. destruct (NO _ F).
        * destruct (AT _ _ N (or_introl eq_refl)) as (c' & e & E). exists (S i), c', e. auto.
  Qed.
  Lemma all_finished_or k tr : (forall i, i <= k -> exists v, In (EFinish i v) tr) \/ exists i, i <= k /\ forall v : val, ~ In (EFinish i v) tr.
  Proof.
    assert (ONE : forall i, (exists v, In (EFinish i v) tr) \/ forall v : val, ~ In (EFinish i v) tr).
    { intros i. induction tr as [|x tr IH]; [right; intros v []|]. destruct IH as [(v & IH)|IH]; [left; exists v; right; exact IH|].
      destruct x as [| | |t v| | | | |]; try (right; intros w [E|E]; [discriminate|apply (IH _ E)]).
      destruct (Nat.eq_dec t i) as [->|N]; [left; exists v; left; reflexivity|].
      right. intros w [E|E]; [congruence|apply (IH _ E)]. }
    induction k as [|k IH].
    - destruct (ONE 0) as [O|O]; [left|right; exists 0; auto]. intros i L. assert (i = 0) as -> by lia. exact O.
    - destruct IH as [IH|(i & L & IH)]; [|right; exists i; split; [lia|exact IH]].
      destruct (ONE (S k)) as [O|O]; [left|right; exists (S k); auto]. intros i L. destruct (Nat.eq_dec i (S k)) as [->|]; [exact O|apply IH; lia].
  Qed.
  Lemma w_progress n : forall c tr o, WInv c tr o n -> exists s, forall i, i <= length jobs -> exists v, In (EFinish i v) (tr ++ snd (run c s)).
  Proof.
    induction n as [n IH] using lt_wf_ind. intros c tr o W.
    destruct (all_finished_or (length jobs) tr) as [A|NO].
    - exists []. cbn [run snd]. rewrite app_nil_r. exact A.
    - destruct (w_move _ _ _ _ W NO) as (t & c' & e & S1 & O). destruct (w_step _ _ _ _ _ _ _ _ W S1) as (o' & n' & W' & D).
      destruct (IH n' (D eq_refl O) _ _ _ W') as (s & A). exists ((t, true) :: s). rewrite (run_cons _ _ _ _ _ _ S1). cbn [snd].
      rewrite app_assoc. exact A.
  Qed.
  Lemma team_progress s c tr : run (start (team v0 jobs)) s = (c, tr) ->
    exists s', forall i, i <= length jobs -> exists v, finished (tr ++ snd (run c s')) i v.
  Proof. intros H. destruct (w_reach _ _ _ H) as (o & n & W). eapply w_progress. exact W. Qed.
  End Inv.

  (** The team keeps the rule for mutexes. *)
  Inductive keeping : list (nat * nat) -> user -> Prop :=
  | k_boss h v0 : keeping h (UCall (MutexNew v0) (fun _ => UReturn VUnit))
  | k_return h v : keeping h (UReturn v)
  | k_worker h js : keeping h (worker 0 js)
  | k_load h f r a : In (0, a) h -> keeping h (section f r a)
  | k_store h v r a : In (0, a) h -> keeping h (UStore a v (UCall (Unlock 0) (fun _ => worker 0 r)))
  | k_unlock h r : In 0 (map fst h) -> keeping h (UCall (Unlock 0) (fun _ => worker 0 r)).
  Lemma keeping_keeps : keeps keeping.
  Proof.
    intros h u K. destruct K as [h v0|h v|h js|h f r a IA|h v r a IA|h r IM].
    - intros v. constructor.
    - exact Logic.I.
    - destruct js as [|[[|] f] r]; [rewrite worker_nil; exact Logic.I|rewrite worker_try|rewrite worker_lock].
      + split; [intros a; apply k_load; left; reflexivity|]. unfold after_try. constructor.
      + intros a. apply k_load. left. reflexivity.
    - unfold section. split; [apply (in_map snd) in IA; exact IA|]. intros v. constructor. exact IA.
    - split; [apply (in_map snd) in IA; exact IA|]. constructor. apply (in_map fst) in IA. exact IA.
    - split; [exact IM|]. intros v. constructor.
  Qed.
  Lemma team_disciplined (v0 : val) (jobs : list (list job)) : Forall (disciplined (T:=T)) (team v0 jobs).
  Proof.
    apply Forall_forall. intros u [<-|IU]; [exists keeping; split; [apply keeping_keeps|constructor]|].
    apply in_map_iff in IU. destruct IU as (js & <- & _). exists keeping. split; [apply keeping_keeps|constructor].
  Qed.
End Work.
