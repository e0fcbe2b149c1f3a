(** MutexCopyProofs.v -- proofs for C109. *)
From Verif Require Import Base BaseLemmas MutexCopyModel MutexCopySpec.

Section Proofs.
  Context {T : Type}.
  Notation history := (list (nat * op T * answer T)).
  Implicit Types (h : history) (s : state T).

  (** The pointers are the numbers of the mutexes. *)
  Definition named s (acc : list nat) (made : nat) : Prop := map fst (vars s) = acc /\ length (mem s) = made.
  Definition next (am : list nat * nat) (o : op T) : list nat * nat :=
    match o with
    | New _ => (fst am ++ [snd am], S (snd am))
    | Copy v => (fst am ++ [nth v (fst am) 0], snd am)
    | _ => am
    end.
  Lemma mutexes_cons : forall acc made t o r h,
    mutexes acc made ((t, o, r) :: h) = mutexes (fst (next (acc, made) o)) (snd (next (acc, made) o)) h.
  Proof. intros. destruct o; reflexivity. Qed.
  Lemma mutexes_app : forall h1 h2 acc made, exists am, mutexes acc made (h1 ++ h2) = mutexes (fst am) (snd am) h2
    /\ mutexes acc made h1 = fst am.
  Proof.
    induction h1 as [|[[t o] r] h1 IH]; intros h2 acc made.
    - exists (acc, made). auto.
    - cbn [app]. rewrite !mutexes_cons. apply IH.
  Qed.
  Lemma mutexes_more : forall h acc made, exists l, mutexes acc made h = acc ++ l.
  Proof.
    induction h as [|[[t o] r] h IH]; intros acc made; [exists []; now rewrite app_nil_r|].
    rewrite mutexes_cons. destruct (IH (fst (next (acc, made) o)) (snd (next (acc, made) o))) as (l & ->).
    destruct o; cbn [next fst snd]; eauto; rewrite <- app_assoc; eauto.
  Qed.

  Lemma list_set_map_fst : forall (l : list (nat * bool)) v a b b', nth_error l v = Some (a, b) -> map fst (list_set l v (a, b')) = map fst l.
  Proof.
    induction l as [|x l IH]; intros [|v] a b b' E; cbn in *; try discriminate; auto.
    - now injection E as ->.
    - f_equal. eapply IH; eauto.
  Qed.
  Lemma step_named : forall s am o s' r, named s (fst am) (snd am) -> step s o = Some (s', r) ->
    named s' (fst (next am o)) (snd (next am o)).
  Proof.
    intros s [acc made] o s' r [N1 N2]. cbn [fst snd] in *. unfold step, named. destruct o; cbn [next fst snd].
    - intros [= <- <-]. cbn [vars mem]. rewrite map_app, N1, app_length, N2. cbn. split; [reflexivity|lia].
    - destruct (nth_error (vars s) v) as [[a b]|] eqn:E; [|discriminate]. intros [= <- <-]. cbn [vars mem].
      rewrite map_app, N1. split; [|exact N2]. f_equal. cbn. f_equal. subst acc. symmetry.
      rewrite nth_indep with (d' := fst (0, false)) by (rewrite map_length; apply nth_error_Some; congruence).
      rewrite map_nth. erewrite nth_error_nth; eauto. reflexivity.
    - destruct (nth_error (vars s) v) as [[a [|]]|] eqn:E; try discriminate. intros [= <- <-]. cbn [vars mem].
      rewrite (list_set_map_fst _ _ _ _ _ E). auto.
    - destruct (nth_error (vars s) v) as [[a [|]]|] eqn:E; try discriminate; intros [= <- <-]; cbn [vars mem]; [auto|].
      rewrite (list_set_map_fst _ _ _ _ _ E). auto.
    - destruct (nth_error (vars s) v) as [[a [|]]|] eqn:E; try discriminate. intros [= <- <-]. cbn [vars mem].
      rewrite (list_set_map_fst _ _ _ _ _ E). auto.
    - destruct (nth_error (mem s) a); [|discriminate]. intros [= <- <-]. auto.
    - destruct (a <? length (mem s)); [|discriminate]. intros [= <- <-]. cbn [vars mem]. rewrite list_set_length. auto.
  Qed.
  (** Splitting a history. *)
  Lemma run_app : forall h1 h2 s am l, run s (h1 ++ h2) -> named s (fst am) (snd am) ->
    exists s' am', run s' h2 /\ named s' (fst am') (snd am') /\ mutexes (fst am) (snd am) h1 = fst am' /\ run s h1 /\
      mutexes (fst am) (snd am) (h1 ++ h2) = mutexes (fst am') (snd am') h2 /\
      forall (P : state T -> list (nat * nat) -> Prop),
        (forall s t o r s' l, P s l -> step s o = Some (s', r) -> match o with Unlock v => In (t, v) l | _ => True end ->
           P s' (inside_after l (t, o, r))) ->
        P s l -> disciplined l h1 -> P s' (fold_left inside_after h1 l).
  Proof.
    induction h1 as [|[[t o] r] h1 IH]; intros h2 s am l R N.
    - exists s, am. cbn. auto 10.
    - cbn [app run] in R. destruct R as (s1 & E & R). destruct (IH h2 s1 (next am o) (inside_after l (t, o, r)) R) as (s' & am' & A & B & C & D & F & G).
      { eapply step_named; eauto. }
      exists s', am'. split; [exact A|]. split; [exact B|]. destruct am as [acc made]. cbn [app]. rewrite !mutexes_cons.
      split; [exact C|]. split; [exists s1; auto|]. split; [exact F|].
      intros P St Ps [Di Ds]. cbn [fold_left]. apply G; auto. eapply St; eauto.
  Qed.
  Lemma disciplined_app : forall h1 h2 l, disciplined l (h1 ++ h2) -> disciplined l h1 /\ disciplined (fold_left inside_after h1 l) h2.
  Proof.
    induction h1 as [|[[t o] r] h1 IH]; intros h2 l D; [cbn; auto|]. cbn [app disciplined] in D. destruct D as [D1 D2].
    cbn [disciplined fold_left]. destruct (IH _ _ D2). auto.
  Qed.

  (** Nobody is inside twice or together with somebody else through one variable, and the
      variables somebody is inside of are locked. *)
  Definition sound s (l : list (nat * nat)) : Prop :=
    NoDup (map snd l) /\ forall t v, In (t, v) l -> exists a, nth_error (vars s) v = Some (a, true).
  Lemma NoDup_filter_snd : forall (f : nat * nat -> bool) l, NoDup (map snd l) -> NoDup (map snd (filter f l)).
  Proof.
    induction l as [|x l IH]; cbn; [auto|]. inversion 1; subst. destruct (f x); cbn; auto. constructor; auto.
    intros I. apply H2. apply in_map_iff in I. destruct I as (y & E & I). apply filter_In in I. rewrite <- E. now apply in_map.
  Qed.
  Lemma set_other : forall (l : list (nat * bool)) v w x, v <> w -> nth_error (list_set l v x) w = nth_error l w.
  Proof. intros. apply nth_error_list_set_neq. auto. Qed.
  Lemma step_sound : forall s t o r s' l, sound s l -> step s o = Some (s', r) ->
    match o with Unlock v => In (t, v) l | _ => True end -> sound s' (inside_after l (t, o, r)).
  Proof.
    intros s t o r s' l [N L] E D.
    assert (Grow : forall m, sound (mkState (vars s ++ [m]) (mem s)) l).
    { intros m. split; [exact N|]. intros u v I. destruct (L u v I) as (a & Ea). exists a. cbn [vars].
      rewrite nth_error_app1; [exact Ea|]. apply nth_error_Some. congruence. }
    assert (Take : forall v a, nth_error (vars s) v = Some (a, false) -> sound (mkState (list_set (vars s) v (a, true)) (mem s)) ((t, v) :: l)).
    { intros v a Ea. split.
      - cbn. constructor; [|exact N]. intros I. apply in_map_iff in I. destruct I as ([u w] & <- & I). destruct (L u w I). cbn [snd] in *. congruence.
      - intros u w [[= <- <-]|I]; cbn [vars].
        + exists a. apply nth_error_list_set_eq. apply nth_error_Some. congruence.
        + destruct (L u w I) as (a' & Ea'). exists a'. rewrite set_other; [exact Ea'|]. intros ->. congruence. }
    destruct o; cbn [step] in E.
    - injection E as <- <-. cbn [inside_after]. destruct (Grow (length (mem s), false)) as [G1 G2]. split; [exact G1|exact G2].
    - destruct (nth_error (vars s) v); [|discriminate]. injection E as <- <-. apply Grow.
    - destruct (nth_error (vars s) v) as [[a [|]]|] eqn:Ea; try discriminate. injection E as <- <-. now apply Take.
    - destruct (nth_error (vars s) v) as [[a [|]]|] eqn:Ea; try discriminate; injection E as <- <-; cbn [inside_after]; [split; auto|]. now apply Take.
    - destruct (nth_error (vars s) v) as [[a [|]]|] eqn:Ea; try discriminate. injection E as <- <-. cbn [inside_after]. split.
      + now apply NoDup_filter_snd.
      + intros u w I. apply filter_In in I. destruct I as [I Ne]. cbn [fst snd] in Ne.
        destruct (L u w I) as (a' & Ea'). exists a'. cbn [vars]. rewrite set_other; [exact Ea'|]. intros ->.
        assert (u = t).
        { clear - N I D. induction l as [|[x y] l IH]; [destruct I|]. cbn in N. inversion N; subst.
          destruct I as [E1|I], D as [E2|D]; try congruence.
          - exfalso. apply H1. apply in_map_iff. exists (t, w). split; [cbn; congruence|auto].
          - exfalso. apply H1. apply in_map_iff. exists (u, w). split; [cbn; congruence|auto].
          - auto. }
        subst. rewrite !Nat.eqb_refl in Ne. discriminate.
    - destruct (nth_error (mem s) a); [|discriminate]. injection E as <- <-. split; auto.
    - destruct (a <? length (mem s)); [|discriminate]. injection E as <- <-. split; auto.
  Qed.
  Lemma reach : forall h, run nothing h -> disciplined [] h -> exists s, map fst (vars s) = mutexes [] 0 h /\ sound s (inside h).
  Proof.
    intros h R D. destruct (run_app h [] nothing ([], 0) []) as (s & am & A & [B1 B2] & C & _ & _ & G).
    - now rewrite app_nil_r.
    - split; reflexivity.
    - exists s. cbn [fst snd] in C. rewrite C. split; [exact B1|]. apply (G sound); auto.
      + intros. eapply step_sound; eauto.
      + split; [constructor|intros ? ? []].
  Qed.

  Lemma count_positions : forall (acc : list nat) m,
    length (filter (fun v => match nth_error acc v with Some m' => m' =? m | None => false end) (seq 0 (length acc))) = count_occ Nat.eq_dec acc m.
  Proof.
    intros acc m. induction acc as [|x acc IH] using rev_ind; [reflexivity|].
    rewrite app_length. cbn [length]. rewrite Nat.add_1_r, seq_S, filter_app, app_length, count_occ_app. f_equal.
    - rewrite <- IH. f_equal. apply filter_ext_in. intros v I. apply in_seq in I. rewrite nth_error_app1 by lia. reflexivity.
    - cbn [filter Nat.add]. rewrite nth_error_app2, Nat.sub_diag by lia. cbn [nth_error count_occ].
      destruct (Nat.eqb_spec x m), (Nat.eq_dec x m); try lia; reflexivity.
  Qed.
  Lemma crowd_copies : forall h m, run nothing h -> disciplined [] h -> crowd h m <= copies h m.
  Proof.
    intros h m R D. destruct (reach h R D) as (s & E & N & L). unfold crowd, copies, mutex_of.
    rewrite <- (count_positions _ m), <- (map_length snd).
    apply NoDup_incl_length; [now apply NoDup_filter_snd|]. intros v I. apply in_map_iff in I. destruct I as ([t w] & <- & I).
    apply filter_In in I. destruct I as [I Hm]. cbn [snd] in *. apply filter_In. split; [|exact Hm].
    apply in_seq. split; [lia|]. cbn [Nat.add]. apply nth_error_Some. destruct (nth_error (mutexes [] 0 h) w); [discriminate|discriminate Hm].
  Qed.
  Lemma alone : forall h m t1 v1 t2 v2, run nothing h -> disciplined [] h -> copies h m <= 1 ->
    In (t1, v1) (inside h) -> In (t2, v2) (inside h) -> mutex_of h v1 = Some m -> mutex_of h v2 = Some m -> t1 = t2 /\ v1 = v2.
  Proof.
    intros h m t1 v1 t2 v2 R D C I1 I2 M1 M2. pose proof (crowd_copies h m R D) as B. unfold crowd in B.
    set (F := filter _ (inside h)) in B.
    assert (J1 : In (t1, v1) F) by (apply filter_In; split; [exact I1|]; cbn [snd]; rewrite M1; apply Nat.eqb_refl).
    assert (J2 : In (t2, v2) F) by (apply filter_In; split; [exact I2|]; cbn [snd]; rewrite M2; apply Nat.eqb_refl).
    destruct F as [|x [|y F]]; [destruct J1| |cbn in B; lia].
    destruct J1 as [-> |[]], J2 as [E|[]]. injection E as -> ->. auto.
  Qed.
  Lemma same_variable : forall h t1 t2 v, run nothing h -> disciplined [] h -> In (t1, v) (inside h) -> In (t2, v) (inside h) -> t1 = t2.
  Proof.
    intros h t1 t2 v R D I1 I2. destruct (reach h R D) as (s & _ & N & _). clear - N I1 I2.
    induction (inside h) as [|[x y] l IH]; [destruct I1|]. cbn in N. inversion N; subst.
    destruct I1 as [E1|I1], I2 as [E2|I2]; try congruence; [| |auto]; exfalso; apply H1; apply in_map_iff;
      [exists (t2, v)|exists (t1, v)]; (split; [cbn; congruence|auto]).
  Qed.
  Lemma pointers : forall h1 h2 t o r v a, run nothing (h1 ++ (t, o, r) :: h2) -> o = Lock v \/ o = TryLock v -> r = Ptr a ->
    mutex_of h1 v = Some a.
  Proof.
    intros h1 h2 t o r v a R O ->. destruct (run_app h1 _ nothing ([], 0) [] R) as (s & am & A & [B1 B2] & C & _); [split; reflexivity|].
    cbn [fst snd] in C. unfold mutex_of. rewrite C, <- B1, nth_error_map. destruct A as (s' & E & _).
    destruct O as [-> | ->]; cbn [step] in E; destruct (nth_error (vars s) v) as [[a' [|]]|]; try discriminate; cbn; congruence.
  Qed.

  (** A variable that is locked with nobody inside stays so. *)
  Definition frozen (w : nat) s (l : list (nat * nat)) : Prop :=
    (exists a, nth_error (vars s) w = Some (a, true)) /\ forall t, ~ In (t, w) l.
  Lemma step_frozen : forall w s t o r s' l, frozen w s l -> step s o = Some (s', r) ->
    match o with Unlock v => In (t, v) l | _ => True end -> frozen w s' (inside_after l (t, o, r)) /\ o <> Lock w /\ (o = TryLock w -> r = Err).
  Proof.
    intros w s t o r s' l [(a & Ea) F] E D.
    assert (Grow : forall m mm, frozen w (mkState (vars s ++ [m]) mm) l).
    { intros m mm. split; [|exact F]. exists a. cbn [vars]. rewrite nth_error_app1; [exact Ea|]. apply nth_error_Some. congruence. }
    assert (Keep : forall v x l', v <> w -> (forall t, ~ In (t, w) l') -> frozen w (mkState (list_set (vars s) v x) (mem s)) l').
    { intros v x l' Ne F'. split; [|exact F']. exists a. cbn [vars]. now rewrite set_other. }
    destruct o; cbn [step] in E.
    - injection E as <- <-. cbn [inside_after]. split; [apply Grow|]. split; discriminate.
    - destruct (nth_error (vars s) v); [|discriminate]. injection E as <- <-. split; [apply Grow|]. split; discriminate.
    - destruct (nth_error (vars s) v) as [[a' [|]]|] eqn:Ev; try discriminate. injection E as <- <-.
      assert (v <> w) by (intros ->; congruence). split; [|split; [congruence|discriminate]].
      apply Keep; auto. cbn [inside_after]. intros u [[= -> ->]|I]; [congruence|]. eapply F; eauto.
    - destruct (nth_error (vars s) v) as [[a' [|]]|] eqn:Ev; try discriminate; injection E as <- <-.
      + split; [split; [eauto|exact F]|]. split; [discriminate|reflexivity].
      + assert (v <> w) by (intros ->; congruence). split; [|split; [discriminate|congruence]].
        apply Keep; auto. cbn [inside_after]. intros u [[= -> ->]|I]; [congruence|]. eapply F; eauto.
    - destruct (nth_error (vars s) v) as [[a' [|]]|] eqn:Ev; try discriminate. injection E as <- <-.
      assert (v <> w) by (intros ->; eapply F; eauto). split; [|split; discriminate]. apply Keep; auto.
      intros u I. cbn [inside_after] in I. apply filter_In in I. eapply F, I.
    - destruct (nth_error (mem s) a0); [|discriminate]. injection E as <- <-. split; [split; eauto|]. split; discriminate.
    - destruct (a0 <? length (mem s)); [|discriminate]. injection E as <- <-. split; [split; eauto|]. split; discriminate.
  Qed.
  Lemma frozen_for_ever : forall w h s l, frozen w s l -> run s h -> disciplined l h ->
    (forall t, ~ In (t, w) (fold_left inside_after h l)) /\ forall t o r, In (t, o, r) h -> o <> Lock w /\ (o = TryLock w -> r = Err).
  Proof.
    intros w. induction h as [|[[t o] r] h IH]; intros s l F R D.
    - split; [apply F|intros ? ? ? []].
    - destruct R as (s' & E & R). destruct D as [D1 D2]. destruct (step_frozen w s t o r s' l F E D1) as [F' A].
      destruct (IH s' _ F' R D2) as [B C]. split; [exact B|]. intros t' o' r' [[= <- <- <-]|I]; [exact A|]. eapply C; eauto.
  Qed.
  Lemma copy_held : forall h1 t v w h2 u, run nothing (h1 ++ (t, Copy v, Var w) :: h2) -> disciplined [] (h1 ++ (t, Copy v, Var w) :: h2) ->
    In (u, v) (inside h1) ->
    (forall t', ~ In (t', w) (inside (h1 ++ (t, Copy v, Var w) :: h2))) /\
    forall t' o r, In (t', o, r) h2 -> o <> Lock w /\ (o = TryLock w -> r = Err).
  Proof.
    intros h1 t v w h2 u R D I. destruct (disciplined_app _ _ _ D) as [D1 [_ D2]].
    destruct (run_app h1 _ nothing ([], 0) [] R) as (s & am & A & [B1 B2] & C & _ & _ & G); [split; reflexivity|].
    assert (S : sound s (inside h1)).
    { apply (G sound); auto; [intros; eapply step_sound; eauto|]. split; [constructor|intros ? ? []]. }
    destruct S as [N L]. destruct (L _ _ I) as (a & Ea). destruct A as (s' & E & R').
    cbn [step] in E. rewrite Ea in E. injection E as <- <-.
    assert (F : frozen (length (vars s)) (mkState (vars s ++ [(a, true)]) (mem s)) (inside h1)).
    { split.
      - exists a. cbn [vars]. rewrite nth_error_app2, Nat.sub_diag by lia. reflexivity.
      - intros t' I'. destruct (L _ _ I') as (b & Eb). assert (length (vars s) < length (vars s)) by (apply nth_error_Some; congruence). lia. }
    destruct (frozen_for_ever _ h2 _ _ F R' D2) as [X Y]. split; [|exact Y].
    unfold inside at 1. rewrite fold_left_app. cbn [fold_left inside_after]. exact X.
  Qed.

  (** The bound is reached. *)
  Fixpoint copying (i n : nat) : history :=
    match n with
    | O => []
    | S n => (0, Copy 0, Var i) :: (i, Lock i, Ptr 0) :: copying (S i) n
    end.
  Lemma copying_run : forall n i x h, run (mkState ((0, false) :: repeat (0, true) (i + n)) [x]) h ->
    run (mkState ((0, false) :: repeat (0, true) i) [x]) (copying (S i) n ++ h).
  Proof.
    induction n as [|n IH]; intros i x h R.
    - rewrite Nat.add_0_r in R. exact R.
    - cbn [copying app run]. eexists. split; [cbn [step vars nth_error length mem]; rewrite repeat_length; reflexivity|].
      eexists. split.
      + cbn [step vars mem nth_error app]. rewrite nth_error_app2 by (rewrite repeat_length; lia). rewrite repeat_length, Nat.sub_diag. cbn [nth_error].
        cbn [list_set]. rewrite list_set_app2 by (rewrite repeat_length; lia). rewrite repeat_length, Nat.sub_diag. reflexivity.
      + cbn [list_set]. change [(0, true)] with (repeat (0, true) 1). rewrite <- repeat_app, Nat.add_1_r.
        apply (IH (S i) x). now rewrite Nat.add_succ_r in R.
  Qed.
  Lemma copying_inside : forall n i l, fold_left inside_after (copying i n) l = rev (map (fun k => (k, k)) (seq i n)) ++ l.
  Proof.
    induction n as [|n IH]; intros i l; [reflexivity|]. cbn [copying fold_left inside_after seq map rev]. rewrite IH, <- app_assoc. reflexivity.
  Qed.
  Lemma copying_disciplined : forall n i l h, disciplined (fold_left inside_after (copying i n) l) h -> disciplined l (copying i n ++ h).
  Proof. induction n as [|n IH]; intros i l h D; [exact D|]. cbn [copying app disciplined]. repeat split. apply IH. exact D. Qed.
  Lemma copying_mutexes : forall n i h k, mutexes (repeat 0 (S k)) 1 (copying i n ++ h) = mutexes (repeat 0 (S k + n)) 1 h.
  Proof.
    induction n as [|n IH]; intros i h k; [now rewrite Nat.add_0_r|]. cbn [copying app mutexes repeat nth].
    change (0 :: repeat 0 k ++ [0]) with ((0 :: repeat 0 k) ++ [0]). change (0 :: repeat 0 k) with (repeat 0 (S k)).
    change [0] with (repeat 0 1). rewrite <- repeat_app, Nat.add_1_r. rewrite IH. f_equal. f_equal. lia.
  Qed.
  Lemma crowded : forall (x : T) n, exists h, run nothing h /\ disciplined [] h /\ crowd h 0 = S n /\ copies h 0 = S n.
  Proof.
    intros x n. set (last := [(0, Lock 0, Ptr 0)] : history). exists ((0, New x, Var 0) :: copying 1 n ++ last).
    set (h := (0, New x, Var 0) :: copying 1 n ++ last).
    assert (M : mutexes [] 0 h = repeat 0 (S n)).
    { unfold h. cbn [mutexes app]. change [0] with (repeat 0 1). rewrite (copying_mutexes n 1 last 0). unfold last. reflexivity. }
    assert (In_ : inside h = (0, 0) :: rev (map (fun k => (k, k)) (seq 1 n))).
    { unfold inside, h. cbn [fold_left inside_after]. rewrite fold_left_app, copying_inside, app_nil_r. reflexivity. }
    split; [|split; [|split]].
    - cbn [run h]. eexists. split; [reflexivity|]. cbn [vars mem nothing app length].
      apply (copying_run n 0 x last). cbn. eexists. split; reflexivity.
    - unfold h. cbn [disciplined]. split; [exact I|]. cbn [inside_after]. apply copying_disciplined. cbn. auto.
    - unfold crowd. rewrite In_.
      assert (A : forall l : list (nat * nat), (forall p, In p l -> snd p < S n) -> filter (fun p => match mutex_of h (snd p) with Some m' => m' =? 0 | None => false end) l = l).
      { clear In_. induction l as [|p l IH]; intros H; [reflexivity|]. cbn [filter]. unfold mutex_of at 1. rewrite M.
        rewrite nth_error_repeat by (apply H; now left). cbn [Nat.eqb]. f_equal. apply IH. intros q Hq. apply H. now right. }
      rewrite A.
      + cbn [length]. now rewrite rev_length, map_length, seq_length.
      + intros p [<-|I]; [cbn; lia|]. apply in_rev in I. apply in_map_iff in I. destruct I as (k & <- & I). apply in_seq in I. cbn. lia.
    - unfold copies. rewrite M. generalize (S n). intros k. induction k; cbn; auto.
  Qed.
End Proofs.
