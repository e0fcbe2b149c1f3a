(** ReenterProofs.v -- closures that use the container. *)
From Verif Require Import Base BaseLemmas Effect VecSpec VecModel VecHistory VecProofs IterShareSpec IterShareModel IterShareProofs.
From Verif Require Import ReenterSpec ReenterModel.
Local Open Scope nat_scope.

(** What programs reach. *)
Lemma reached_separate : forall T (zero : T) extra eqb deq clone ops w a,
  run zero extra eqb deq clone ([], []) ops = Ret (w, a) -> separate w.
Proof.
  intros T zero extra eqb deq clone ops w a E. pose proof (run_history zero extra eqb deq clone ops ([], [])) as H.
  specialize (H ltac:(split; constructor)). destruct (history _ _ _ _ _ _) as [[s l]|]; [|congruence].
  destruct H as (w' & E' & Sp & _). congruence.
Qed.

Section Vec.
  Context {T S : Type}.
  Variable zero : T.
  Variable extra : nat -> nat -> nat.
  Variable eqb deq : T -> T -> bool.
  Variable clone : T -> T.
  Notation mem := (mem T).
  Notation exec := (exec zero extra eqb deq clone).
  Notation step := (step zero eqb deq clone).
  Notation vdo := (vdo zero eqb deq clone).
  Notation vbody := (body (@op T) (@answer T)).
  Notation vperform := (vperform zero extra eqb deq clone).
  Notation careful := (careful zero eqb deq clone).
  Notation vaccepted := (vaccepted (S := S) zero eqb deq clone).
  Notation always_careful := (always_careful (S := S) zero eqb deq clone).
  Notation vretain_loop := (vretain_loop (S := S) zero extra eqb deq clone).

  (** The variables, and a local variable [n] of which the closure knows nothing. *)
  Lemma step_length : forall s o s' a, step s o = Some (s', a) -> length s <= length s'.
  Proof.
    intros s o s' a E.
    assert (P : forall v l (x : list T), nth_error s v = Some l -> length (put s v x) = length s).
    { intros v l x H. assert (v < length s) by (apply nth_error_Some; congruence). rewrite put_list_set by auto. apply list_set_length. }
    destruct o; cbn [VecSpec.step] in E;
      repeat match type of E with
      | context [match nth_error s ?v with _ => _ end] => destruct (nth_error s v) eqn:?
      | context [match ?x with _ => _ end] => destruct x eqn:?
      end; try discriminate; injection E as <- <-; try (rewrite app_length; lia); try (erewrite P by eassumption; lia); auto.
    destruct (Nat.eq_dec w v) as [->|N].
    - rewrite put_list_set, list_set_length; [erewrite P by eassumption; lia|]. erewrite P by eassumption. apply nth_error_Some. congruence.
    - rewrite put_list_set, list_set_length; [erewrite P by eassumption; lia|]. erewrite P by eassumption. apply nth_error_Some. congruence.
  Qed.
  Lemma separate_front : forall m (vs : list slice) n, separate (T := T) (m, vs ++ [n]) -> separate (m, vs) /\ valid m n /\ forall u s, nth_error vs u = Some s -> arr s <> arr n.
  Proof.
    intros m vs n [F N]. cbn [fst snd] in *. apply Forall_app in F as [F1 F2]. inversion F2; subst. rewrite map_app in N. cbn [map] in N.
    split; [split; [exact F1|]|split; [auto|]].
    - cbn [snd]. apply NoDup_remove_1 in N. now rewrite app_nil_r in N.
    - intros u s E Q. apply NoDup_remove_2 in N. apply N. rewrite app_nil_r, <- Q. apply in_map. eapply nth_error_In; eauto.
  Qed.
  Lemma separate_back : forall m (vs : list slice) n, separate (T := T) (m, vs) -> valid m n -> (forall u s, nth_error vs u = Some s -> arr s <> arr n) -> separate (m, vs ++ [n]).
  Proof.
    intros m vs n [F N] V D. cbn [fst snd] in *. split; cbn [fst snd].
    - apply Forall_app. auto.
    - rewrite map_app. cbn [map]. apply NoDup_snoc; auto. intros H. apply in_map_iff in H as (s & E & I). apply In_nth_error in I as (u & I). eapply D; eauto.
  Qed.
  Definition watch (v n : nat) (on : bool) : list (nat * nat) := if on then [(v, n)] else [].
  Lemma exec_local : forall m vs o m' vs' a n, separate (m, vs ++ [n]) -> exec (m, vs) o = Ret ((m', vs'), a) -> separate (m', vs') ->
    separate (m', vs' ++ [n]) /\ contents m' n = contents m n /\ length m <= length m' /\
    forall b, length (nth b m []) <= length (nth b m' []) \/ length m <= b.
  Proof.
    intros m vs o m' vs' a n Sp E Sp'. apply separate_front in Sp as (S1 & V & D).
    destruct (exec_frame zero extra eqb deq clone m vs o m' vs' a (arr n) (slen n) S1 E (proj1 V)) as (F1 & F2 & F3 & F4).
    { intros v s Hv Ea. elim (D v s Hv Ea). }
    destruct (contents_frame m m' n V F1 F2 F3) as [V' C']. split; [|split; [exact C'|split; [exact F1|]]].
    - apply separate_back; auto. intros u s Hu Ea. destruct (F4 u s Hu Ea) as (s0 & Hs & As & _). exact (D u s0 Hs As).
    - intros b. destruct (Nat.lt_ge_cases b (length m)) as [Hb|]; auto. left.
      destruct (exec_frame zero extra eqb deq clone m vs o m' vs' a b 0 S1 E Hb) as (_ & _ & G & _); [|lia].
      intros v s _ _. apply disturbs_0.
  Qed.
  Lemma vperform_spec : forall A (p : vbody A) m vs n old, separate (m, vs ++ [n]) -> valid m old -> arr old <> arr n ->
    match vdo p (view (m, vs)) with
    | Some (a, s') => exists m' vs', vperform p (m, vs) = Ret (a, (m', vs')) /\ view (m', vs') = s' /\
        separate (m', vs' ++ [n]) /\ contents m' n = contents m n /\ valid m' old /\ length (view (m, vs)) <= length s' /\
        forall v on l, tracks (m, vs) (watch v (slen old) on) (mkVIter old 0) (l, 0) ->
          match careful v (slen old) p (view (m, vs)) on with
          | Some on' => tracks (m', vs') (watch v (slen old) on') (mkVIter old 0) (l, 0)
          | None => True
          end
    | None => vperform p (m, vs) = Panic
    end.
  Proof.
    intros A p. induction p as [a|o k IH]; intros m vs n old Sp V D; cbn [ReenterSpec.vdo ReenterModel.vperform ReenterSpec.careful].
    - exists m, vs. repeat (split; auto).
    - pose proof (separate_front _ _ _ Sp) as (S1 & _). pose proof (exec_step zero extra eqb deq clone (m, vs) o S1) as X.
      destruct (step (view (m, vs)) o) as [[s1 r]|] eqn:St; [|rewrite X; reflexivity].
      destruct X as ([m1 vs1] & E & S2 & V1). rewrite E. cbn [bind fst snd].
      destruct (exec_local _ _ _ _ _ _ _ Sp E S2) as (S3 & C3 & L3 & G3).
      assert (V' : valid m1 old).
      { destruct V as [Va Vb]. split; [lia|]. unfold scap, array in *. destruct (G3 (arr old)); lia. }
      specialize (IH r m1 vs1 n old S3 V' D). rewrite V1 in IH. destruct (vdo (k r) s1) as [[a s']|]; [|exact IH].
      destruct IH as (m' & vs' & E' & W' & S' & C' & Vo & Ln & Tr). exists m', vs'. split; [exact E'|]. split; [exact W'|]. split; [exact S'|].
      split; [congruence|]. split; [exact Vo|]. split; [pose proof (step_length _ _ _ _ St); lia|].
      intros v on l Tk. destruct (on && disturbs (view (m, vs)) v (slen old) o) eqn:Di; [exact I|]. apply Tr.
      replace (watch v (slen old) (on && negb (leaves v o))) with (filter (fun w => negb (leaves (fst w) o)) (watch v (slen old) on)).
      2:{ unfold watch. destruct on; [|reflexivity]. cbn [filter fst andb]. destruct (leaves v o); reflexivity. }
      eapply tracks_step; [exact S1|exact E| |exact Tk]. intros u k0 Hu. unfold watch in Hu. destruct on; [|destruct Hu].
      destruct Hu as [[= <- <-]|[]]. exact Di.
  Qed.
  Lemma tracks_pos : forall (w : world (T := T)) ws old l, tracks w ws (mkVIter old 0) (l, 0) <-> valid (fst w) old /\ contents (fst w) old = l /\
    (forall v s, nth_error (snd w) v = Some s -> arr s = arr old -> In (v, slen old) ws).
  Proof. intros. unfold tracks. cbn [ivec ipos fst snd]. intuition. Qed.
  Lemma append_local : forall m vs n x, separate (T := T) (m, vs ++ [n]) -> let (m', n') := append zero extra m n [x] in
    separate (m', vs ++ [n']) /\ view (m', vs) = view (m, vs) /\ contents m' n' = contents m n ++ [x] /\
    (forall old, valid m old -> arr old <> arr n -> valid m' old /\ arr old <> arr n' /\ contents m' old = contents m old).
  Proof.
    intros m vs n x Sp. pose proof (separate_front _ _ _ Sp) as (S1 & V & D). pose proof (append_spec zero extra m n [x] V) as A.
    destruct (append zero extra m n [x]) as [m' n']. destruct A as (L & C & _).
    assert (Hn : nth_error (vs ++ [n]) (length vs) = Some n) by (rewrite nth_error_app2, Nat.sub_diag by lia; reflexivity).
    destruct (update_separate m (vs ++ [n]) (length vs) n m' n' Sp Hn L) as [S2 V2].
    assert (Q : forall A (l : list A) a b, list_set (l ++ [a]) (length l) b = l ++ [b]) by (clear; induction l; cbn; intros; congruence).
    rewrite Q in S2, V2. split; [exact S2|]. split.
    - unfold view in *. cbn [fst snd] in *. rewrite !map_app in V2. cbn [map] in V2. replace (length vs) with (length (map (contents m) vs)) in V2 by apply map_length. rewrite Q in V2.
      now apply app_inv_tail in V2.
    - split; [exact C|]. intros old [Vo1 Vo2] Do. destruct L as (_ & L2 & L3 & L4). unfold valid, contents, scap, array in *. rewrite L4 by auto.
      split; [lia|]. split; [lia|reflexivity].
  Qed.
  Lemma vretain_loop_spec : forall f old k i st m vs n, i + k = slen old -> separate (m, vs ++ [n]) -> valid m old -> arr old <> arr n ->
    exists given, length given = k /\
      match vaccepted f st given (view (m, vs)) with
      | Some (st', kept, s') => exists m' vs' n', vretain_loop (seq i k) f st old (m, vs) n = Ret (st', (m', vs'), n') /\
          view (m', vs') = s' /\ separate (m', vs' ++ [n']) /\ contents m' n' = contents m n ++ kept /\ length (view (m, vs)) <= length s'
      | None => vretain_loop (seq i k) f st old (m, vs) n = Panic
      end /\
      forall v on l, tracks (m, vs) (watch v (slen old) on) (mkVIter old 0) (l, 0) ->
        always_careful v (slen old) f st (skipn i l) (view (m, vs)) on -> given = skipn i l.
  Proof.
    intros f old. induction k as [|k IH]; intros i st m vs n Hk Sp V D.
    - exists []. split; [reflexivity|]. split.
      + cbn. exists m, vs, n. rewrite app_nil_r. auto.
      + intros v on l Tk _. apply tracks_pos in Tk as (_ & C & _). cbn [fst] in C. symmetry. apply skipn_all2. rewrite <- C, contents_length by auto. lia.
    - cbn [seq ReenterModel.vretain_loop]. pose proof (contents_length m old V) as CL.
      destruct (nth_error (contents m old) i) as [x|] eqn:Nx; [|apply nth_error_None in Nx; lia]. cbn [fst]. rewrite (idx_nth_error _ _ _ Nx). cbn [bind].
      pose proof (vperform_spec _ (f st x) m vs n old Sp V D) as P. destruct (vdo (f st x) (view (m, vs))) as [[[b st1] s1]|] eqn:Do.
      2:{ exists (x :: skipn (i + 1) (contents m old)). split; [cbn [length]; rewrite skipn_length; lia|]. cbn [ReenterSpec.vaccepted]. rewrite Do, P. split; [reflexivity|].
          intros v on l Tk _. apply tracks_pos in Tk as (_ & C & _). cbn [fst] in C. subst l. rewrite (skipn_nth _ _ _ _ Nx). now rewrite Nat.add_1_r. }
      destruct P as (m1 & vs1 & E1 & W1 & S1 & C1 & V1 & L1 & T1). rewrite E1. cbn [bind snd fst].
      assert (Head : forall v on l, tracks (m, vs) (watch v (slen old) on) (mkVIter old 0) (l, 0) -> skipn i l = x :: skipn (Datatypes.S i) l).
      { intros v on l Tk. apply tracks_pos in Tk as (_ & C & _). cbn [fst] in C. subst l. exact (skipn_nth _ _ _ _ Nx). }
      destruct b.
      + pose proof (append_local m1 vs1 n x S1) as A. destruct (append zero extra m1 n [x]) as [m2 n2]. destruct A as (S2 & W2 & C2 & O2).
        destruct (O2 old V1 D) as (V2 & D2 & CO). destruct (IH (Datatypes.S i) st1 m2 vs1 n2) as (given & G1 & G2 & G3); auto; [lia|].
        exists (x :: given). split; [cbn; lia|]. split.
        * cbn [ReenterSpec.vaccepted]. rewrite Do. rewrite W2, W1 in G2. destruct (vaccepted f st1 given s1) as [[[st2 kept] s2]|]; [|exact G2].
          destruct G2 as (m3 & vs3 & n3 & E3 & W3 & S3 & C3 & L3). exists m3, vs3, n3. split; [exact E3|]. split; [exact W3|]. split; [exact S3|].
          split; [|lia]. rewrite C3, C2, C1, <- app_assoc. reflexivity.
        * intros v on l Tk Ca. rewrite (Head v on l Tk) in Ca |- *. cbn [ReenterSpec.always_careful] in Ca. specialize (T1 v on l Tk).
          destruct (careful v (slen old) (f st x) (view (m, vs)) on) as [on'|]; [|destruct Ca]. rewrite Do in Ca. f_equal. apply (G3 v on').
          { apply tracks_pos in T1 as (_ & TC & TW). apply tracks_pos. cbn [fst snd] in *. split; [exact V2|]. split; [congruence|exact TW]. }
          rewrite W2, W1. exact Ca.
      + destruct (IH (Datatypes.S i) st1 m1 vs1 n) as (given & G1 & G2 & G3); auto; [lia|].
        exists (x :: given). split; [cbn; lia|]. split.
        * cbn [ReenterSpec.vaccepted]. rewrite Do. rewrite W1 in G2. destruct (vaccepted f st1 given s1) as [[[st2 kept] s2]|]; [|exact G2].
          destruct G2 as (m3 & vs3 & n3 & E3 & W3 & S3 & C3 & L3). exists m3, vs3, n3. split; [exact E3|]. split; [exact W3|]. split; [exact S3|].
          split; [|lia]. now rewrite C3, C1.
        * intros v on l Tk Ca. rewrite (Head v on l Tk) in Ca |- *. cbn [ReenterSpec.always_careful] in Ca. specialize (T1 v on l Tk).
          destruct (careful v (slen old) (f st x) (view (m, vs)) on) as [on'|]; [|destruct Ca]. rewrite Do in Ca. f_equal. apply (G3 v on'); [exact T1|].
          rewrite W1. exact Ca.
  Qed.
  Notation Vec_Retain := (Vec_Retain (S := S) zero extra eqb deq clone).
  Notation vretained := (vretained (S := S) zero eqb deq clone).
  Theorem Vec_Retain_any : forall w v l f st, separate w -> nth_error (view w) v = Some l ->
    exists given, length given = length l /\ seen (Vec_Retain w v f st) = vretained f st v given (view w) /\
      (always_careful v (length l) f st l (view w) true -> given = l).
  Proof.
    intros [m vs] v l f st Sp Hv. unfold ReenterModel.Vec_Retain, var. cbn [fst snd].
    destruct (nth_error vs v) as [old|] eqn:Ho; [|rewrite (view_none m vs v Ho) in Hv; discriminate].
    rewrite (view_nth m vs v old Ho) in Hv. injection Hv as <-. cbn [of_option bind].
    assert (V : valid m old) by (destruct Sp as [F _]; cbn in F; rewrite Forall_forall in F; apply F; eapply nth_error_In; eauto).
    pose proof (make_cap_spec zero m (slen old)) as MC. destruct (make_cap zero m (slen old)) as [m1 n]. destruct MC as (Em & Ea & V1 & C1).
    assert (Fr : forall a, a < length m -> nth a m1 [] = nth a m []) by (intros a Ha; rewrite Em; now apply nth_app_fresh).
    assert (Lm : length m <= length m1) by (rewrite Em, app_length; lia).
    destruct (declare_separate m vs m1 n Sp Ea V1 Lm Fr) as [S1 W1].
    assert (W0 : view (m1, vs) = view (m, vs)).
    { unfold view in W1 |- *. cbn [fst snd] in *. rewrite map_app in W1. cbn [map] in W1. now apply app_inv_tail in W1. }
    assert (Vo : valid m1 old) by (destruct V; split; [lia|]; unfold scap, array in *; rewrite Fr by auto; auto).
    assert (Co : contents m1 old = contents m old) by (unfold contents, array; rewrite Fr by apply V; reflexivity).
    assert (Do : arr old <> arr n) by (rewrite Ea; destruct V; lia).
    destruct (vretain_loop_spec f old (slen old) 0 st m1 vs n) as (given & G1 & G2 & G3); auto.
    exists given. rewrite contents_length by auto. split; [exact G1|]. split.
    - unfold ReenterSpec.vretained. rewrite W0 in G2. destruct (vaccepted f st given (view (m, vs))) as [[[st2 kept] s2]|].
      + destruct G2 as (m2 & vs2 & n2 & E2 & W2 & S2 & C2 & L2). rewrite E2. cbn [bind fst snd seen]. unfold assign. f_equal. f_equal.
        unfold view at 1. cbn [fst snd]. rewrite VecProofs.map_list_set. rewrite C2, C1. cbn [app].
        change (map (contents m2) vs2) with (view (m2, vs2)). rewrite W2. symmetry. apply put_list_set.
        rewrite view_length in L2. assert (v < length vs) by (apply nth_error_Some; congruence). lia.
      + rewrite G2. reflexivity.
    - intros Ca. rewrite (G3 v true (contents m old)); [reflexivity| |rewrite W0; exact Ca].
      apply tracks_pos. cbn [fst snd]. split; [exact Vo|]. split; [exact Co|]. intros u t Hu Et. left. f_equal.
      destruct Sp as [_ Nd]. cbn [snd] in Nd. rewrite NoDup_nth_error in Nd. apply Nd.
      { rewrite map_length. apply nth_error_Some. congruence. }
      rewrite !nth_error_map, Ho, Hu. cbn. congruence.
  Qed.
  Lemma looking_same : forall A (p : vbody A) s a s', looking p -> vdo p s = Some (a, s') -> s' = s.
  Proof.
    intros A p. induction p as [x|o k IH]; intros s a s' L E; cbn [ReenterSpec.vdo looking] in *; [congruence|]. destruct L as [Lo Lk].
    destruct (step s o) as [[s1 r]|] eqn:St; [|discriminate]. apply IH in E; auto. subst s1.
    destruct o; try discriminate; cbn [VecSpec.step] in St;
      repeat match type of St with
      | context [match ?x with _ => _ end] => destruct x eqn:?
      end; congruence.
  Qed.
  Lemma looking_careful : forall A v n (p : vbody A) s on, looking p -> careful v n p s on <> None.
  Proof.
    intros A v n p. induction p as [x|o k IH]; intros s on L; cbn [ReenterSpec.careful looking] in *; [discriminate|]. destruct L as [Lo Lk].
    replace (on && disturbs s v n o) with false by (destruct o; try discriminate; cbn [disturbs]; now rewrite Bool.andb_false_r).
    destruct (step s o) as [[s1 r]|]; [|discriminate]. apply IH. auto.
  Qed.
  Lemma looking_always : forall B (f : S -> T -> vbody (B * S)) v n l st s on, (forall st x, looking (f st x)) -> always_careful v n f st l s on.
  Proof.
    intros B f v n. induction l as [|x l IH]; intros st s on L; cbn [ReenterSpec.always_careful]; auto.
    pose proof (looking_careful _ v n (f st x) s on (L st x)) as C. destruct (careful v n (f st x) s on) as [on'|]; [|congruence].
    destruct (vdo (f st x) s) as [[[b st'] s']|]; auto.
  Qed.
  Notation vfilling := (vfilling (S := S) zero eqb deq clone).
  Notation vfill_loop := (vfill_loop (S := S) zero extra eqb deq clone).
  Lemma vperform_sim : forall A (p : vbody A) w, separate w ->
    match vdo p (view w) with
    | Some (a, s') => exists w', vperform p w = Ret (a, w') /\ separate w' /\ view w' = s' /\ length (view w) <= length s'
    | None => vperform p w = Panic
    end.
  Proof.
    intros A p. induction p as [a|o k IH]; intros w Sp; cbn [ReenterSpec.vdo ReenterModel.vperform].
    - exists w. auto.
    - pose proof (exec_step zero extra eqb deq clone w o Sp) as X. destruct (step (view w) o) as [[s1 r]|] eqn:St; [|rewrite X; reflexivity].
      destruct X as (w1 & E & S1 & V1). rewrite E. cbn [bind fst snd]. specialize (IH r w1 S1). rewrite V1 in IH.
      destruct (vdo (k r) s1) as [[a s']|]; [|exact IH]. destruct IH as (w' & E' & S' & V' & L'). exists w'. split; [exact E'|]. split; [exact S'|].
      split; [exact V'|]. pose proof (step_length _ _ _ _ St). lia.
  Qed.
  Lemma var_view : forall (w : world (T := T)) v l, separate w -> nth_error (view w) v = Some l -> exists s, var w v = Ret s /\ slen s = length l /\ nth_error (snd w) v = Some s.
  Proof.
    intros [m vs] v l Sp Hv. unfold var. cbn [snd]. destruct (nth_error vs v) as [s|] eqn:Hs; [|rewrite (view_none m vs v Hs) in Hv; discriminate].
    rewrite (view_nth m vs v s Hs) in Hv. injection Hv as <-. exists s. split; [reflexivity|]. split; [|reflexivity]. symmetry. apply contents_length.
    destruct Sp as [F _]. cbn in F. rewrite Forall_forall in F. apply F. eapply nth_error_In; eauto.
  Qed.
  Lemma set_sim : forall (w : world (T := T)) v l i x, separate w -> nth_error (view w) v = Some l ->
    exists s, var w v = Ret s /\ slen s = length l /\
    if i <? length l then exists m, SetUnchecked (fst w) s i x = Ret m /\ separate (m, snd w) /\ view (m, snd w) = put (view w) v (seq_set l i x)
    else SetUnchecked (fst w) s i x = Panic.
  Proof.
    intros [m vs] v l i x Sp Hv. destruct (var_view _ _ _ Sp Hv) as (s & E & L & _). exists s. split; [exact E|]. split; [exact L|].
    pose proof (exec_step zero extra eqb deq clone (m, vs) (OSetUnchecked v i x) Sp) as X. cbn [VecSpec.step] in X. rewrite Hv in X.
    cbn [VecHistory.exec] in X. rewrite E in X. cbn [bind fst snd] in X |- *. destruct (i <? length l).
    - destruct X as (w' & E' & S' & V'). destruct (SetUnchecked m s i x) as [m'| |]; try discriminate. cbn [bind] in E'. injection E' as <-. eauto.
    - destruct (SetUnchecked m s i x) as [m'| |]; try discriminate. reflexivity.
  Qed.
  Definition outcome (r : out (S * world (T := T))) : option (option (S * vectors (T := T))) :=
    match r with Ret (st, w) => Some (Some (st, view w)) | Panic => Some None | Diverge => None end.
  Lemma still : forall (s s' : vectors (T := T)) v l, nth_error s v = Some l -> length s <= length s' -> exists l', nth_error s' v = Some l'.
  Proof.
    intros s s' v l H L. assert (v < length s) by (apply nth_error_Some; congruence). destruct (nth_error s' v) eqn:E; [eauto|].
    apply nth_error_None in E. lia.
  Qed.
  Lemma vfill_sound : forall f v fuel st i w r, separate w -> nth_error (view w) v <> None ->
    outcome (vfill_loop (fun _ => true) fuel v f st i w) = Some r -> vfilling f v st i (view w) r.
  Proof.
    intros f v. induction fuel as [|fuel IH]; intros st i w r Sp Hv E; cbn [ReenterModel.vfill_loop] in E; [discriminate|].
    destruct (nth_error (view w) v) as [l|] eqn:Hl; [|congruence]. destruct (var_view _ _ _ Sp Hl) as (s & Es & L & _). rewrite Es in E. cbn [bind] in E. rewrite L in E.
    destruct (Nat.ltb_spec i (length l)) as [Hi|Hi].
    2:{ injection E as <-. eapply vfilling_end; eauto. }
    pose proof (vperform_sim _ (f st) w Sp) as P. destruct (vdo (f st) (view w)) as [[[x st'] s']|] eqn:D.
    2:{ rewrite P in E. injection E as <-. eapply vfilling_panics; eauto. }
    destruct P as (w' & E' & S' & V' & L'). rewrite E' in E. cbn [bind] in E. destruct (still _ _ _ _ Hl L') as (l' & Hl'). rewrite <- V' in Hl'.
    destruct (set_sim w' v l' i x S' Hl') as (t & Et & Lt & St). rewrite Et in E. cbn [bind] in E. rewrite V' in Hl'. destruct (Nat.ltb_spec i (length l')) as [Hi'|Hi'].
    - destruct St as (m & Em & Sm & Vm). rewrite Em in E. cbn [bind] in E. eapply vfilling_next; eauto. rewrite V' in Vm. rewrite <- Vm. apply (IH _ _ _ _ Sm); [|exact E].
      rewrite Vm, put_list_set, nth_error_list_set_eq by (apply nth_error_Some; congruence). discriminate.
    - rewrite St in E. injection E as <-. eapply vfilling_short; eauto.
  Qed.
  Lemma vfill_complete : forall f v st i s r, vfilling f v st i s r -> forall w, separate w -> view w = s ->
    exists n, forall fuel, n <= fuel -> outcome (vfill_loop (fun _ => true) fuel v f st i w) = Some r.
  Proof.
    intros f v st i s r H. induction H as [st i s l Hl Hi|st i s l Hl Hi D|st i s l x st' s' l' Hl Hi D Hl' Hi'|st i s l x st' s' l' r Hl Hi D Hl' Hi' Hr IH]; intros w Sp <-.
    - exists 1. intros [|fuel] Hf; [lia|]. cbn [ReenterModel.vfill_loop]. destruct (var_view _ _ _ Sp Hl) as (t & Et & Lt & _). rewrite Et. cbn [bind]. rewrite Lt.
      destruct (Nat.ltb_spec i (length l)); [lia|]. reflexivity.
    - exists 1. intros [|fuel] Hf; [lia|]. cbn [ReenterModel.vfill_loop]. destruct (var_view _ _ _ Sp Hl) as (t & Et & Lt & _). rewrite Et. cbn [bind]. rewrite Lt.
      destruct (Nat.ltb_spec i (length l)); [|lia]. pose proof (vperform_sim _ (f st) w Sp) as P. rewrite D in P. rewrite P. reflexivity.
    - exists 1. intros [|fuel] Hf; [lia|]. cbn [ReenterModel.vfill_loop]. destruct (var_view _ _ _ Sp Hl) as (t & Et & Lt & _). rewrite Et. cbn [bind]. rewrite Lt.
      destruct (Nat.ltb_spec i (length l)); [|lia]. pose proof (vperform_sim _ (f st) w Sp) as P. rewrite D in P. destruct P as (w' & E' & S' & V' & _). rewrite E'. cbn [bind].
      rewrite <- V' in Hl'. destruct (set_sim w' v l' i x S' Hl') as (u & Eu & Lu & Su). rewrite Eu. cbn [bind]. destruct (Nat.ltb_spec i (length l')); [lia|]. rewrite Su. reflexivity.
    - pose proof (vperform_sim _ (f st) w Sp) as P. rewrite D in P. destruct P as (w' & E' & S' & V' & _). rewrite <- V' in Hl'.
      destruct (set_sim w' v l' i x S' Hl') as (u & Eu & Lu & Su). destruct (Nat.ltb_spec i (length l')) as [_|]; [|lia]. destruct Su as (m & Em & Sm & Vm).
      destruct (IH (m, snd w') Sm) as (n & N). { now rewrite Vm, V'. }
      exists (Datatypes.S n). intros [|fuel] Hf; [lia|]. cbn [ReenterModel.vfill_loop]. destruct (var_view _ _ _ Sp Hl) as (t & Et & Lt & _). rewrite Et. cbn [bind]. rewrite Lt.
      destruct (Nat.ltb_spec i (length l)); [|lia]. rewrite E'. cbn [bind]. rewrite Eu. cbn [bind]. rewrite Em. cbn [bind]. apply N. lia.
  Qed.
  (** A closure that only looks leaves the variables as they are: the order does not matter. *)
  Lemma exec_looks : forall w o w' a, looks o = true -> exec w o = Ret (w', a) -> w' = w.
  Proof.
    intros [m vs] o w' a L E. destruct o; try discriminate; cbn [VecHistory.exec] in E;
      repeat match type of E with
      | (match ?x with _ => _ end) = _ => destruct x
      | bind ?x _ = _ => destruct x; try discriminate; cbn [bind] in E
      end; congruence.
  Qed.
  Lemma vperform_looks : forall A (p : vbody A) w a w', looking p -> vperform p w = Ret (a, w') -> w' = w.
  Proof.
    intros A p. induction p as [x|o k IH]; intros w a w' L E; cbn [ReenterModel.vperform looking] in *; [congruence|]. destruct L as [Lo Lk].
    destruct (exec w o) as [[w1 r]| |] eqn:Ex; try discriminate. cbn [bind fst snd] in E. apply exec_looks in Ex; auto. subst. eapply IH; eauto.
  Qed.
  Lemma vfill_looking : forall f late v fuel st i w, (forall st, looking (f st)) ->
    vfill_loop late fuel v f st i w = vfill_loop (fun _ => true) fuel v f st i w.
  Proof.
    intros f late v. induction fuel as [|fuel IH]; intros st i w L; cbn [ReenterModel.vfill_loop]; [reflexivity|].
    destruct (var w v) as [s| |] eqn:Ev; cbn [bind]; try reflexivity. destruct (i <? slen s); [|reflexivity].
    destruct (vperform (f st) w) as [[[x st'] w']| |] eqn:Ep; cbn [bind]; try reflexivity. apply vperform_looks in Ep; [|apply L]. subst w'.
    rewrite Ev. destruct (late i); cbn [bind]; destruct (SetUnchecked (fst w) s i x); cbn [bind]; auto.
  Qed.
  Lemma vfilling_looking : forall f v st i s r, vfilling f v st i s r -> (forall st, looking (f st)) -> forall l, nth_error s v = Some l ->
    match r with Some (_, s') => exists made, s' = put s v made /\ length made = length l | None => True end.
  Proof.
    intros f v st i s r H L. induction H as [st i s l0 Hl Hi|st i s l0 Hl Hi D|st i s l0 x st' s' l' Hl Hi D Hl' Hi'|st i s l0 x st' s' l' r Hl Hi D Hl' Hi' Hr IH]; intros l E; auto.
    - exists l. split; [|reflexivity]. assert (v < length s) by (apply nth_error_Some; congruence). rewrite put_list_set by auto. symmetry. now apply list_set_same.
    - destruct r as [[st2 s2]|]; auto. pose proof (looking_same _ _ _ _ _ (L st) D) as ->. assert (Hv : v < length s) by (apply nth_error_Some; congruence).
      destruct (IH (seq_set l' i x)) as (made & -> & Lm). { rewrite put_list_set, nth_error_list_set_eq by auto. reflexivity. }
      exists made. split.
      + rewrite (put_list_set _ s) by auto. rewrite put_list_set by (rewrite list_set_length; auto). rewrite put_list_set by auto. clear; induction s in v |- *; destruct v; cbn; congruence.
      + rewrite Lm. replace l' with l by congruence. rewrite E in Hl. injection Hl as ->. unfold seq_set. rewrite app_length, firstn_length. cbn [length]. rewrite skipn_length. lia.
  Qed.
  (** A keeping closure leaves the variable as it is: again the order does not matter. *)
  Lemma nth_list_set_neq : forall A (l : list A) u v x, u <> v -> nth_error (list_set l u x) v = nth_error l v.
  Proof. intros A. induction l as [|y l IH]; intros [|u] [|v] x H; cbn; auto; try congruence. Qed.
  Lemma exec_keeping : forall w o w' a v s, resizes v o = false -> var w v = Ret s -> exec w o = Ret (w', a) -> var w' v = Ret s.
  Proof.
    intros [m vs] o w' a v s R Ev E. unfold var in Ev. cbn [snd] in Ev. destruct (nth_error vs v) as [s0|] eqn:Hv; [|discriminate]. injection Ev as ->.
    assert (Goal' : nth_error (snd w') v = Some s). 2:{ unfold var. now rewrite Goal'. }
    assert (Hl : v < length vs) by (apply nth_error_Some; congruence).
    destruct o; cbn [VecHistory.exec resizes] in E, R; unfold declare, assign in E;
      repeat match type of E with
      | bind ?z _ = Ret _ => destruct z eqn:?; cbn [bind] in E; try discriminate
      | context [let '(_, _) := ?z in _] => destruct z eqn:?
      | context [let (_, _) := ?z in _] => destruct z eqn:?
      end;
      repeat match goal with H : Ret _ = Ret _ |- _ => injection H as H; subst end; subst; cbn [snd fst] in *;
      rewrite ?Bool.orb_false_iff, ?Nat.eqb_neq in R; rewrite ?nth_list_set_neq by tauto; try (rewrite nth_error_app1 by auto); auto.
  Qed.
  Lemma vperform_keeping : forall A (p : vbody A) w a w' v s, keeping v p -> var w v = Ret s -> vperform p w = Ret (a, w') -> var w' v = Ret s.
  Proof.
    intros A p. induction p as [x|o k IH]; intros w a w' v s L Ev E; cbn [ReenterModel.vperform keeping] in *; [congruence|]. destruct L as [Lo Lk].
    destruct (exec w o) as [[w1 r]| |] eqn:Ex; try discriminate. cbn [bind fst snd] in E. eapply IH; [apply Lk| |exact E]. eapply exec_keeping; eauto.
  Qed.
  Lemma vfill_keeping : forall f late v fuel st i w, (forall st, keeping v (f st)) ->
    vfill_loop late fuel v f st i w = vfill_loop (fun _ => true) fuel v f st i w.
  Proof.
    intros f late v. induction fuel as [|fuel IH]; intros st i w L; cbn [ReenterModel.vfill_loop]; [reflexivity|].
    destruct (var w v) as [s| |] eqn:Ev; cbn [bind]; try reflexivity. destruct (i <? slen s); [|reflexivity].
    destruct (vperform (f st) w) as [[[x st'] w']| |] eqn:Ep; cbn [bind]; try reflexivity. apply (vperform_keeping _ _ _ _ _ v s (L st) Ev) in Ep.
    rewrite Ep. destruct (late i); cbn [bind]; destruct (SetUnchecked (fst w') s i x); cbn [bind]; auto.
  Qed.
  Lemma vfill_keeping_ends : forall f v n fuel st i w l, (forall st, keeping v (f st)) -> separate w -> nth_error (view w) v = Some l -> length l = n ->
    i <= n -> n < i + fuel ->
    match vfill_loop (fun _ => true) fuel v f st i w with
    | Ret (_, w') => exists made, nth_error (view w') v = Some made /\ length made = n
    | Panic => exists st' s', vdo (f st') s' = None
    | Diverge => False
    end.
  Proof.
    intros f v n. induction fuel as [|fuel IH]; intros st i w l L Sp Hl El Hi Hf; cbn [ReenterModel.vfill_loop]; [lia|].
    destruct (var_view _ _ _ Sp Hl) as (s & Es & Ls & _). rewrite Es. cbn [bind]. rewrite Ls, El. destruct (Nat.ltb_spec i n) as [Lt|Ge]; [|eauto].
    pose proof (vperform_sim _ (f st) w Sp) as P. destruct (vdo (f st) (view w)) as [[[x st'] s']|] eqn:D.
    2:{ rewrite P. cbn [bind]. eauto. }
    destruct P as (w' & E' & S' & V' & L'). pose proof (vperform_keeping _ _ _ _ _ v s (L st) Es E') as Es'. rewrite E'. cbn [bind].
    destruct (still _ _ _ _ Hl L') as (l' & Hl'). rewrite <- V' in Hl'. destruct (set_sim w' v l' i x S' Hl') as (t & Et & Lt' & St).
    rewrite Es' in Et. injection Et as <-. rewrite Es'. cbn [bind]. replace (length l') with n in St by congruence. destruct (Nat.ltb_spec i n) as [_|]; [|lia].
    destruct St as (m & Em & Sm & Vm). rewrite Em. cbn [bind].
    specialize (IH st' (i + 1) (m, snd w') (seq_set l' i x) L Sm).
    assert (H1 : nth_error (view (m, snd w')) v = Some (seq_set l' i x)).
    { rewrite Vm, put_list_set, nth_error_list_set_eq by (apply nth_error_Some; congruence). reflexivity. }
    assert (H2 : length (seq_set l' i x) = n).
    { unfold seq_set. rewrite app_length, firstn_length. cbn [length]. rewrite skipn_length. lia. }
    specialize (IH H1 H2).
    specialize (IH ltac:(lia) ltac:(lia)).
    destruct (vfill_loop (fun _ => true) fuel v f st' (i + 1) (m, snd w')) as [[? ?]| |]; auto.
  Qed.
  (** A closure that pushes to the vector: no end, whatever the order. *)
  Lemma vfill_endless : forall late (y x : S -> T) (next : S -> S) v fuel st i w s, var w v = Ret s -> i < slen s -> forall r,
    vfill_loop late fuel v (fun st => Call (OPush v (y st)) (fun _ => Return (x st, next st))) st i w <> Ret r.
  Proof.
    intros late y x next v. induction fuel as [|fuel IH]; intros st i [m vs] s E Hi r; cbn [ReenterModel.vfill_loop]; [discriminate|].
    rewrite E. cbn [bind]. destruct (Nat.ltb_spec i (slen s)); [|lia]. cbn [ReenterModel.vperform VecHistory.exec]. rewrite E. cbn [bind].
    destruct (Push zero extra m s (y st)) as [m' s'] eqn:Ep. cbn [bind fst snd].
    assert (Ls : slen s' = Datatypes.S (slen s)).
    { revert Ep. unfold Push, append. cbn [length]. destruct (_ <=? _); intros [= <- <-]; cbn [slen]; lia. }
    assert (Ev : var (assign m' vs v s') v = Ret s').
    { unfold var, assign in *. cbn [snd] in *. destruct (nth_error vs v) eqn:Hs; [|discriminate]. rewrite nth_error_list_set_eq by (apply nth_error_Some; congruence). reflexivity. }
    destruct (late i); rewrite ?Ev; cbn [bind];
      (match goal with |- bind ?z _ <> _ => destruct z as [m2| |] end; cbn [bind]; [|discriminate|discriminate]; eapply (IH _ _ _ s'); [|lia];
       unfold var in *; cbn [snd] in *; exact Ev).
  Qed.
End Vec.

(** DedupByKey is Retain with a predicate that remembers the keys. *)
Section Dedup.
  Context {T S K : Type}.
  Variable zero : T.
  Variable extra : nat -> nat -> nat.
  Variable eqb deq : T -> T -> bool.
  Variable clone : T -> T.
  Variable keq : K -> K -> bool.
  Notation vbody := (body (@op T) (@answer T)).
  Notation vdo := (vdo zero eqb deq clone).
  Notation vperform := (vperform zero extra eqb deq clone).
  Fixpoint passing {A B} (g : A -> B) (p : vbody A) : vbody B :=
    match p with Return a => Return (g a) | Call o k => Call o (fun r => passing g (k r)) end.
  Lemma passing_do : forall A B (g : A -> B) p s, vdo (passing g p) s = match vdo p s with Some (a, s') => Some (g a, s') | None => None end.
  Proof.
    intros A B g p. induction p as [a|o k IH]; intros s; cbn [passing ReenterSpec.vdo]; [reflexivity|].
    destruct (step zero eqb deq clone s o) as [[s' r]|]; auto.
  Qed.
  Lemma passing_perform : forall A B (g : A -> B) p w, vperform (passing g p) w = (r <- vperform p w ;; Ret (g (fst r), snd r)).
  Proof.
    intros A B g p. induction p as [a|o k IH]; intros w; cbn [passing ReenterModel.vperform]; [reflexivity|].
    destruct (exec zero extra eqb deq clone w o) as [[w' r]| |]; cbn [bind]; auto.
  Qed.
  Lemma passing_careful : forall A B (g : A -> B) v n p s on, careful zero eqb deq clone v n (passing g p) s on = careful zero eqb deq clone v n p s on.
  Proof.
    intros A B g v n p. induction p as [a|o k IH]; intros s on; cbn [passing careful]; [reflexivity|].
    destruct (on && disturbs s v n o); [reflexivity|]. destruct (step zero eqb deq clone s o) as [[s' r]|]; auto.
  Qed.
  Definition fresh (ks : list K) (r : K * S) : bool * (S * list K) :=
    let (k, st) := r in if negb (existsb (keq k) ks) then (true, (st, k :: ks)) else (false, (st, ks)).
  Definition asking (key : S -> T -> vbody (K * S)) (sk : S * list K) (x : T) : vbody (bool * (S * list K)) :=
    passing (fresh (snd sk)) (key (fst sk) x).
  Lemma vdedup_retain : forall key old l st ks w n,
    vdedup_loop zero extra eqb deq clone keq l key st ks old w n =
    (r <- vretain_loop zero extra eqb deq clone l (asking key) (st, ks) old w n ;; let '(sk, w', n') := r in Ret (fst sk, w', n')).
  Proof.
    intros key old l. induction l as [|i l IH]; intros st ks w n; cbn [vdedup_loop vretain_loop]; [reflexivity|].
    destruct (idx (contents (fst w) old) i) as [x| |]; cbn [bind]; try reflexivity.
    unfold asking at 1. cbn [fst snd]. rewrite passing_perform.
    destruct (vperform (key st x) w) as [[[k st'] w']| |]; cbn [bind fst snd fresh]; try reflexivity.
    destruct (existsb (keq k) ks); cbn [negb]; [apply IH|].
    destruct (append zero extra (fst w') n [x]) as [m n']. apply IH.
  Qed.
  Lemma Vec_DedupByKey_retain : forall w v key st,
    seen (Vec_DedupByKey zero extra eqb deq clone keq w v key st) =
    match seen (Vec_Retain zero extra eqb deq clone w v (asking key) (st, [])) with Some (sk, s) => Some (fst sk, s) | None => None end.
  Proof.
    intros w v key st. unfold Vec_DedupByKey, Vec_Retain. destruct (var w v) as [old| |]; cbn [bind]; try reflexivity.
    destruct (make_cap zero (fst w) (slen old)) as [m n]. rewrite vdedup_retain.
    destruct (vretain_loop zero extra eqb deq clone (seq 0 (slen old)) (asking key) (st, []) old (m, snd w) n) as [[[sk w'] n']| |]; reflexivity.
  Qed.
  Lemma asking_careful : forall key v n l st ks s on,
    always_careful zero eqb deq clone v n key st l s on -> always_careful zero eqb deq clone v n (asking key) (st, ks) l s on.
  Proof.
    intros key v n l. induction l as [|x l IH]; intros st ks s on H; cbn [always_careful] in *; [exact I|].
    unfold asking at 1 2. cbn [fst snd]. rewrite passing_careful, passing_do.
    destruct (careful zero eqb deq clone v n (key st x) s on) as [on'|]; [|exact H].
    destruct (vdo (key st x) s) as [[[k st'] s']|]; [|exact I]. cbn [fresh].
    destruct (negb (existsb (keq k) ks)); apply IH; exact H.
  Qed.
  Lemma asking_accepted : (forall a b c, keq a b = true -> keq b c = true -> keq a c = true) ->
    forall key l st known ks s, (forall k, existsb (keq k) known = existsb (keq k) ks) ->
    vfirsts zero eqb deq clone keq key st ks l s =
    match vaccepted zero eqb deq clone (asking key) (st, known) l s with Some (sk, kept, s') => Some (fst sk, kept, s') | None => None end.
  Proof.
    intros Tr key l. induction l as [|x l IH]; intros st known ks s Q; cbn [vfirsts vaccepted]; [reflexivity|].
    unfold asking at 1. cbn [fst snd]. rewrite passing_do.
    destruct (vdo (key st x) s) as [[[k st'] s']|]; [|reflexivity]. cbn [fresh]. rewrite Q.
    destruct (existsb (keq k) ks) eqn:E; cbn [negb].
    - rewrite (IH st' known (k :: ks) s').
      + destruct (vaccepted zero eqb deq clone (asking key) (st', known) l s') as [[[sk kept] s2]|]; reflexivity.
      + intros j. rewrite Q. cbn [existsb]. destruct (keq j k) eqn:J; [|reflexivity]. cbn [orb].
        apply existsb_exists in E as (c & I & C). apply existsb_exists. eauto.
    - rewrite (IH st' (k :: known) (k :: ks) s').
      + destruct (vaccepted zero eqb deq clone (asking key) (st', k :: known) l s') as [[[sk kept] s2]|]; reflexivity.
      + intros j. cbn [existsb]. now rewrite Q.
  Qed.
  Theorem Vec_DedupByKey_any : (forall a b c, keq a b = true -> keq b c = true -> keq a c = true) ->
    forall w v l (key : S -> T -> vbody (K * S)) st, separate w -> nth_error (view w) v = Some l ->
    exists given, length given = length l /\
      seen (Vec_DedupByKey zero extra eqb deq clone keq w v key st) = vdeduped zero eqb deq clone keq key st v given (view w) /\
      (always_careful zero eqb deq clone v (length l) key st l (view w) true -> given = l).
  Proof.
    intros Tr w v l key st Sp Hv.
    destruct (Vec_Retain_any zero extra eqb deq clone w v l (asking key) (st, []) Sp Hv) as (given & G1 & G2 & G3).
    exists given. split; [exact G1|]. split; [|intros C; apply G3; now apply asking_careful].
    rewrite Vec_DedupByKey_retain, G2. unfold vretained, vdeduped. rewrite (asking_accepted Tr key given st [] [] (view w)) by reflexivity.
    destruct (vaccepted zero eqb deq clone (asking key) (st, []) given (view w)) as [[[sk kept] s']|]; reflexivity.
  Qed.
End Dedup.

From Verif Require Import DequeModel DequeProofs DequeRunProofs DequeShareProofs.
From Verif Require DequeSpec DequeHistory DequeShareSpec.
Section Deque.
  Context {T S : Type}.
  Variable zero : T.
  Variable limit : Z.
  Hypothesis limit_ok : (7 <= limit < 2 ^ 63)%Z.
  Variable eqb : T -> T -> bool.
  Notation rep := (DequeProofs.rep (T := T) limit).
  Notation fits := (DequeShareSpec.fits limit).
  Notation does := (does limit eqb).
  Notation perform := (perform zero limit eqb).
  Notation dbody := (body (@DequeSpec.dop T) (@DequeSpec.danswer T)).
  Notation retain_loop := (ReenterModel.retain_loop (S := S) zero limit eqb).
  Notation fill_loop := (ReenterModel.fill_loop (S := S) zero limit eqb).
  Notation retaining := (retaining (S := S) limit eqb).
  Notation filling := (filling (S := S) limit eqb).
  Notation accepting := (accepting (S := S) limit eqb).
  Notation answering := (answering (S := S) limit eqb).
  Implicit Types (d : VecDeque T) (l : list T).

  Lemma perform_does : forall A (p : dbody A) q a q', does p q a q' -> forall d, rep d (fst q) (snd q) ->
    exists d', perform p d = Ret (a, d') /\ rep d' (fst q') (snd q').
  Proof.
    intros A p q a q' H. induction H as [a q|o k l c l' r a q St F H IH]; intros d R.
    - exists d. auto.
    - cbn [fst snd] in R. destruct (exec_exact zero limit limit_ok eqb d l c o l' r R St F) as (d1 & E & R1).
      cbn [ReenterModel.perform]. rewrite E. cbn [bind fst snd]. apply IH. exact R1.
  Qed.
  Lemma SetUnchecked_hidden : forall d l c i x, rep d l c -> length l <= i < c ->
    exists d', SetUnchecked d (Z.of_nat i) x = Ret d' /\ rep d' l c.
  Proof.
    intros d l c i x (b & h & -> & (R1 & R2 & R3) & Lb & Hl) Hi.
    unfold SetUnchecked. rewrite (phys limit) by lia. change (buffer (deq_of b h l)) with b.
    rewrite bupd_nat, upd_Ret by (apply ring_lt; lia). cbn [bind]. eexists. split; [reflexivity|].
    exists (list_set b (ring (length b) h i) x), h. split; [reflexivity|]. rewrite list_set_length. split; [|auto].
    unfold repr. rewrite list_set_length. split; [auto|]. split; [auto|]. intros j Hj. rewrite nth_error_list_set_neq; auto.
    intros Q. apply ring_inj in Q; lia.
  Qed.
  Lemma u64_next : forall i, (Z.of_nat i <= limit)%Z -> u64 (Z.of_nat i + 1) = Z.of_nat (i + 1).
  Proof. intros. rewrite u64_small by lia. lia. Qed.

  Lemma retaining_sim : forall f st i n q st' q', retaining f st i n q st' q' ->
    forall d, rep d (fst q) (snd q) -> (Z.of_nat n <= limit)%Z ->
    exists d' N, rep d' (fst q') (snd q') /\ forall k, N <= k -> retain_loop k f st (Z.of_nat i) (Z.of_nat n) d = Ret (st', d').
  Proof.
    intros f st i n q st' q' H.
    induction H as [st i n l c Hi Hn|st i n l c x st' q st'' q' Nx D H IH|st i n l c x st' l' c' st'' q' Nx D Hn H IH]; intros d R Hn'; cbn [fst snd] in *.
    - exists (mkDeque (buffer d) (Z.of_nat n) (head d)), 1. split.
      + rewrite <- (firstn_skipn n l) in R. pose proof (rep_shrink _ _ _ _ _ R) as R'. rewrite firstn_length, Nat.min_l in R' by lia. exact R'.
      + intros [|k] Hk; [lia|]. cbn [ReenterModel.retain_loop]. unfold Len. rewrite (rep_len _ _ _ _ R).
        destruct (Z.ltb_spec (Z.of_nat i) (Z.of_nat (length l))); [lia|reflexivity].
    - assert (Hi : i < length l) by (apply nth_error_Some; congruence). pose proof (rep_pos _ _ _ _ R) as P.
      destruct (perform_does _ _ _ _ _ D d R) as (d1 & E1 & R1). destruct q as [l1 c1].
      destruct (IH d1 R1 Hn') as (d' & N & R' & E'). exists d', (Datatypes.S N). split; [exact R'|]. intros [|k] Hk; [lia|].
      cbn [ReenterModel.retain_loop]. unfold Len. rewrite (rep_len _ _ _ _ R). destruct (Z.ltb_spec (Z.of_nat i) (Z.of_nat (length l))); [|lia].
      rewrite (GetUnchecked_spec _ limit_ok _ _ _ _ _ R Nx). cbn [bind]. rewrite E1. cbn [bind]. rewrite u64_next by lia. apply E'. lia.
    - assert (Hi : i < length l) by (apply nth_error_Some; congruence). pose proof (rep_pos _ _ _ _ R) as P.
      destruct (perform_does _ _ _ _ _ D d R) as (d1 & E1 & R1). cbn [fst snd] in R1. pose proof (rep_pos _ _ _ _ R1) as P1.
      destruct (SetUnchecked_spec _ limit_ok d1 l' c' n x R1 Hn) as (d2 & E2 & R2). rewrite list_set_seq_set in R2 by exact Hn.
      destruct (IH d2 R2) as (d' & N & R' & E'); [lia|]. exists d', (Datatypes.S N). split; [exact R'|]. intros [|k] Hk; [lia|].
      cbn [ReenterModel.retain_loop]. unfold Len. rewrite (rep_len _ _ _ _ R). destruct (Z.ltb_spec (Z.of_nat i) (Z.of_nat (length l))); [|lia].
      rewrite (GetUnchecked_spec _ limit_ok _ _ _ _ _ R Nx). cbn [bind]. rewrite E1. cbn [bind]. rewrite E2. cbn [bind]. rewrite !u64_next by lia. apply E'. lia.
  Qed.
  Lemma filling_sim : forall f st i q st' q', filling f st i q st' q' ->
    forall d, rep d (fst q) (snd q) ->
    exists d' N, rep d' (fst q') (snd q') /\ forall k, N <= k -> fill_loop k f st (Z.of_nat i) d = Ret (st', d').
  Proof.
    intros f st i q st' q' H.
    induction H as [st i l c Hi|st i l c x st' l' c' st'' q' Hi D Hi' H IH|st i l c x st' l' c' st'' q' Hi D Hi' H IH]; intros d R; cbn [fst snd] in *.
    - exists d, 1. split; [exact R|]. intros [|k] Hk; [lia|]. cbn [ReenterModel.fill_loop]. unfold Len. rewrite (rep_len _ _ _ _ R).
      destruct (Z.ltb_spec (Z.of_nat i) (Z.of_nat (length l))); [lia|reflexivity].
    - pose proof (rep_pos _ _ _ _ R) as P. destruct (perform_does _ _ _ _ _ D d R) as (d1 & E1 & R1). cbn [fst snd] in R1.
      destruct (SetUnchecked_spec _ limit_ok d1 l' c' i x R1 Hi') as (d2 & E2 & R2). rewrite list_set_seq_set in R2 by exact Hi'.
      destruct (IH d2 R2) as (d' & N & R' & E'). exists d', (Datatypes.S N). split; [exact R'|]. intros [|k] Hk; [lia|].
      cbn [ReenterModel.fill_loop]. unfold Len. rewrite (rep_len _ _ _ _ R). destruct (Z.ltb_spec (Z.of_nat i) (Z.of_nat (length l))); [|lia].
      rewrite E1. cbn [bind]. rewrite E2. cbn [bind]. rewrite u64_next by lia. apply E'. lia.
    - pose proof (rep_pos _ _ _ _ R) as P. destruct (perform_does _ _ _ _ _ D d R) as (d1 & E1 & R1). cbn [fst snd] in R1.
      destruct (SetUnchecked_hidden d1 l' c' i x R1 Hi') as (d2 & E2 & R2).
      destruct (IH d2 R2) as (d' & N & R' & E'). exists d', (Datatypes.S N). split; [exact R'|]. intros [|k] Hk; [lia|].
      cbn [ReenterModel.fill_loop]. unfold Len. rewrite (rep_len _ _ _ _ R). destruct (Z.ltb_spec (Z.of_nat i) (Z.of_nat (length l))); [|lia].
      rewrite E1. cbn [bind]. rewrite E2. cbn [bind]. rewrite u64_next by lia. apply E'. lia.
  Qed.

  (** *** Closures that only look *)
  Lemma peeking_total : forall A (p : dbody A) l c, peeking p -> fits c -> exists a, does p (l, c) a (l, c).
  Proof.
    intros A p l c. induction p as [a|o k IH]; intros L F; [exists a; constructor|]. destruct L as [Lo Lk].
    assert (St : exists r, DequeSpec.dstep eqb l o l r /\ DequeShareSpec.capacity_after o (length l) c = c).
    { destruct o; try discriminate; cbn [peeks] in Lo.
      - apply andb_prop in Lo as [Lo1 Lo2]. apply Z.leb_le in Lo1. apply Z.ltb_lt in Lo2. eexists. split; [constructor; lia|reflexivity].
      - eexists. split; [constructor|reflexivity].
      - eexists. split; [constructor|reflexivity].
      - eexists. split; [constructor|reflexivity].
      - eexists. split; [constructor|reflexivity].
      - eexists. split; [constructor|reflexivity]. }
    destruct St as (r & St & C). destruct (IH r (Lk r) F) as (a & D). exists a. econstructor; [exact St|rewrite C; exact F|rewrite C; exact D].
  Qed.
  Lemma accepting_total : forall f c sight, (forall st x, peeking (f st x)) -> fits c -> (forall kept, snd (sight kept) = c) ->
    forall l st kept, exists st' kept', accepting f sight st l kept st' kept'.
  Proof.
    intros f c sight L F Sc. induction l as [|x l IH]; intros st kept; [exists st, kept; constructor|].
    destruct (sight kept) as [v c0] eqn:Es. pose proof (Sc kept) as C. rewrite Es in C. cbn [snd] in C. subst c0.
    destruct (peeking_total _ (f st x) v c (L st x) F) as ([b st1] & D). destruct (IH st1 (if b then kept ++ [x] else kept)) as (st2 & kept2 & H).
    exists st2, kept2. econstructor; [rewrite Es; exact D|exact H].
  Qed.
  Lemma answering_total : forall f c sight, (forall st, peeking (f st)) -> fits c -> (forall made, snd (sight made) = c) ->
    forall n st made, exists st' made', answering f sight st n made st' made'.
  Proof.
    intros f c sight L F Sc. induction n as [|n IH]; intros st made; [exists st, made; constructor|].
    destruct (sight made) as [v c0] eqn:Es. pose proof (Sc made) as C. rewrite Es in C. cbn [snd] in C. subst c0.
    destruct (peeking_total _ (f st) v c (L st) F) as ([x st1] & D). destruct (IH st1 (made ++ [x])) as (st2 & made2 & H).
    exists st2, made2. econstructor; [rewrite Es; exact D|exact H].
  Qed.
  Lemma overwritten_length : forall l kept, length kept <= length l -> length (kept ++ skipn (length kept) l) = length l.
  Proof. intros. rewrite app_length, skipn_length. lia. Qed.
  Lemma overwritten_set : forall l kept x, length kept < length l ->
    seq_set (kept ++ skipn (length kept) l) (length kept) x = (kept ++ [x]) ++ skipn (length (kept ++ [x])) l.
  Proof.
    intros l kept x H. rewrite <- list_set_seq_set by (rewrite overwritten_length; lia). rewrite app_length. cbn [length].
    rewrite <- (firstn_skipn (length kept) l) at 2.
    assert (Q : forall (a b : list T) y, b <> [] -> list_set (a ++ b) (length a) y = (a ++ [y]) ++ skipn (length a + 1) (repeat y (length a) ++ b)).
    { clear. induction a as [|z a IH]; intros b y Hb; cbn.
      - destruct b; [congruence|reflexivity].
      - f_equal. apply IH. exact Hb. }
    rewrite Q.
    - f_equal. rewrite !skipn_app, repeat_length, firstn_length, Nat.min_l by lia.
      rewrite (skipn_all2 (repeat _ _)) by (rewrite repeat_length; lia). rewrite (skipn_all2 (firstn _ _)) by (rewrite firstn_length; lia). reflexivity.
    - intros Z. apply (f_equal (@length T)) in Z. rewrite skipn_length in Z. cbn in Z. lia.
  Qed.
  Lemma accepting_retaining : forall f l c r st kept st' kept', accepting f (overwritten l c) st r kept st' kept' ->
    forall i, skipn i l = r -> length kept <= i -> i <= length l ->
    retaining f st i (length kept) (overwritten l c kept) st' (kept', c).
  Proof.
    intros f l c r st kept st' kept' H. induction H as [st kept|st x r kept b st' st'' kept' D H IH]; intros i Hs Hk Hi; unfold overwritten in *.
    - assert (length l <= i) by (apply (f_equal (@length T)) in Hs; rewrite skipn_length in Hs; cbn in Hs; lia).
      replace (kept, c) with (firstn (length kept) (kept ++ skipn (length kept) l), c).
      + apply retaining_end; rewrite overwritten_length; lia.
      + f_equal. rewrite firstn_app, firstn_all, Nat.sub_diag. cbn. apply app_nil_r.
    - assert (Nx : nth_error l i = Some x) by (rewrite <- (firstn_skipn i l), nth_error_app2, firstn_length, Nat.min_l, Nat.sub_diag, Hs by (rewrite ?firstn_length; lia); reflexivity).
      assert (Hl : i < length l) by (apply nth_error_Some; congruence).
      assert (Nx' : nth_error (kept ++ skipn (length kept) l) i = Some x).
      { rewrite nth_error_app2 by lia. rewrite <- (firstn_skipn (length kept) l), nth_error_app2, firstn_length, Nat.min_l in Nx by (rewrite ?firstn_length; lia). exact Nx. }
      assert (Hs' : skipn (i + 1) l = r) by (rewrite (VecProofs.skipn_nth _ _ _ _ Nx) in Hs; rewrite Nat.add_1_r; congruence).
      destruct b.
      + eapply retaining_keep; [exact Nx'|exact D|rewrite overwritten_length; lia|]. rewrite overwritten_set by lia.
        replace (length kept + 1) with (length (kept ++ [x])) by (rewrite app_length; cbn; lia). apply IH; [exact Hs'| |lia]. rewrite app_length. cbn. lia.
      + eapply retaining_drop; [exact Nx'|exact D|]. apply IH; [exact Hs'|lia|lia].
  Qed.
  Lemma answering_filling : forall f l c n st made st' made', answering f (overwritten l c) st n made st' made' ->
    length made + n = length l -> filling f st (length made) (overwritten l c made) st' (made', c).
  Proof.
    intros f l c n st made st' made' H. induction H as [st made|st n made x st' st'' made' D H IH]; intros Hn; unfold overwritten in *.
    - replace (made, c) with (made ++ skipn (length made) l, c) by (rewrite skipn_all2 by lia; now rewrite app_nil_r).
      apply filling_end. rewrite overwritten_length; lia.
    - eapply filling_step; [|exact D| |]; [rewrite overwritten_length; lia|rewrite overwritten_length; lia|]. rewrite overwritten_set by lia.
      replace (length made + 1) with (length (made ++ [x])) by (rewrite app_length; cbn; lia). apply IH. rewrite app_length. cbn. lia.
  Qed.
  Theorem Retain_looking : forall f d l c st, rep d l c -> (forall st x, peeking (f st x)) ->
    exists st' kept, accepting f (overwritten l c) st l [] st' kept /\
      exists d' N, rep d' kept c /\ forall k, N <= k -> Deque_Retain zero limit eqb k d f st = Ret (st', d').
  Proof.
    intros f d l c st R L. pose proof (rep_pos _ _ _ _ R) as P.
    destruct (accepting_total f c (overwritten l c) L) with (l := l) (st := st) (kept := @nil T) as (st' & kept & H); [apply P|reflexivity|].
    exists st', kept. split; [exact H|]. pose proof (accepting_retaining _ _ _ _ _ _ _ _ H 0 eq_refl) as Q.
    destruct (retaining_sim _ _ _ _ _ _ _ (Q ltac:(cbn; lia) ltac:(lia)) d) as (d' & N & R' & E); [exact R|cbn; lia|]. exists d', N. split; [exact R'|exact E].
  Qed.
  Theorem FillWith_looking : forall f d l c st, rep d l c -> (forall st, peeking (f st)) ->
    exists st' made, answering f (overwritten l c) st (length l) [] st' made /\
      exists d' N, rep d' made c /\ forall k, N <= k -> Deque_FillWith zero limit eqb k d f st = Ret (st', d').
  Proof.
    intros f d l c st R L. pose proof (rep_pos _ _ _ _ R) as P.
    destruct (answering_total f c (overwritten l c) L) with (n := length l) (st := st) (made := @nil T) as (st' & made & H); [apply P|reflexivity|].
    exists st', made. split; [exact H|]. pose proof (answering_filling _ _ _ _ _ _ _ _ H eq_refl) as Q.
    destruct (filling_sim _ _ _ _ _ _ Q d) as (d' & N & R' & E); [exact R|]. exists d', N. split; [exact R'|exact E].
  Qed.

  (** *** Closures that push *)
  Lemma push_exec : forall d l c y, rep d l c ->
    match DequeHistory.exec zero limit eqb d (DequeSpec.PushBack y) with
    | Ret (d', r) => r = DequeSpec.Done /\ exists c', rep d' (l ++ [y]) c' | Panic => True | Diverge => False end.
  Proof.
    intros d l c y R. cbn [DequeHistory.exec]. destruct (Z_le_gt_dec (Z.of_nat (roomier (length l) c)) limit) as [H|H].
    - destruct (PushBack_spec zero limit limit_ok d l c y R H) as (d' & E & R'). rewrite E. cbn [bind]. eauto.
    - destruct (Push_Panic zero limit limit_ok d l c y R) as [E _]; [lia|]. rewrite E. exact I.
  Qed.
  Lemma retain_pushing : forall (y : S -> T -> T) (b : S -> T -> bool) (next : S -> T -> S) k st i n d l c, rep d l c -> i < length l -> n <= i ->
    forall r, retain_loop k (fun st x => Call (DequeSpec.PushBack (y st x)) (fun _ => Return (b st x, next st x))) st (Z.of_nat i) (Z.of_nat n) d <> Ret r.
  Proof.
    intros y b next. induction k as [|k IH]; intros st i n d l c R Hi Hn r; cbn [ReenterModel.retain_loop]; [discriminate|].
    pose proof (rep_pos _ _ _ _ R) as P. unfold Len. rewrite (rep_len _ _ _ _ R). destruct (Z.ltb_spec (Z.of_nat i) (Z.of_nat (length l))); [|lia].
    destruct (nth_error l i) as [x|] eqn:Nx; [|apply nth_error_None in Nx; lia].
    rewrite (GetUnchecked_spec _ limit_ok _ _ _ _ _ R Nx). cbn [bind ReenterModel.perform]. pose proof (push_exec d l c (y st x) R) as Pu.
    destruct (DequeHistory.exec zero limit eqb d (DequeSpec.PushBack (y st x))) as [[d1 a]| |]; [|discriminate|discriminate].
    destruct Pu as (_ & c' & R1). cbn [bind fst snd]. destruct (b st x).
    - destruct (SetUnchecked_spec _ limit_ok d1 (l ++ [y st x]) c' n x R1) as (d2 & E2 & R2); [rewrite app_length; lia|]. rewrite E2. cbn [bind].
      rewrite !u64_next by lia. apply (IH _ _ _ _ _ c' R2); [rewrite list_set_length, app_length; cbn; lia|lia].
    - rewrite u64_next by lia. apply (IH _ _ _ _ _ c' R1); [rewrite app_length; cbn; lia|lia].
  Qed.
  Lemma fill_pushing : forall (y x : S -> T) (next : S -> S) k st i d l c, rep d l c -> i < length l ->
    forall r, fill_loop k (fun st => Call (DequeSpec.PushBack (y st)) (fun _ => Return (x st, next st))) st (Z.of_nat i) d <> Ret r.
  Proof.
    intros y x next. induction k as [|k IH]; intros st i d l c R Hi r; cbn [ReenterModel.fill_loop]; [discriminate|].
    pose proof (rep_pos _ _ _ _ R) as P. unfold Len. rewrite (rep_len _ _ _ _ R). destruct (Z.ltb_spec (Z.of_nat i) (Z.of_nat (length l))); [|lia].
    cbn [bind ReenterModel.perform]. pose proof (push_exec d l c (y st) R) as Pu.
    destruct (DequeHistory.exec zero limit eqb d (DequeSpec.PushBack (y st))) as [[d1 a]| |]; [|discriminate|discriminate].
    destruct Pu as (_ & c' & R1). cbn [bind fst snd].
    destruct (SetUnchecked_spec _ limit_ok d1 (l ++ [y st]) c' i (x st) R1) as (d2 & E2 & R2); [rewrite app_length; lia|]. rewrite E2. cbn [bind].
    rewrite u64_next by lia. apply (IH _ _ _ _ c' R2). rewrite list_set_length, app_length; cbn; lia.
  Qed.
End Deque.
