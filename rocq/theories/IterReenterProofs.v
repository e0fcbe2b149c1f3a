(** IterReenterProofs.v -- functions given to Map, Filter and Fold that use the vector. *)
From Verif Require Import Base BaseLemmas Effect VecSpec VecModel VecHistory VecProofs IterShareSpec IterShareModel IterShareProofs.
From Verif Require Import ReenterSpec ReenterModel ReenterProofs IterReenterSpec IterReenterModel.
Local Open Scope nat_scope.

Section Vec.
  Context {T S : Type}.
  Variable zero : T.
  Variable extra : nat -> nat -> nat.
  Variable eqb deq : T -> T -> bool.
  Variable clone : T -> T.
  Notation vdo := (vdo zero eqb deq clone).
  Notation vbody := (body (@op T) (@answer T)).
  Notation vperform := (vperform zero extra eqb deq clone).
  Notation careful := (careful zero eqb deq clone).
  Notation collected := (collected zero eqb deq clone).
  Notation collect_careful := (collect_careful zero eqb deq clone).
  Notation collect_loop := (collect_loop zero extra eqb deq clone).
  Notation folded := (folded zero eqb deq clone).
  Notation fold_careful := (fold_careful zero eqb deq clone).
  Notation folded_live := (folded_live zero eqb deq clone).
  Notation VIter_Fold := (VIter_Fold zero extra eqb deq clone).

  Notation tracks_pos := (ReenterProofs.tracks_pos zero eqb deq clone).

  Lemma next_at : forall (m : mem T) old i x, nth_error (contents m old) i = Some x -> i < slen old ->
    VIter_Next m (mkVIter old i) = Ret (mkVIter old (i + 1), Some x).
  Proof.
    intros m old i x H L. unfold VIter_Next, Len, GetUnchecked. cbn [ivec ipos]. destruct (Nat.leb_spec (slen old) i); [lia|].
    now rewrite (idx_nth_error _ _ _ H).
  Qed.
  Lemma next_over : forall (m : mem T) old i, slen old <= i -> VIter_Next m (mkVIter old i) = Ret (mkVIter old i, None).
  Proof. intros m old i L. unfold VIter_Next, Len. cbn [ivec ipos]. destruct (Nat.leb_spec (slen old) i); [reflexivity|lia]. Qed.

  Lemma collect_loop_spec : forall B (keep : B -> T -> option T) (f : S -> T -> vbody (B * S)) old k i st m vs n fuel, i + k = slen old -> k < fuel ->
    separate (m, vs ++ [n]) -> valid m old -> arr old <> arr n ->
    exists given, length given = k /\
      match collected keep f st given (view (m, vs)) with
      | Some (st', made, s') => exists m' vs' n', collect_loop keep fuel f st (mkVIter old i) (m, vs) n = Ret (st', (m', vs'), n') /\
          view (m', vs') = s' /\ separate (m', vs' ++ [n']) /\ contents m' n' = contents m n ++ made
      | None => collect_loop keep fuel f st (mkVIter old i) (m, vs) n = Panic
      end /\
      forall v on l, tracks (m, vs) (watch v (slen old) on) (mkVIter old 0) (l, 0) ->
        collect_careful v (slen old) f st (skipn i l) (view (m, vs)) on -> given = skipn i l.
  Proof.
    intros B keep f old. induction k as [|k IH]; intros i st m vs n fuel Hk Hf Sp V D; (destruct fuel as [|fuel]; [lia|]); cbn [IterReenterModel.collect_loop fst].
    - exists []. split; [reflexivity|]. rewrite next_over by lia. cbn [bind snd]. split.
      + cbn. exists m, vs, n. rewrite app_nil_r. auto.
      + intros v on l Tk _. apply tracks_pos in Tk as (_ & C & _). cbn [fst] in C. symmetry. apply skipn_all2. rewrite <- C, contents_length by auto. lia.
    - pose proof (contents_length m old V) as CL.
      destruct (nth_error (contents m old) i) as [x|] eqn:Nx; [|apply nth_error_None in Nx; lia]. rewrite (next_at _ _ _ _ Nx) by lia. cbn [bind snd fst].
      pose proof (vperform_spec zero extra eqb deq clone _ (f st x) m vs n old Sp V D) as P. destruct (vdo (f st x) (view (m, vs))) as [[[b st1] s1]|] eqn:Do.
      2:{ exists (x :: skipn (i + 1) (contents m old)). split; [cbn [length]; rewrite skipn_length; lia|]. cbn [IterReenterSpec.collected]. rewrite Do, P. split; [reflexivity|].
          intros v on l Tk _. apply tracks_pos in Tk as (_ & C & _). cbn [fst] in C. subst l. rewrite (skipn_nth _ _ _ _ Nx). now rewrite Nat.add_1_r. }
      destruct P as (m1 & vs1 & E1 & W1 & S1 & C1 & V1 & L1 & T1). rewrite E1. cbn [bind snd fst].
      assert (Head : forall v on l, tracks (m, vs) (watch v (slen old) on) (mkVIter old 0) (l, 0) -> skipn i l = x :: skipn (i + 1) l).
      { intros v on l Tk. apply tracks_pos in Tk as (_ & C & _). cbn [fst] in C. subst l. rewrite Nat.add_1_r. exact (skipn_nth _ _ _ _ Nx). }
      destruct (keep b x) as [y|] eqn:Ky.
      + unfold Push. pose proof (append_local zero extra m1 vs1 n y S1) as A. destruct (append zero extra m1 n [y]) as [m2 n2]. destruct A as (S2 & W2 & C2 & O2).
        destruct (O2 old V1 D) as (V2 & D2 & CO). destruct (IH (i + 1) st1 m2 vs1 n2 fuel) as (given & G1 & G2 & G3); auto; [lia|lia|].
        exists (x :: given). split; [cbn; lia|]. split.
        * cbn [IterReenterSpec.collected]. rewrite Do. rewrite W2, W1 in G2. destruct (collected keep f st1 given s1) as [[[st2 made] s2]|]; [|exact G2].
          destruct G2 as (m3 & vs3 & n3 & E3 & W3 & S3 & C3). exists m3, vs3, n3. split; [exact E3|]. split; [exact W3|]. split; [exact S3|].
          rewrite Ky, C3, C2, C1, <- app_assoc. reflexivity.
        * intros v on l Tk Ca. rewrite (Head v on l Tk) in Ca |- *. cbn [IterReenterSpec.collect_careful] in Ca. specialize (T1 v on l Tk).
          destruct (careful v (slen old) (f st x) (view (m, vs)) on) as [on'|]; [|destruct Ca]. rewrite Do in Ca. f_equal. apply (G3 v on').
          { apply tracks_pos in T1 as (_ & TC & TW). apply tracks_pos. cbn [fst snd] in *. split; [exact V2|]. split; [congruence|exact TW]. }
          rewrite W2, W1. exact Ca.
      + destruct (IH (i + 1) st1 m1 vs1 n fuel) as (given & G1 & G2 & G3); auto; [lia|lia|].
        exists (x :: given). split; [cbn; lia|]. split.
        * cbn [IterReenterSpec.collected]. rewrite Do. rewrite W1 in G2. destruct (collected keep f st1 given s1) as [[[st2 made] s2]|]; [|exact G2].
          destruct G2 as (m3 & vs3 & n3 & E3 & W3 & S3 & C3). exists m3, vs3, n3. split; [exact E3|]. split; [exact W3|]. split; [exact S3|].
          now rewrite Ky, C3, C1.
        * intros v on l Tk Ca. rewrite (Head v on l Tk) in Ca |- *. cbn [IterReenterSpec.collect_careful] in Ca. specialize (T1 v on l Tk).
          destruct (careful v (slen old) (f st x) (view (m, vs)) on) as [on'|]; [|destruct Ca]. rewrite Do in Ca. f_equal. apply (G3 v on'); [exact T1|].
          rewrite W1. exact Ca.
  Qed.

  Lemma var_tracks : forall m vs v old, separate (T := T) (m, vs) -> nth_error vs v = Some old -> forall (m' : mem T), valid m' old ->
    tracks (m', vs) (watch v (slen old) true) (mkVIter old 0) (contents m' old, 0).
  Proof.
    intros m vs v old Sp Ho m' V'. apply tracks_pos. cbn [fst snd]. split; [exact V'|]. split; [reflexivity|]. intros u t Hu Et. left. f_equal.
    destruct Sp as [_ Nd]. cbn [snd] in Nd. rewrite NoDup_nth_error in Nd. apply Nd.
    { rewrite map_length. apply nth_error_Some. congruence. }
    rewrite !nth_error_map, Ho, Hu. cbn. congruence.
  Qed.

  Theorem collect_any : forall B (keep : B -> T -> option T) w v l (f : S -> T -> vbody (B * S)) st fuel, separate w -> nth_error (view w) v = Some l -> length l < fuel ->
    exists s, var w v = Ret s /\
    exists given, length given = length l /\
      let r := collect zero extra eqb deq clone keep fuel w (Vec_IntoIter s) f st in
      r <> Diverge /\ collect_seen r = collected keep f st given (view w) /\
      (collect_careful v (length l) f st l (view w) true -> given = l).
  Proof.
    intros B keep [m vs] v l f st fuel Sp Hv Hf. unfold var. cbn [fst snd].
    destruct (nth_error vs v) as [old|] eqn:Ho; [|rewrite (view_none m vs v Ho) in Hv; discriminate].
    rewrite (view_nth m vs v old Ho) in Hv. injection Hv as <-. exists old. split; [reflexivity|]. unfold collect, VecNew, Vec_IntoIter. cbn [fst snd].
    assert (V : valid m old) by (destruct Sp as [F _]; cbn in F; rewrite Forall_forall in F; apply F; eapply nth_error_In; eauto).
    rewrite contents_length in * by auto.
    pose proof (make_len_spec zero m 0) as MC. destruct (make_len zero m 0) as [m1 n]. destruct MC as (Em & Ea & V1 & C1).
    assert (Fr : forall a, a < length m -> nth a m1 [] = nth a m []) by (intros a Ha; rewrite Em; now apply nth_app_fresh).
    assert (Lm : length m <= length m1) by (rewrite Em, app_length; lia).
    destruct (declare_separate m vs m1 n Sp Ea V1 Lm Fr) as [S1 W1].
    assert (W0 : view (m1, vs) = view (m, vs)).
    { unfold view in W1 |- *. cbn [fst snd] in *. rewrite map_app in W1. cbn [map] in W1. now apply app_inv_tail in W1. }
    assert (Vo : valid m1 old) by (destruct V; split; [lia|]; unfold scap, array in *; rewrite Fr by auto; auto).
    assert (Co : contents m1 old = contents m old) by (unfold contents, array; rewrite Fr by apply V; reflexivity).
    assert (Do : arr old <> arr n) by (rewrite Ea; destruct V; lia).
    destruct (collect_loop_spec B keep f old (slen old) 0 st m1 vs n fuel) as (given & G1 & G2 & G3); auto.
    exists given. split; [exact G1|]. cbv zeta. rewrite W0 in G2. split; [|split].
    - destruct (collected keep f st given (view (m, vs))) as [[[st2 made] s2]|]; [|rewrite G2; discriminate].
      destruct G2 as (m2 & vs2 & n2 & E2 & _). rewrite E2. discriminate.
    - destruct (collected keep f st given (view (m, vs))) as [[[st2 made] s2]|]; [|now rewrite G2].
      destruct G2 as (m2 & vs2 & n2 & E2 & W2 & S2 & C2). rewrite E2. cbn [bind fst snd collect_seen ivec ipos skipn]. now rewrite C2, C1, W2.
    - intros Ca. rewrite (G3 v true (contents m old)); [reflexivity| |rewrite W0; exact Ca].
      rewrite <- Co. exact (var_tracks m vs v old Sp Ho m1 Vo).
  Qed.

  (** *** Fold *)
  Lemma vperform_tracks : forall A (p : vbody A) w old, separate w -> valid (fst w) old ->
    match vdo p (view w) with
    | Some (a, s') => exists w', vperform p w = Ret (a, w') /\ separate w' /\ view w' = s' /\ valid (fst w') old /\
        forall v on l, tracks w (watch v (slen old) on) (mkVIter old 0) (l, 0) ->
          match careful v (slen old) p (view w) on with
          | Some on' => tracks w' (watch v (slen old) on') (mkVIter old 0) (l, 0)
          | None => True
          end
    | None => vperform p w = Panic
    end.
  Proof.
    intros A p. induction p as [a|o k IH]; intros [m vs] old Sp V; cbn [ReenterSpec.vdo ReenterModel.vperform ReenterSpec.careful].
    - exists (m, vs). repeat (split; auto).
    - pose proof (exec_step zero extra eqb deq clone (m, vs) o Sp) as X.
      destruct (step zero eqb deq clone (view (m, vs)) o) as [[s1 r]|] eqn:St; [|rewrite X; reflexivity].
      destruct X as ([m1 vs1] & E & S2 & V1). rewrite E. cbn [bind fst snd].
      assert (V' : valid m1 old).
      { destruct V as [Va Vb]. cbn [fst] in *. destruct (exec_frame zero extra eqb deq clone m vs o m1 vs1 r (arr old) 0 Sp E Va) as (F1 & _ & F3 & _).
        { intros v s _ _. apply disturbs_0. } split; [lia|]. unfold scap, array in *. lia. }
      specialize (IH r (m1, vs1) old S2 V'). rewrite V1 in IH. destruct (vdo (k r) s1) as [[a s']|]; [|exact IH].
      destruct IH as (w' & E' & S' & W' & Vo & Tr). exists w'. split; [exact E'|]. split; [exact S'|]. split; [exact W'|]. split; [exact Vo|].
      intros v on l Tk. destruct (on && disturbs (view (m, vs)) v (slen old) o)%bool eqn:Di; [exact I|]. apply Tr.
      replace (watch v (slen old) (on && negb (leaves v o))) with (filter (fun w => negb (leaves (fst w) o)) (watch v (slen old) on)).
      2:{ unfold watch. destruct on; [|reflexivity]. cbn [filter fst andb]. destruct (leaves v o); reflexivity. }
      eapply tracks_step; [exact Sp|exact E| |exact Tk]. intros u k0 Hu. unfold watch in Hu. destruct on; [|destruct Hu].
      destruct Hu as [[= <- <-]|[]]. exact Di.
  Qed.
  Theorem fold_loop_spec : forall (f : S -> T -> T -> vbody (T * S)) old k i acc st w fuel, i + k = slen old -> k < fuel ->
    separate w -> valid (fst w) old ->
    exists given, length given = k /\
      match folded f acc st given (view w) with
      | Some (acc', st', s') => exists w', VIter_Fold fuel w (mkVIter old i) acc f st = Ret (acc', st', w') /\ view w' = s'
      | None => VIter_Fold fuel w (mkVIter old i) acc f st = Panic
      end /\
      forall v on l, tracks w (watch v (slen old) on) (mkVIter old 0) (l, 0) ->
        fold_careful v (slen old) f acc st (skipn i l) (view w) on -> given = skipn i l.
  Proof.
    intros f old. induction k as [|k IH]; intros i acc st w fuel Hk Hf Sp V; (destruct fuel as [|fuel]; [lia|]); cbn [IterReenterModel.VIter_Fold].
    - exists []. split; [reflexivity|]. rewrite next_over by lia. cbn [bind snd]. split.
      + cbn. eauto.
      + intros v on l Tk _. apply tracks_pos in Tk as (_ & C & _). symmetry. apply skipn_all2. rewrite <- C, contents_length by auto. lia.
    - pose proof (contents_length _ old V) as CL.
      destruct (nth_error (contents (fst w) old) i) as [x|] eqn:Nx; [|apply nth_error_None in Nx; lia]. rewrite (next_at _ _ _ _ Nx) by lia. cbn [bind snd fst].
      pose proof (vperform_tracks _ (f st acc x) w old Sp V) as P. destruct (vdo (f st acc x) (view w)) as [[[acc1 st1] s1]|] eqn:Do.
      2:{ exists (x :: skipn (i + 1) (contents (fst w) old)). split; [cbn [length]; rewrite skipn_length; lia|]. cbn [IterReenterSpec.folded]. rewrite Do, P. split; [reflexivity|].
          intros v on l Tk _. apply tracks_pos in Tk as (_ & C & _). subst l. rewrite (skipn_nth _ _ _ _ Nx). now rewrite Nat.add_1_r. }
      destruct P as (w1 & E1 & S1 & W1 & V1 & T1). rewrite E1. cbn [bind].
      destruct (IH (i + 1) acc1 st1 w1 fuel) as (given & G1 & G2 & G3); auto; [lia|lia|].
      exists (x :: given). split; [cbn; lia|]. split.
      + cbn [IterReenterSpec.folded]. rewrite Do, <- W1. exact G2.
      + intros v on l Tk Ca. pose proof Tk as Tk'. apply tracks_pos in Tk' as (_ & C & _).
        assert (Head : skipn i l = x :: skipn (i + 1) l). { subst l. rewrite Nat.add_1_r. exact (skipn_nth _ _ _ _ Nx). }
        rewrite Head in Ca |- *. cbn [IterReenterSpec.fold_careful] in Ca. specialize (T1 v on l Tk).
        destruct (careful v (slen old) (f st acc x) (view w) on) as [on'|]; [|destruct Ca]. rewrite Do in Ca. f_equal. apply (G3 v on' l T1).
        now rewrite W1.
  Qed.
  Theorem fold_any : forall w v l (f : S -> T -> T -> vbody (T * S)) acc st fuel, separate w -> nth_error (view w) v = Some l -> length l < fuel ->
    exists s, var w v = Ret s /\
    exists given, length given = length l /\
      let r := VIter_Fold fuel w (Vec_IntoIter s) acc f st in
      r <> Diverge /\ fold_seen r = folded f acc st given (view w) /\
      (fold_careful v (length l) f acc st l (view w) true -> given = l).
  Proof.
    intros w v l f acc st fuel Sp Hv Hf. destruct (var_view _ _ _ Sp Hv) as (old & Eo & Lo & Co). exists old. split; [exact Eo|].
    destruct w as [m vs]. unfold var in Eo. cbn [snd] in Eo. destruct (nth_error vs v) as [old'|] eqn:Ho; [|discriminate]. injection Eo as ->.
    assert (V : valid m old) by (destruct Sp as [F _]; cbn in F; rewrite Forall_forall in F; apply F; eapply nth_error_In; eauto).
    destruct (fold_loop_spec f old (slen old) 0 acc st (m, vs) fuel) as (given & G1 & G2 & G3); auto; [lia|].
    exists given. split; [lia|]. cbv zeta. unfold Vec_IntoIter. split; [|split].
    - destruct (folded f acc st given (view (m, vs))) as [[[acc2 st2] s2]|]; [|rewrite G2; discriminate].
      destruct G2 as (w2 & E2 & _). rewrite E2. discriminate.
    - destruct (folded f acc st given (view (m, vs))) as [[[acc2 st2] s2]|]; [|now rewrite G2].
      destruct G2 as (w2 & E2 & <-). now rewrite E2.
    - intros Ca. rewrite (G3 v true l); [reflexivity| |rewrite Lo; exact Ca].
      rewrite (view_nth m vs v old Ho) in Hv. injection Hv as <-. exact (var_tracks m vs v old Sp Ho m V).
  Qed.

  (** A function that keeps the vector's size: the iterator is a place in the vector. *)
  Theorem fold_live : forall (f : S -> T -> T -> vbody (T * S)) v old, (forall st acc x, keeping v (f st acc x)) ->
    forall k i acc st w fuel, i + k = slen old -> k < fuel -> separate w -> var w v = Ret old ->
    fold_seen (VIter_Fold fuel w (mkVIter old i) acc f st) = folded_live f v k i acc st (view w).
  Proof.
    intros f v old K. induction k as [|k IH]; intros i acc st w fuel Hk Hf Sp Ev; (destruct fuel as [|fuel]; [lia|]); cbn [IterReenterModel.VIter_Fold IterReenterSpec.folded_live].
    - rewrite next_over by lia. reflexivity.
    - assert (Hv : nth_error (snd w) v = Some old). { unfold var in Ev. destruct (nth_error (snd w) v); [cbn in Ev; congruence|discriminate]. }
      assert (V : valid (fst w) old) by (destruct Sp as [F _]; cbn in F; rewrite Forall_forall in F; apply F; eapply nth_error_In; eauto).
      pose proof (contents_length _ old V) as CL. destruct w as [m vs]. cbn [fst snd] in *.
      rewrite (nth_error_nth _ _ [] (view_nth m vs v old Hv)).
      destruct (nth_error (contents m old) i) as [x|] eqn:Nx; [|apply nth_error_None in Nx; lia]. rewrite (next_at _ _ _ _ Nx) by lia. cbn [bind snd fst].
      pose proof (vperform_sim zero extra eqb deq clone _ (f st acc x) (m, vs) Sp) as P. destruct (vdo (f st acc x) (view (m, vs))) as [[[acc1 st1] s1]|] eqn:Do; [|now rewrite P].
      destruct P as (w1 & E1 & S1 & W1 & _). rewrite E1. cbn [bind]. rewrite <- W1. apply IH; [lia|lia|exact S1|].
      eapply vperform_keeping; [apply K|exact Ev|exact E1].
  Qed.
End Vec.

(** *** Linked lists *)
From Verif Require ListModel ListSpec ListHistory ListRunProofs IterShareListProofs.
Section Lists.
  Import ListSpec(lstep, countable).
  Import ListHistory ListRunProofs IterShareListProofs.
  Context {T S A : Type}.
  Variable eqb : T -> T -> bool.
  Variable clone : T -> T.
  Notation lbody := (body (ListSpec.lop T) (ListSpec.lanswer T)).
  Notation lperform := (lperform eqb clone).
  Notation LIter_Fold := (LIter_Fold (S := S) (A := A) eqb clone).
  Notation lrounds := (lrounds (S := S) (A := A) eqb clone).
  Notation lmoves := (lmoves eqb clone).
  Notation vals := ListProofs.vals.

  Definition stands (w : ListHistory.world T) (it : ListModel.LinkedListIter) (s : list (list T)) (r : @lrest T) : Prop :=
    countable s /\ exists css, owns w css /\ s = map vals css /\ rests (cells w) css it r.
  Lemma lperform_moves : forall X (p : lbody X) s r a s' r', lmoves p s r a s' r' -> forall w it, stands w it s r ->
    exists w', lperform p w = Ret (a, w') /\ stands w' it s' r'.
  Proof.
    induction 1 as [a s r|o k s r s1 x a s2 r2 St Cn Mv IH]; intros w it Hs; cbn [IterReenterModel.lperform].
    - eauto.
    - destruct Hs as (C & css & O & -> & R). destruct (exec_shape eqb clone _ _ _ _ _ O C St Cn) as (w' & css' & Ex & O' & V & Sh & Qt).
      rewrite Ex. cbn [bind fst snd]. apply IH. split; [exact Cn|]. exists css'. split; [exact O'|]. split; [exact V|]. eapply rests_step; eauto.
  Qed.
  Lemma fold_rounds : forall f n acc st s r acc' st' s' r', lrounds f n acc st s r acc' st' s' r' -> forall w it, stands w it s r ->
    exists w' it', stands w' it' s' r' /\ forall fuel, LIter_Fold (n + fuel) w it acc f st = LIter_Fold fuel w' it' acc' f st'.
  Proof.
    induction 1 as [acc st s r|n acc st s r x acc1 st1 s1 r1 acc2 st2 s2 r2 G Mv Rs IH]; intros w it Hs.
    - exists w, it. split; [exact Hs|reflexivity].
    - destruct Hs as (C & css & O & -> & R). destruct (rests_next _ _ _ _ O R) as (it' & En & R').
      destruct (lperform_moves _ _ _ _ _ _ _ Mv w it') as (w1 & E1 & S1). { split; [exact C|]. exists css. auto. }
      destruct (IH w1 it' S1) as (w2 & it2 & S2 & E2). exists w2, it2. split; [exact S2|]. intros fuel. cbn [Nat.add IterReenterModel.LIter_Fold].
      rewrite En. cbn [bind fst snd]. rewrite G. replace (mkWorld (cells w) (vars w)) with w by now destruct w. rewrite E1. cbn [bind]. apply E2.
  Qed.
  Lemma fold_over : forall f acc st w it s r fuel, stands w it s r -> fst (lgiven s r) = None -> 0 < fuel ->
    LIter_Fold fuel w it acc f st = Ret (acc, st, w).
  Proof.
    intros f acc st w it s r [|fuel] (C & css & O & -> & R) G L; [lia|]. cbn [IterReenterModel.LIter_Fold].
    destruct (rests_next _ _ _ _ O R) as (it' & En & R'). rewrite En. cbn [bind fst snd]. rewrite G. now destruct w.
  Qed.
  Lemma stands_begin : forall ops s a w v l, ListSpec.lhistory eqb clone [] ops s a -> run eqb clone start ops = Ret (w, a) -> nth_error s v = Some l ->
    exists l0, idx (vars w) v = Ret l0 /\ stands w (ListModel.IntoIter l0) s (lbegin v l).
  Proof.
    intros ops s a w v l H E N.
    destruct (run_history eqb clone _ _ _ _ H start [] owns_start eq_refl (Forall_nil _)) as (w' & css & E' & O & V). rewrite E in E'. injection E' as <-. subst s.
    assert (C : countable (map vals css)).
    { assert (Q : forall s ops s' a, ListSpec.lhistory eqb clone s ops s' a -> countable s -> countable s') by (clear; induction 1; auto).
      eapply Q; [exact H|constructor]. }
    apply nth_vals in N as (cs & Hcs & <-). destruct (owns_var _ _ _ _ O Hcs) as (l & Hl & Ol). exists l. unfold idx. rewrite Hl. split; [reflexivity|].
    split; [exact C|]. exists css. split; [exact O|]. split; [reflexivity|]. eapply rests_iter; eauto.
  Qed.
  Lemma stands_shows : forall w it s r v l, stands w it s r -> nth_error s v = Some l -> exists w', exec eqb clone w (ListSpec.Elements v) = Ret (w', ListSpec.Many l).
  Proof.
    intros w it s r v l (C & css & O & -> & R) N. destruct (exec_step eqb clone w css (ListSpec.Elements v) (map vals css) (ListSpec.Many l) O C) as (w' & css' & E & _); eauto.
    now constructor.
  Qed.

  (** Functions that stay away from the back. *)
  Lemma careful_moves : forall X (p : lbody X) s a s', lruns eqb clone p s a s' -> lcareful p -> forall r, sound s r ->
    exists r', lmoves p s r a s' r' /\ sound s' r' /\ ahead s' r' = ahead s r.
  Proof.
    induction 1 as [a s|o k s s1 x a s2 St Cn Mv IH]; intros L r So.
    - exists r. split; [constructor|auto].
    - destruct L as [Lo Lk]. destruct (ahead_step eqb clone _ _ _ _ r St Lo So) as [So1 A1].
      destruct (IH (Lk x) _ So1) as (r' & M & So2 & A2). exists r'. split; [econstructor; eauto|]. split; [exact So2|congruence].
  Qed.
  Lemma careful_rounds : forall f acc st l s acc' st' s', lfolded eqb clone f acc st l s acc' st' s' -> (forall st acc x, lcareful (f st acc x)) ->
    forall r, sound s r -> ahead s r = l -> exists r', lrounds f (length l) acc st s r acc' st' s' r' /\ fst (lgiven s' r') = None.
  Proof.
    induction 1 as [acc st s|acc st x l s acc1 st1 s1 acc2 st2 s2 Ru Fo IH]; intros L r So Ah; destruct (ahead_next s r So) as (H1 & H2).
    - exists r. split; [constructor|]. rewrite <- H1, Ah. reflexivity.
    - rewrite Ah in H1, H2. cbn [hd_error tl] in H1, H2. destruct H2 as [So2 A2].
      destruct (careful_moves _ _ _ _ _ Ru (L _ _ _) _ So2) as (r1 & M & So1 & A1). destruct (IH L r1 So1) as (r' & R & N); [congruence|].
      exists r'. split; [|exact N]. cbn [length]. econstructor; eauto.
  Qed.

  (** A function that pushes at the back of the list. *)
  Lemma push_rounds : forall (y : S -> A -> T -> T) (x : S -> A -> T -> A) (next : S -> A -> T -> S) v n acc st s k l, nth_error s v = Some l -> Datatypes.S k < length l -> countable s ->
    (Z.of_nat (length l + n) < 2 ^ 64)%Z -> exists acc' st' s' r',
    lrounds (fun st acc e => Call (ListSpec.PushBack v (y st acc e)) (fun _ => Return (x st acc e, next st acc e))) n acc st s ([], Some (v, k)) acc' st' s' r'.
  Proof.
    intros y x next v. induction n as [|n IH]; intros acc st s k l N L C B; [repeat eexists; constructor|].
    destruct (nth_error l k) as [e|] eqn:E; [|apply nth_error_None in E; lia].
    assert (Hn : nth v s [] = l) by now apply nth_error_nth.
    assert (Lv : v < length s) by (apply nth_error_Some; congruence).
    pose proof (ListSpec.l_push_back eqb clone s v (y st acc e) l N) as St.
    assert (Cn : countable (list_set s v (l ++ [y st acc e]))).
    { apply Forall_forall. intros m Hm. apply In_nth_error in Hm as [j Hj]. rewrite BaseLemmas.nth_error_list_set in Hj.
      destruct (Nat.eqb_spec v j) as [->|].
      - destruct (j <? length s); [|discriminate]. injection Hj as <-. rewrite app_length. cbn [length]. lia.
      - apply nth_error_In in Hj. now apply (proj1 (Forall_forall _ _) C). }
    destruct (IH (x st acc e) (next st acc e) (list_set s v (l ++ [y st acc e])) (Datatypes.S k) (l ++ [y st acc e])) as (acc' & st' & s' & r' & R).
    - now apply BaseLemmas.nth_error_list_set_eq.
    - rewrite app_length. cbn [length]. lia.
    - exact Cn.
    - rewrite app_length. cbn [length]. lia.
    - exists acc', st', s', r'. eapply lrounds_S with (x := e); [unfold lgiven; now rewrite Hn| |exact R].
      unfold lgiven. rewrite Hn. destruct (Nat.ltb_spec (Datatypes.S k) (length l)); [|lia]. cbn [snd]. econstructor; [exact St|exact Cn|]. constructor.
  Qed.
  Lemma rounds_prefix : forall f n acc st s r acc' st' s' r', lrounds f n acc st s r acc' st' s' r' -> forall m, m <= n ->
    exists acc1 st1 s1 r1, lrounds f m acc st s r acc1 st1 s1 r1.
  Proof.
    induction 1 as [acc st s r|n acc st s r x acc1 st1 s1 r1 acc2 st2 s2 r2 G Mv Rs IH]; intros [|m] L; try lia; try (repeat eexists; constructor).
    destruct (IH m) as (a & b & c & d & R); [lia|]. exists a, b, c, d. econstructor; eauto.
  Qed.
  Lemma begin_sound : forall (s : list (list T)) v l, nth_error s v = Some l -> sound s (lbegin v l) /\ ahead s (lbegin v l) = l.
  Proof.
    intros s v l N. assert (v < length s) by (apply nth_error_Some; congruence). assert (Hn : nth v s [] = l) by now apply nth_error_nth.
    destruct l as [|x l]; unfold lbegin, sound, ahead; cbn [fst snd app]; [auto|]. rewrite Hn. cbn [length]. repeat split; auto; lia.
  Qed.

  Lemma step_grow : forall s o s' a, lstep eqb clone s o s' a -> length s <= length s'.
  Proof. intros s o s' a H. inversion H; subst; rewrite ?app_length, ?BaseLemmas.list_set_length; cbn [length]; lia. Qed.
  Lemma moves_grow : forall X (p : lbody X) s r a s1 r1, lmoves p s r a s1 r1 -> length s <= length s1.
  Proof. induction 1 as [|o k s r s1 x a s2 r2 St Cn Mv IH]; [lia|]. apply step_grow in St. lia. Qed.
  Lemma rounds_grow : forall f n acc st s r acc' st' s' r', lrounds f n acc st s r acc' st' s' r' -> length s <= length s'.
  Proof. induction 1 as [|n acc st s r x acc1 st1 s1 r1 acc2 st2 s2 r2 G Mv Rs IH]; [lia|]. apply moves_grow in Mv. lia. Qed.
  Lemma owns_length : forall (w : ListHistory.world T) css, owns w css -> length (vars w) = length css.
  Proof. intros w css H. destruct H as [H _]. auto. Qed.
  Lemma lperform_then : forall X X' (p : lbody X) (g : X -> lbody X') w, lperform (lthen p g) w = (r <- lperform p w ;; lperform (g (fst r)) (snd r)).
  Proof.
    induction p as [a|o k IH]; intros g w; cbn [lthen IterReenterModel.lperform]; [reflexivity|].
    destruct (exec eqb clone w o) as [r| |]; cbn [bind]; auto.
  Qed.
  Lemma then_moves : forall X (p : lbody X) s r a s1 r1, lmoves p s r a s1 r1 -> forall X' (g : X -> lbody X') b s2 r2, lmoves (g a) s1 r1 b s2 r2 ->
    lmoves (lthen p g) s r b s2 r2.
  Proof. induction 1; intros; cbn [lthen]; [auto|]. econstructor; eauto. Qed.
End Lists.

Section Collect.
  Import ListSpec(lstep, countable).
  Import ListHistory ListRunProofs IterShareListProofs.
  Context {T S B : Type}.
  Variable eqb : T -> T -> bool.
  Variable clone : T -> T.
  Variable keep : B -> T -> option T.
  Notation lbody := (body (ListSpec.lop T) (ListSpec.lanswer T)).
  Notation lmoves := (lmoves eqb clone).
  Notation vals := ListProofs.vals.

  (** The loop of Map and Filter is that of Fold. *)
  Lemma collect_fold : forall n (f : S -> T -> lbody (B * S)) fuel w it st,
    lcollect_loop eqb clone keep n fuel w it f st = (r <- LIter_Fold eqb clone fuel w it tt (lcollecting keep n f) st ;; Ret (snd (fst r), snd r)).
  Proof.
    induction fuel as [|fuel IH]; intros w it st; [reflexivity|]. cbn [lcollect_loop LIter_Fold].
    destruct (ListModel.Next it (cells w)) as [[[it' x] h]| |]; cbn [bind fst snd]; auto. destruct x as [x|]; [|reflexivity].
    unfold lcollecting at 1. rewrite lperform_then. destruct (lperform eqb clone (f st x) _) as [[[b st'] w']| |]; cbn [bind fst snd]; auto.
    destruct (keep b x) as [y|]; cbn [lperform]; [|cbn [bind]; apply IH].
    destruct (exec eqb clone w' _) as [q| |]; cbn [bind]; auto.
  Qed.
  Lemma stands_new : forall w it s r, stands w it s r -> exists w', exec eqb clone w ListSpec.New = Ret (w', ListSpec.Done) /\ stands w' it (s ++ [[]]) r /\ length (vars w) = length s.
  Proof.
    intros w it s r Hs. assert (Cn : countable (s ++ [[]])). { apply Forall_app. split; [exact (proj1 Hs)|]. repeat constructor. }
    assert (Lw : length (vars w) = length s).
    { destruct Hs as (C & css & O & -> & R). rewrite map_length. exact (owns_length _ _ O). }
    assert (M : lmoves (Call ListSpec.New (fun _ => Return tt)) s r tt (s ++ [[]]) r).
    { assert (Rm : r = lmoved s ListSpec.New r) by (destruct r as [pre [[u k]|]]; reflexivity). rewrite Rm at 2. econstructor; [constructor|exact Cn|constructor]. }
    destruct (lperform_moves eqb clone _ _ _ _ _ _ _ M w it Hs) as (w' & E & Hs'). cbn [lperform exec] in E. cbn [exec] in *. cbn [bind fst snd lperform] in E.
    injection E as <-. eauto.
  Qed.
  Lemma collect_rounds : forall ops s a w v l n (f : S -> T -> lbody (B * S)) st k st' s' r', ListSpec.lhistory eqb clone [] ops s a -> run eqb clone start ops = Ret (w, a) ->
    nth_error s v = Some l -> n = length s -> lrounds eqb clone (lcollecting keep n f) k tt st (s ++ [[]]) (lbegin v l) tt st' s' r' ->
    exists l0, idx (vars w) v = Ret l0 /\
      (forall fuel, fuel <= k -> lcollect eqb clone keep fuel w (ListModel.IntoIter l0) f st = Diverge) /\
      (fst (lgiven s' r') = None -> exists w' ln, idx (vars w') n = Ret ln /\
        (forall fuel, k < fuel -> lcollect eqb clone keep fuel w (ListModel.IntoIter l0) f st = Ret (st', w', ListModel.IntoIter ln)) /\
        forall u m, nth_error s' u = Some m -> exists w1, exec eqb clone w' (ListSpec.Elements u) = Ret (w1, ListSpec.Many m)).
  Proof.
    intros ops s a w v l n f st k st' s' r' H E N -> R. destruct (stands_begin eqb clone _ _ _ _ _ _ H E N) as (l0 & El & St).
    destruct (stands_new _ _ _ _ St) as (w0 & E0 & St0 & Lw). exists l0. split; [exact El|]. unfold lcollect. rewrite Lw, E0. cbn [bind fst]. split.
    - intros fuel Lf. destruct (rounds_prefix eqb clone _ _ _ _ _ _ _ _ _ _ R fuel Lf) as (acc1 & st1 & s1 & r1 & R1).
      destruct (fold_rounds eqb clone _ _ _ _ _ _ _ _ _ _ R1 _ _ St0) as (w' & it' & _ & F). specialize (F 0). rewrite Nat.add_0_r in F.
      rewrite collect_fold, F. reflexivity.
    - intros G. destruct (fold_rounds eqb clone _ _ _ _ _ _ _ _ _ _ R _ _ St0) as (w' & it' & St' & F).
      assert (Lw' : length s < length (vars w')).
      { destruct St' as (C & css & O & V & _). rewrite (owns_length _ _ O), <- (map_length vals css), <- V.
        pose proof (rounds_grow eqb clone _ _ _ _ _ _ _ _ _ _ R) as Gr. rewrite app_length in Gr. cbn [length] in Gr. lia. }
      destruct (nth_error (vars w') (length s)) as [ln|] eqn:En; [|apply nth_error_None in En; lia].
      exists w', ln. assert (Ei : idx (vars w') (length s) = Ret ln) by (unfold idx; now rewrite En). split; [exact Ei|]. split.
      + intros fuel Lf. rewrite collect_fold. replace fuel with (k + (fuel - k)) by lia. rewrite F. rewrite (fold_over eqb clone _ _ _ _ _ _ _ _ St' G) by lia.
        cbn [bind fst snd]. rewrite Ei. reflexivity.
      + intros u m Hm. eapply stands_shows; eauto.
  Qed.
  Definition inside (v : nat) (r : @lrest T) : Prop := match snd r with Some (u, _) => u = v | None => True end.
  Lemma inside_moved : forall v s o r, frontal o = true -> inside v r -> inside v (lmoved s o r).
  Proof.
    intros v s o [pre [[u k]|]] Fr H; unfold inside, lmoved in *; cbn [fst snd] in *; [|exact I].
    destruct o; cbn [frontal] in Fr; try discriminate; cbn [snd]; auto;
      repeat (match goal with |- context [if ?b then _ else _] => destruct b | |- context [match ?k with O => _ | _ => _ end] => destruct k end; cbn [snd]; auto).
  Qed.
  Lemma inside_moves : forall v X (p : lbody X) s r a s1 r1, lmoves p s r a s1 r1 -> lcareful p -> inside v r -> inside v r1.
  Proof. induction 1 as [|o k s r s1 x a s2 r2 St Cn Mv IH]; intros L H; [exact H|]. destruct L as [Lo Lk]. apply IH; auto. now apply inside_moved. Qed.
  Lemma inside_given : forall v s r, inside v r -> inside v (snd (lgiven s r)).
  Proof.
    intros v s [[|x pre] [[u k]|]] H; unfold inside, lgiven in *; cbn [fst snd] in *; auto. destruct (Datatypes.S k <? length (nth u s [])); auto.
  Qed.
  Lemma careful_collect : forall n (f : S -> T -> lbody (B * S)) st l s st' s', lcollected eqb clone keep n f st l s st' s' -> (forall st x, lcareful (f st x)) ->
    forall v r, v <> n -> sound s r -> inside v r -> ahead s r = l ->
    exists r', lrounds eqb clone (lcollecting keep n f) (length l) tt st s r tt st' s' r' /\ fst (lgiven s' r') = None.
  Proof.
    intros n f st l s st' s' H L v.
    induction H as [st s|st x l s b st1 s1 y m st2 s2 Ru K Nm Cn Co IH|st x l s b st1 s1 st2 s2 Ru K Co IH]; intros r D So Is Ah; destruct (ahead_next s r So) as (H1 & H2).
    - exists r. split; [constructor|]. rewrite <- H1, Ah. reflexivity.
    - rewrite Ah in H1, H2. cbn [hd_error tl] in H1, H2. destruct H2 as [So2 A2].
      destruct (careful_moves eqb clone _ _ _ _ _ Ru (L _ _) _ So2) as (r1 & M & So1 & A1).
      pose proof (inside_moves v _ _ _ _ _ _ _ M (L _ _) (inside_given _ _ _ Is)) as Is1.
      assert (Ln : n < length s1) by (apply nth_error_Some; congruence).
      assert (Q : sound (list_set s1 n (m ++ [y])) r1 /\ ahead (list_set s1 n (m ++ [y])) r1 = ahead s1 r1).
      { destruct r1 as [pre [[u k]|]]; unfold sound, ahead, inside in *; cbn [fst snd] in *; [|auto]. subst u.
        rewrite BaseLemmas.list_set_length, nth_list_set by auto. destruct (Nat.eqb_spec n v); [congruence|auto]. }
      destruct Q as [So3 A3]. destruct (IH r1 D So3 Is1) as (r' & R & G); [congruence|].
      exists r'. split; [|exact G]. cbn [length]. econstructor; [symmetry; exact H1| |exact R].
      unfold lcollecting. eapply then_moves; [exact M|]. cbn [fst snd]. rewrite K.
      assert (Rm : r1 = lmoved s1 (ListSpec.PushBack n y) r1) by (destruct r1 as [pre [[u k]|]]; reflexivity). rewrite Rm at 2.
      econstructor; [constructor; exact Nm|exact Cn|constructor].
    - rewrite Ah in H1, H2. cbn [hd_error tl] in H1, H2. destruct H2 as [So2 A2].
      destruct (careful_moves eqb clone _ _ _ _ _ Ru (L _ _) _ So2) as (r1 & M & So1 & A1).
      pose proof (inside_moves v _ _ _ _ _ _ _ M (L _ _) (inside_given _ _ _ Is)) as Is1.
      destruct (IH r1 D So1 Is1) as (r' & R & G); [congruence|].
      exists r'. split; [|exact G]. cbn [length]. econstructor; [symmetry; exact H1| |exact R].
      unfold lcollecting. eapply then_moves; [exact M|]. cbn [fst snd]. rewrite K. constructor.
  Qed.
  Lemma collect_careful_list : forall ops s a w v l n (f : S -> T -> lbody (B * S)) st st' s', ListSpec.lhistory eqb clone [] ops s a -> run eqb clone start ops = Ret (w, a) ->
    nth_error s v = Some l -> n = length s -> (forall st x, lcareful (f st x)) -> lcollected eqb clone keep n f st l (s ++ [[]]) st' s' ->
    exists l0 w' ln, idx (vars w) v = Ret l0 /\ idx (vars w') n = Ret ln /\
      (forall fuel, length l < fuel -> lcollect eqb clone keep fuel w (ListModel.IntoIter l0) f st = Ret (st', w', ListModel.IntoIter ln)) /\
      forall u m, nth_error s' u = Some m -> exists w1, exec eqb clone w' (ListSpec.Elements u) = Ret (w1, ListSpec.Many m).
  Proof.
    intros ops s a w v l n f st st' s' H E N -> L C. assert (Lv : v < length s) by (apply nth_error_Some; congruence).
    destruct (begin_sound (s ++ [[]]) v l) as [So Ah]; [now rewrite nth_error_app1|].
    destruct (careful_collect _ _ _ _ _ _ _ C L v (lbegin v l)) as (r' & R & G); [lia|exact So|destruct l; cbn; auto|exact Ah|].
    destruct (collect_rounds _ _ _ _ _ _ _ _ _ _ _ _ _ H E N eq_refl R) as (l0 & El & _ & W). destruct (W G) as (w' & ln & En & F & Sh). exists l0, w', ln. auto.
  Qed.
  (** A function that pushes at the back of the list. *)
  Lemma countable_set : forall (s : list (list T)) v l, countable s -> (Z.of_nat (length l) < 2 ^ 64)%Z -> countable (list_set s v l).
  Proof.
    intros s v l C B0. apply Forall_forall. intros m Hm. apply In_nth_error in Hm as [j Hj]. rewrite BaseLemmas.nth_error_list_set in Hj.
    destruct (Nat.eqb_spec v j) as [->|].
    - destruct (j <? length s); [|discriminate]. injection Hj as <-. exact B0.
    - apply nth_error_In in Hj. now apply (proj1 (Forall_forall _ _) C).
  Qed.
  Lemma push_collect : forall (y : S -> T -> T) (x : S -> T -> B) (next : S -> T -> S) v n, v <> n -> forall k st s j l m,
    nth_error s v = Some l -> nth_error s n = Some m -> Datatypes.S j < length l -> countable s ->
    (Z.of_nat (length l + k) < 2 ^ 64)%Z -> (Z.of_nat (length m + k) < 2 ^ 64)%Z -> exists st' s' r',
    lrounds eqb clone (lcollecting keep n (fun st e => Call (ListSpec.PushBack v (y st e)) (fun _ => Return (x st e, next st e)))) k tt st s ([], Some (v, j)) tt st' s' r'.
  Proof.
    intros y x next v n D. induction k as [|k IH]; intros st s j l m N Nm L C B1 B2; [repeat eexists; constructor|].
    destruct (nth_error l j) as [e|] eqn:E; [|apply nth_error_None in E; lia].
    assert (Hn : nth v s [] = l) by now apply nth_error_nth.
    assert (Lv : v < length s) by (apply nth_error_Some; congruence). assert (Ln : n < length s) by (apply nth_error_Some; congruence).
    pose proof (ListSpec.l_push_back eqb clone s v (y st e) l N) as St.
    assert (Cn : countable (list_set s v (l ++ [y st e]))) by (apply countable_set; [exact C|rewrite app_length; cbn [length]; lia]).
    assert (N1 : nth_error (list_set s v (l ++ [y st e])) v = Some (l ++ [y st e])) by now apply BaseLemmas.nth_error_list_set_eq.
    assert (Nm1 : nth_error (list_set s v (l ++ [y st e])) n = Some m) by now rewrite BaseLemmas.nth_error_list_set_neq.
    assert (Mv : forall st2 s2, (match keep (x st e) e with
        | Some z => s2 = list_set (list_set s v (l ++ [y st e])) n (m ++ [z])
        | None => s2 = list_set s v (l ++ [y st e]) end) -> st2 = next st e ->
      lmoves (lcollecting keep n (fun st e => Call (ListSpec.PushBack v (y st e)) (fun _ => Return (x st e, next st e))) st tt e) s ([], Some (v, Datatypes.S j)) (tt, st2) s2 ([], Some (v, Datatypes.S j))).
    { intros st2 s2 H ->. unfold lcollecting. cbn [lthen fst snd]. econstructor; [exact St|exact Cn|]. cbn [lmoved snd fst].
      destruct (keep (x st e) e) as [z|]; subst s2; [|constructor].
      econstructor; [constructor; exact Nm1|apply countable_set; [exact Cn|rewrite app_length; cbn [length]; lia]|]. constructor. }
    assert (G : lgiven s ([], Some (v, j)) = (Some e, ([], Some (v, Datatypes.S j)))).
    { unfold lgiven. rewrite Hn, E. destruct (Nat.ltb_spec (Datatypes.S j) (length l)); [reflexivity|lia]. }
    destruct (keep (x st e) e) as [z|].
    - destruct (IH (next st e) (list_set (list_set s v (l ++ [y st e])) n (m ++ [z])) (Datatypes.S j) (l ++ [y st e]) (m ++ [z])) as (st' & s' & r' & R);
        try (rewrite app_length; cbn [length]; lia).
      + rewrite BaseLemmas.nth_error_list_set_neq by auto. exact N1.
      + apply BaseLemmas.nth_error_list_set_eq. now rewrite BaseLemmas.list_set_length.
      + apply countable_set; [exact Cn|rewrite app_length; cbn [length]; lia].
      + exists st', s', r'. eapply lrounds_S; [now rewrite G|rewrite G; cbn [snd]; apply Mv; reflexivity|exact R].
    - destruct (IH (next st e) (list_set s v (l ++ [y st e])) (Datatypes.S j) (l ++ [y st e]) m) as (st' & s' & r' & R);
        try (rewrite app_length; cbn [length]; lia); auto; [lia|].
      exists st', s', r'. eapply lrounds_S; [now rewrite G|rewrite G; cbn [snd]; apply Mv; reflexivity|exact R].
  Qed.
  Lemma collect_endless : forall ops s a w v l (y : S -> T -> T) (x : S -> T -> B) (next : S -> T -> S) st k,
    ListSpec.lhistory eqb clone [] ops s a -> run eqb clone start ops = Ret (w, a) ->
    nth_error s v = Some l -> 2 <= length l -> (Z.of_nat (length l + k) < 2 ^ 64)%Z ->
    exists l0, idx (vars w) v = Ret l0 /\
      lcollect eqb clone keep k w (ListModel.IntoIter l0) (fun st e => Call (ListSpec.PushBack v (y st e)) (fun _ => Return (x st e, next st e))) st = Diverge.
  Proof.
    intros ops s a w v l y x next st k H E N L B0. destruct (stands_begin eqb clone _ _ _ _ _ _ H E N) as (l0 & _ & C & _).
    assert (Lv : v < length s) by (apply nth_error_Some; congruence).
    destruct (push_collect y x next v (length s) ltac:(lia) k st (s ++ [[]]) 0 l []) as (st' & s' & r' & R).
    - now rewrite nth_error_app1.
    - rewrite nth_error_app2, Nat.sub_diag by lia. reflexivity.
    - exact L.
    - apply Forall_app. split; [exact C|]. repeat constructor.
    - exact B0.
    - cbn [length]. lia.
    - assert (Lb : lbegin v l = ([], Some (v, 0))) by (destruct l; [cbn in L; lia|reflexivity]). rewrite <- Lb in R.
      destruct (collect_rounds _ _ _ _ _ _ _ _ _ _ _ _ _ H E N eq_refl R) as (l1 & El & Dv & _). exists l1. split; [exact El|]. now apply Dv.
  Qed.
End Collect.

(** *** A deque *)
From Verif Require DequeModel DequeSpec DequeHistory DequeProofs DequeRunProofs IterShareDequeProofs.
Section Deque.
  Import DequeModel DequeSpec(dstep, cost, space).
  Import DequeHistory DequeProofs DequeRunProofs IterShareDequeProofs.
  Context {T S : Type}.
  Variable zero : T.
  Variable limit : Z.
  Hypothesis limit_ok : (7 <= limit < 2 ^ 63)%Z.
  Variable eqb : T -> T -> bool.
  Notation dbody := (body (DequeSpec.dop (T := T)) (DequeSpec.danswer (T := T))).
  Notation rep := (DequeProofs.rep (T := T) limit).
  Notation dperform := (dperform zero limit eqb).
  Notation dfold_loop := (dfold_loop (S := S) zero limit eqb).
  Notation druns := (druns eqb).
  Notation spent ops b := (fold_left (fun z o => z + cost o)%Z ops b).
  Notation tracks := (tracks limit).
  Notation fits c l b := (Z.of_nat c <= b /\ 2 * Z.of_nat (length l) <= b /\ 7 <= b)%Z.

  Lemma druns_nonneg : forall X (p : dbody X) l ops a l', druns p l ops a l' -> Forall (fun o => (0 <= cost o)%Z) ops.
  Proof. induction 1; constructor; auto. eapply cost_nonneg; eauto. Qed.
  Lemma spent_app : forall (o1 o2 : list (DequeSpec.dop (T := T))) b, spent (o1 ++ o2) b = spent o2 (spent o1 b).
  Proof. intros. apply fold_left_app. Qed.

  Lemma dperform_gentle : forall X (p : dbody X) l ops a l', druns p l ops a l' -> forall w d c it e b rest,
    rep d l c -> tracks d l c w it (e, 0) -> dgentle eqb l w (ops ++ rest) -> fits c l b -> (spent ops b <= limit)%Z ->
    exists d' c' it' w', dperform p d it = Ret (a, (d', it')) /\ rep d' l' c' /\ tracks d' l' c' w' it' (e, 0) /\ dgentle eqb l' w' rest /\
      fits c' l' (spent ops b).
  Proof.
    induction 1 as [a l|o k l l1 x ops a l2 St Ru IH]; intros w d c it e b rest R Tr G (F1 & F2 & F3) Sp; cbn [app fold_left IterReenterModel.dperform] in *.
    - exists d, c, it, w. auto 10.
    - inversion G as [|? ? ? l1' x' w1 ? St' Af G1]; subst. destruct (dstep_det limit limit_ok eqb _ _ _ _ _ _ St St') as [<- <-].
      assert (Le : (b + cost o <= limit)%Z). { eapply Z.le_trans; [|exact Sp]. apply fold_le. eapply druns_nonneg; eauto. }
      destruct (exec_step zero limit limit_ok eqb d l c b o l1 x R F1 F2 F3 St Le) as (d' & c' & E & R' & B1 & B2 & B3 & _).
      rewrite E. cbn [bind fst snd]. eapply IH; eauto. eapply tracks_step; eauto.
  Qed.
  Lemma fold_gentle : forall f acc st es l ops acc' st' l', dfolded eqb f acc st es l ops acc' st' l' -> forall w d c it e i b fuel,
    rep d l c -> tracks d l c w it (e, 0) -> dgentle eqb l w ops -> fits c l b -> (spent ops b <= limit)%Z -> es = skipn i e -> i <= length e -> length es < fuel ->
    exists d' c', dfold_loop fuel (Z.of_nat i) d it acc f st = Ret (acc', st', d') /\ rep d' l' c'.
  Proof.
    induction 1 as [acc st l|acc st x es l ops1 acc1 st1 l1 ops2 acc2 st2 l2 Ru Fo IH]; intros w d c it e i b [|fuel] R Tr G F Sp Es Li Lf; try (cbn in Lf; lia);
      cbn [IterReenterModel.dfold_loop]; destruct (proj1 Tr) as (c1 & R1); cbn [fst] in R1; pose proof (rep_len limit _ _ _ R1) as Ln.
    - assert (length e <= i). { assert (Q : length (skipn i e) = 0) by now rewrite <- Es. rewrite skipn_length in Q. lia. }
      unfold Len. rewrite Ln. destruct (Z.ltb_spec (Z.of_nat i) (Z.of_nat (length e))); [lia|]. eauto.
    - assert (Ni : nth_error e i = Some x). { rewrite <- (firstn_skipn i e), <- Es, nth_error_app2; rewrite firstn_length, Nat.min_l by lia; [|lia]. now rewrite Nat.sub_diag. }
      assert (i < length e) by (apply nth_error_Some; congruence).
      unfold Len. rewrite Ln. destruct (Z.ltb_spec (Z.of_nat i) (Z.of_nat (length e))); [|lia].
      rewrite (Get_spec limit limit_ok _ _ _ i R1), Ni by lia. cbn [bind].
      rewrite spent_app in Sp.
      assert (Sp1 : (spent ops1 b <= limit)%Z).
      { eapply Z.le_trans; [|exact Sp]. apply fold_le. clear - Fo. induction Fo; [constructor|]. apply Forall_app. split; [eapply druns_nonneg; eauto|auto]. }
      destruct (dperform_gentle _ _ _ _ _ _ Ru _ _ _ _ _ _ _ R Tr G F Sp1) as (d1 & c2 & it1 & w1 & E1 & R2 & Tr2 & G2 & F2).
      rewrite E1. cbn [bind]. replace (Z.of_nat i + 1)%Z with (Z.of_nat (Datatypes.S i)) by lia.
      eapply IH; eauto; [|cbn [length] in Lf; lia].
      rewrite (IterShareListProofs.skipn_1 _ _ _ Ni) in Es. congruence.
  Qed.

  (** Functions that do not resize the deque. *)
  Definition follows (d : VecDeque T) (it : diter (T := T)) : Prop := hdr it = d /\ attached it = true.
  Lemma dperform_steady : forall X (p : dbody X) l ops a l', druns p l ops a l' -> forall d c it b,
    rep d l c -> follows d it -> Forall (fun o => dresizes o = false) ops -> fits c l b -> (spent ops b <= limit)%Z ->
    exists d' c' it', dperform p d it = Ret (a, (d', it')) /\ rep d' l' c' /\ follows d' it' /\ length l' = length l /\ fits c' l' (spent ops b).
  Proof.
    induction 1 as [a l|o k l l1 x ops a l2 St Ru IH]; intros d c it b R [Hh At] G (F1 & F2 & F3) Sp; cbn [fold_left IterReenterModel.dperform] in *.
    - exists d, c, it. unfold follows. auto 10.
    - inversion G as [|? ? Nr G1]; subst.
      assert (Le : (b + cost o <= limit)%Z). { eapply Z.le_trans; [|exact Sp]. apply fold_le. eapply druns_nonneg; eauto. }
      destruct (exec_step zero limit limit_ok eqb (hdr it) l c b o l1 x R F1 F2 F3 St Le) as (d' & c' & E & R' & B1 & B2 & B3 & _).
      destruct (steady_step zero limit limit_ok eqb _ l c o l1 x d' c' R R' St E Nr) as (Lq & Rp & Hd).
      assert (Fw : follows d' (IterShareModel.seen o (hdr it) d' it)).
      { unfold IterShareModel.seen, follows. rewrite At, Rp. cbn [hdr attached]. split; [|reflexivity].
        rewrite (rep_len _ _ _ _ R), <- Lq, <- (rep_len _ _ _ _ R'), <- Hd. apply hdr_eta. }
      rewrite E. cbn [bind fst snd].
      destruct (IH d' c' (IterShareModel.seen o (hdr it) d' it) (b + cost o)%Z R' Fw G1 (conj B1 (conj B2 B3)) Sp) as (d2 & c2 & it2 & E2 & R2 & W2 & L2 & F4).
      exists d2, c2, it2. split; [exact E2|]. split; [exact R2|]. split; [exact W2|]. split; [congruence|exact F4].
  Qed.
  Lemma fold_steady : forall f i n acc st l ops acc' st' l', dfolded_live eqb f i n acc st l ops acc' st' l' -> forall d c it b fuel,
    rep d l c -> follows d it -> Forall (fun o => dresizes o = false) ops -> fits c l b -> (spent ops b <= limit)%Z -> i + n = length l -> n < fuel ->
    exists d' c', dfold_loop fuel (Z.of_nat i) d it acc f st = Ret (acc', st', d') /\ rep d' l' c'.
  Proof.
    induction 1 as [i acc st l|i n acc st x l ops1 acc1 st1 l1 ops2 acc2 st2 l2 Ni Ru Fo IH]; intros d c it b [|fuel] R W G F Sp Li Lf; try lia;
      cbn [IterReenterModel.dfold_loop]; destruct (W) as [Hh At]; subst d; pose proof (rep_len limit _ _ _ R) as Ln; unfold Len; rewrite Ln.
    - destruct (Z.ltb_spec (Z.of_nat i) (Z.of_nat (length l))); [lia|]. eauto.
    - destruct (Z.ltb_spec (Z.of_nat i) (Z.of_nat (length l))); [|lia].
      rewrite (Get_spec limit limit_ok _ _ _ i R), Ni. cbn [bind]. rewrite spent_app in Sp. apply Forall_app in G as [G1 G2].
      assert (Sp1 : (spent ops1 b <= limit)%Z).
      { eapply Z.le_trans; [|exact Sp]. apply fold_le. clear - Fo. induction Fo; [constructor|]. apply Forall_app. split; [eapply druns_nonneg; eauto|auto]. }
      destruct (dperform_steady _ _ _ _ _ _ Ru _ _ _ _ R W G1 F Sp1) as (d1 & c1 & it1 & E1 & R1 & W1 & L1 & F1).
      rewrite E1. cbn [bind]. replace (Z.of_nat i + 1)%Z with (Z.of_nat (Datatypes.S i)) by lia.
      eapply IH; eauto; lia.
  Qed.

  Lemma deque_start : forall d l, shows d l -> layout limit d -> exists c, rep d l c /\ fits c l (7 + 2 * Capacity d)%Z.
  Proof.
    intros d l Sh La. pose proof (shows_rep limit limit_ok _ _ Sh La) as R. exists (Z.to_nat (Capacity d)). split; [exact R|].
    destruct La as (L1 & L2 & L3). destruct Sh as (S1 & _). rewrite S1 in L1. lia.
  Qed.

  (** Map and Filter. *)
  Variable B : Type.
  Variable keep : B -> T -> option T.
  Lemma push_kept : forall nd zs cn y m, rep nd zs cn -> (m = 0 -> y = None) -> length zs + m <= cn ->
    exists nd' zs', match y with Some y => PushBack zero limit nd y | None => Ret nd end = Ret nd' /\ rep nd' zs' cn /\
      (forall kept, zs ++ kept_with y kept = zs' ++ kept) /\ length zs' + (m - 1) <= cn.
  Proof.
    intros nd zs cn [y|] m R Hm L.
    - assert (m <> 0) by (intros E; specialize (Hm E); discriminate). pose proof (rep_pos limit _ _ _ R) as P.
      assert (Rm : roomier (length zs) cn = cn) by (unfold roomier; destruct (Nat.eqb_spec (length zs) cn); lia).
      destruct (PushBack_spec zero limit limit_ok nd zs cn y R) as (nd' & E & R'); [rewrite Rm; lia|]. rewrite Rm in R'.
      exists nd', (zs ++ [y]). split; [exact E|]. split; [exact R'|]. split; [intros kept; cbn [kept_with]; now rewrite <- app_assoc|]. rewrite app_length. cbn [length]. lia.
    - exists nd, zs. split; [reflexivity|]. split; [exact R|]. split; [reflexivity|]. lia.
  Qed.
  Notation dcollect_loop := (dcollect_loop (S := S) zero limit eqb keep).
  Lemma collect_gentle : forall f st es l ops kept st' l', dcollected eqb keep f st es l ops kept st' l' -> forall w d c it e i b fuel nd zs cn,
    rep d l c -> tracks d l c w it (e, 0) -> dgentle eqb l w ops -> fits c l b -> (spent ops b <= limit)%Z -> es = skipn i e -> i <= length e -> length es < fuel ->
    rep nd zs cn -> length zs + length es <= cn ->
    exists d' c' nd', dcollect_loop fuel (Z.of_nat i) d it nd f st = Ret (st', d', nd') /\ rep d' l' c' /\ rep nd' (zs ++ kept) cn.
  Proof.
    induction 1 as [st l|st x es l ops1 y st1 l1 ops2 kept st2 l2 Ru Fo IH]; intros w d c it e i b [|fuel] nd zs cn R Tr G F Sp Es Li Lf Rn Lc; try (cbn in Lf; lia);
      cbn [IterReenterModel.dcollect_loop]; destruct (proj1 Tr) as (c1 & R1); cbn [fst] in R1; pose proof (rep_len limit _ _ _ R1) as Ln.
    - assert (length e <= i). { assert (Q : length (skipn i e) = 0) by now rewrite <- Es. rewrite skipn_length in Q. lia. }
      unfold Len. rewrite Ln. destruct (Z.ltb_spec (Z.of_nat i) (Z.of_nat (length e))); [lia|]. exists d, c, nd. rewrite app_nil_r. auto.
    - assert (Ni : nth_error e i = Some x). { rewrite <- (firstn_skipn i e), <- Es, nth_error_app2; rewrite firstn_length, Nat.min_l by lia; [|lia]. now rewrite Nat.sub_diag. }
      assert (i < length e) by (apply nth_error_Some; congruence).
      unfold Len. rewrite Ln. destruct (Z.ltb_spec (Z.of_nat i) (Z.of_nat (length e))); [|lia].
      rewrite (Get_spec limit limit_ok _ _ _ i R1), Ni by lia. cbn [bind].
      rewrite spent_app in Sp.
      assert (Sp1 : (spent ops1 b <= limit)%Z).
      { eapply Z.le_trans; [|exact Sp]. apply fold_le. clear - Fo. induction Fo; [constructor|]. apply Forall_app. split; [eapply druns_nonneg; eauto|auto]. }
      destruct (dperform_gentle _ _ _ _ _ _ Ru _ _ _ _ _ _ _ R Tr G F Sp1) as (d1 & c2 & it1 & w1 & E1 & R2 & Tr2 & G2 & F2).
      rewrite E1. cbn [bind]. cbn [length] in Lc, Lf.
      destruct (push_kept nd zs cn (keep y x) (Datatypes.S (length es)) Rn) as (nd1 & zs1 & En & Rn1 & Kp & Lc1); [discriminate|lia|].
      rewrite En. cbn [bind]. rewrite Kp. replace (Z.of_nat i + 1)%Z with (Z.of_nat (Datatypes.S i)) by lia.
      eapply IH; eauto; [|lia|lia].
      rewrite (IterShareListProofs.skipn_1 _ _ _ Ni) in Es. congruence.
  Qed.
  Lemma collect_steady : forall f i n st l ops kept st' l', dcollected_live eqb keep f i n st l ops kept st' l' -> forall d c it b fuel nd zs cn,
    rep d l c -> follows d it -> Forall (fun o => dresizes o = false) ops -> fits c l b -> (spent ops b <= limit)%Z -> i + n = length l -> n < fuel ->
    rep nd zs cn -> length zs + n <= cn ->
    exists d' c' nd', dcollect_loop fuel (Z.of_nat i) d it nd f st = Ret (st', d', nd') /\ rep d' l' c' /\ rep nd' (zs ++ kept) cn.
  Proof.
    induction 1 as [i st l|i n st x l ops1 y st1 l1 ops2 kept st2 l2 Ni Ru Fo IH]; intros d c it b [|fuel] nd zs cn R W G F Sp Li Lf Rn Lc; try lia;
      cbn [IterReenterModel.dcollect_loop]; destruct (W) as [Hh At]; subst d; pose proof (rep_len limit _ _ _ R) as Ln; unfold Len; rewrite Ln.
    - destruct (Z.ltb_spec (Z.of_nat i) (Z.of_nat (length l))); [lia|]. exists (hdr it), c, nd. rewrite app_nil_r. auto.
    - destruct (Z.ltb_spec (Z.of_nat i) (Z.of_nat (length l))); [|lia].
      rewrite (Get_spec limit limit_ok _ _ _ i R), Ni. cbn [bind]. rewrite spent_app in Sp. apply Forall_app in G as [G1 G2].
      assert (Sp1 : (spent ops1 b <= limit)%Z).
      { eapply Z.le_trans; [|exact Sp]. apply fold_le. clear - Fo. induction Fo; [constructor|]. apply Forall_app. split; [eapply druns_nonneg; eauto|auto]. }
      destruct (dperform_steady _ _ _ _ _ _ Ru _ _ _ _ R W G1 F Sp1) as (d1 & c1 & it1 & E1 & R1 & W1 & L1 & F1).
      rewrite E1. cbn [bind].
      destruct (push_kept nd zs cn (keep y x) (Datatypes.S n) Rn) as (nd1 & zs1 & En & Rn1 & Kp & Lc1); [discriminate|lia|].
      rewrite En. cbn [bind]. rewrite Kp. replace (Z.of_nat i + 1)%Z with (Z.of_nat (Datatypes.S i)) by lia.
      eapply IH; eauto; lia.
  Qed.
  Lemma new_deque : forall d l c, rep d l c -> exists nd cn, VecDequeWithCapacity zero limit (Capacity d) = Ret nd /\ rep nd [] cn /\ length l <= cn.
  Proof.
    intros d l c R. pose proof (rep_pos limit _ _ _ R) as P. rewrite (rep_cap limit _ _ _ R).
    destruct (WithCapacity_spec zero limit c) as (nd & E & Rn); [rewrite Nat.max_l by lia; lia|]. exists nd, (Nat.max c 1). split; [exact E|]. split; [exact Rn|]. lia.
  Qed.
  Lemma dcollect_gentle : forall (f : S -> T -> dbody (B * S)) d l st ops kept st' l' fuel, layout limit d -> shows d l ->
    dcollected eqb keep f st l l ops kept st' l' -> dgentle eqb l (Inside 0 (length l)) ops -> (space (Capacity d) ops <= limit)%Z -> length l < fuel ->
    exists d' nd', dcollect zero limit eqb keep fuel d (Deque_IntoIter d) f st = Ret (st', d', Deque_IntoIter nd') /\ shows d' l' /\ shows nd' kept.
  Proof.
    intros f d l st ops kept st' l' fuel La Sh Fo G Sp Lf. destruct (deque_start d l Sh La) as (c & R & F).
    destruct (new_deque d l c R) as (nd & cn & En & Rn & Lc). unfold dcollect. cbn [Deque_IntoIter hdr]. rewrite En. cbn [bind].
    destruct (collect_gentle _ _ _ _ _ _ _ _ Fo (Inside 0 (length l)) d c (Deque_IntoIter d) l 0 _ fuel nd [] cn R
      (tracks_iter limit _ _ _ R) G F Sp eq_refl (Nat.le_0_l _) Lf Rn Lc) as (d' & c' & nd' & E & R' & Rn').
    change (Z.of_nat 0) with 0%Z in E. unfold Deque_IntoIter in *. rewrite E. cbn [bind fst snd]. exists d', nd'. split; [reflexivity|].
    split; [exact (proj1 (rep_shows limit limit_ok _ _ _ R'))|exact (proj1 (rep_shows limit limit_ok _ _ _ Rn'))].
  Qed.
  Lemma dcollect_steady : forall (f : S -> T -> dbody (B * S)) d l st ops kept st' l' fuel, layout limit d -> shows d l ->
    dcollected_live eqb keep f 0 (length l) st l ops kept st' l' -> Forall (fun o => dresizes o = false) ops -> (space (Capacity d) ops <= limit)%Z -> length l < fuel ->
    exists d' nd', dcollect zero limit eqb keep fuel d (Deque_IntoIter d) f st = Ret (st', d', Deque_IntoIter nd') /\ shows d' l' /\ shows nd' kept.
  Proof.
    intros f d l st ops kept st' l' fuel La Sh Fo G Sp Lf. destruct (deque_start d l Sh La) as (c & R & F).
    destruct (new_deque d l c R) as (nd & cn & En & Rn & Lc). unfold dcollect. cbn [Deque_IntoIter hdr]. rewrite En. cbn [bind].
    destruct (collect_steady _ _ _ _ _ _ _ _ _ Fo d c (Deque_IntoIter d) _ fuel nd [] cn R (conj eq_refl eq_refl) G F Sp eq_refl Lf Rn Lc) as (d' & c' & nd' & E & R' & Rn').
    change (Z.of_nat 0) with 0%Z in E. unfold Deque_IntoIter in *. rewrite E. cbn [bind fst snd]. exists d', nd'. split; [reflexivity|].
    split; [exact (proj1 (rep_shows limit limit_ok _ _ _ R'))|exact (proj1 (rep_shows limit limit_ok _ _ _ Rn'))].
  Qed.
End Deque.
