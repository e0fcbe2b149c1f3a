(** VarProofs.v -- assignments and references: proofs. *)
From Coq Require Import List ZArith Lia.
From Verif Require Import Base BaseLemmas Effect IntModel Int128Model FloatModel ComplexModel VarModel VarSpec.
Import ListNotations.

Lemma ity_eqb_ok a b : ity_eqb a b = true -> a = b.
Proof. destruct a, b; try discriminate; reflexivity. Qed.
Lemma assigned_method o a b : assigned o a b = method o a b.
Proof. destruct a, b; try reflexivity. Qed.
Lemma idx_nth {A} (m : list A) p v : nth_error m p = Some v -> idx m p = Ret v.
Proof. unfold idx, of_option. intros ->. reflexivity. Qed.
Lemma idx_Ret {A} (m : list A) p v : idx m p = Ret v -> nth_error m p = Some v.
Proof. unfold idx, of_option. destruct (nth_error m p); congruence. Qed.
Lemma upd_only {A} (m : list A) p v w : nth_error m p = Some v -> exists m', upd m p w = Ret m' /\ only_changed p w m m'.
Proof.
  intros H. assert (p < length m) by (apply nth_error_Some; congruence).
  exists (list_set m p w). split; [now apply upd_Ret|]. split; [now apply nth_error_list_set_eq|].
  split; [apply list_set_length|]. intros q N. apply nth_error_list_set_neq; auto.
Qed.
Lemma upd_keeps {A} (m m' : list A) p w q : upd m p w = Ret m' -> q <> p -> nth_error m' q = nth_error m q.
Proof.
  intros H N. assert (p < length m). { unfold upd in H. destruct (Nat.ltb_spec p (length m)); [auto|discriminate]. }
  rewrite upd_Ret in H by auto. inversion H; subst. apply nth_error_list_set_neq; auto.
Qed.

Ltac inv H := inversion H; subst; clear H.
Lemma OpAssign_keeps o m p rhs m' q : OpAssign o m p rhs = Some (Ret m') -> q <> p -> nth_error m' q = nth_error m q.
Proof.
  unfold OpAssign. destruct (idx m p) as [v| |]; try discriminate. destruct (assigned o v rhs) as [[w| |]|]; cbn [bind]; try discriminate.
  intros H N. inv H. eapply upd_keeps; eauto.
Qed.
Lemma step_keeps m s m' a q : step m s = Some (Ret (m', a)) -> ~ writes s q -> q < length m -> nth_error m' q = nth_error m q.
Proof.
  intros H W L. destruct s as [o p rhs|o p p'|p x|p p'|p|p]; cbn [step writes] in *.
  - destruct (OpAssign o m p rhs) as [[r| |]|] eqn:E; cbn [bind] in H; try discriminate. inv H. eapply OpAssign_keeps; eauto.
  - destruct (idx m p') as [rhs| |]; try discriminate. destruct (OpAssign o m p rhs) as [[r| |]|] eqn:E; cbn [bind] in H; try discriminate. inv H. eapply OpAssign_keeps; eauto.
  - destruct (upd m p x) as [r| |] eqn:E; cbn [bind] in H; try discriminate. inv H. eapply upd_keeps; eauto.
  - unfold Swap in H. destruct (idx m p') as [x| |]; cbn [bind] in H; try discriminate.
    destruct (idx m p) as [y| |]; cbn [bind] in H; try discriminate.
    destruct (upd m p x) as [m1| |] eqn:E1; cbn [bind] in H; try discriminate.
    destruct (upd m1 p' y) as [m2| |] eqn:E2; cbn [bind] in H; try discriminate. inv H.
    rewrite (upd_keeps _ _ _ _ q E2) by intuition congruence. eapply upd_keeps; eauto.
  - unfold AsRef in H. destruct (idx m p) as [x| |]; cbn [bind fst] in H; try discriminate. inv H. now apply nth_error_app1.
  - destruct (idx m p) as [x| |]; cbn [bind] in H; try discriminate. inv H. reflexivity.
Qed.
Lemma upd_length {A} (m m' : list A) p w : upd m p w = Ret m' -> length m' = length m.
Proof. unfold upd. destruct (p <? length m)%nat; [|discriminate]. intros H. inv H. apply list_set_length. Qed.
Lemma OpAssign_length o m p rhs m' : OpAssign o m p rhs = Some (Ret m') -> length m' = length m.
Proof.
  unfold OpAssign. destruct (idx m p) as [v| |]; try discriminate. destruct (assigned o v rhs) as [[w| |]|]; cbn [bind]; try discriminate.
  intros H. inv H. eapply upd_length; eauto.
Qed.
Lemma step_length m s m' a : step m s = Some (Ret (m', a)) -> length m <= length m'.
Proof.
  intros H. destruct s as [o p rhs|o p p'|p x|p p'|p|p]; cbn [step] in *.
  - destruct (OpAssign o m p rhs) as [[r| |]|] eqn:E; cbn [bind] in H; try discriminate. inv H. rewrite (OpAssign_length _ _ _ _ _ E). auto.
  - destruct (idx m p') as [rhs| |]; try discriminate. destruct (OpAssign o m p rhs) as [[r| |]|] eqn:E; cbn [bind] in H; try discriminate. inv H. rewrite (OpAssign_length _ _ _ _ _ E). auto.
  - destruct (upd m p x) as [r| |] eqn:E; cbn [bind] in H; try discriminate. inv H. rewrite (upd_length _ _ _ _ E). auto.
  - unfold Swap in H. destruct (idx m p') as [x| |]; cbn [bind] in H; try discriminate.
    destruct (idx m p) as [y| |]; cbn [bind] in H; try discriminate.
    destruct (upd m p x) as [m1| |] eqn:E1; cbn [bind] in H; try discriminate.
    destruct (upd m1 p' y) as [m2| |] eqn:E2; cbn [bind] in H; try discriminate. inv H.
    rewrite (upd_length _ _ _ _ E2), (upd_length _ _ _ _ E1). auto.
  - unfold AsRef in H. destruct (idx m p) as [x| |]; cbn [bind fst] in H; try discriminate. inv H. rewrite app_length. lia.
  - destruct (idx m p) as [x| |]; cbn [bind] in H; try discriminate. inv H. reflexivity.
Qed.
Lemma run_keeps prog : forall m m' a q, run m prog = Some (Ret (m', a)) -> leaves_alone prog q -> q < length m ->
  nth_error m' q = nth_error m q.
Proof.
  induction prog as [|s prog IH]; intros m m' a q H W L; cbn [run] in H.
  - inv H. reflexivity.
  - destruct (step m s) as [[[m1 a1]| |]|] eqn:E; try discriminate.
    destruct (run m1 prog) as [[[m2 a2]| |]|] eqn:R; cbn [bind fst snd] in H; try discriminate. inv H.
    pose proof (step_length _ _ _ _ E).
    rewrite (IH _ _ _ q R); [|intros s' I; apply W; now right|lia].
    eapply step_keeps; eauto. apply W. now left.
Qed.

(** *** HashMap *)
Section Hash.
  Context {K V : Type}.
  Variable keqb : K -> K -> bool.
  (** One call on a map of one's own. *)
  Definition solo (d : HashModel.HashMap K V) (o : hop) : HashModel.HashMap K V * @hans V :=
    match o with
    | HInsert k v => (fst (HashModel.Insert keqb d k v), HVal (snd (HashModel.Insert keqb d k v)))
    | HRemove k => (fst (HashModel.Remove keqb d k), HVal (snd (HashModel.Remove keqb d k)))
    | HClear => ([], HDone)
    | HGet k => (d, HVal (HashModel.Get keqb d k))
    | HLen => (d, HNumber (HashModel.Len d))
    end.
  Lemma hstep_solo : forall (m : maps) p d o, nth_error m p = Some d ->
    exists m' p', hstep keqb m p o = Ret (m', p', snd (solo d o)) /\ nth_error m' p' = Some (fst (solo d o)) /\
      (p' = p \/ p' = length m) /\ (o <> HClear -> p' = p) /\ length m <= length m' /\
      forall q, q < length m -> q <> p -> nth_error m' q = nth_error m q.
  Proof.
    intros m p d o N. unfold hstep. rewrite (idx_nth _ _ _ N). cbn [bind].
    destruct o as [k v|k| |k|]; cbn [solo fst snd].
    - destruct (upd_only m p d (HashModel.assign keqb d k v) N) as (m1 & E & O1 & O2 & O3).
      cbn [HashModel.Insert fst snd]. rewrite E. cbn [bind]. exists m1, p. repeat split; auto. lia.
    - destruct (upd_only m p d (HashModel.delete keqb d k) N) as (m1 & E & O1 & O2 & O3).
      cbn [HashModel.Remove fst snd]. rewrite E. cbn [bind]. exists m1, p. repeat split; auto. lia.
    - exists (m ++ [[]]), (length m). split; [reflexivity|]. split; [rewrite nth_error_app2, Nat.sub_diag by lia; reflexivity|].
      split; [auto|]. split; [congruence|]. split; [rewrite app_length; lia|]. intros q L _. now apply nth_error_app1.
    - exists m, p. repeat split; auto.
    - exists m, p. repeat split; auto.
  Qed.
  Fixpoint solos (d : HashModel.HashMap K V) (ops : list (bool * @hop K V)) : list (@hans V) :=
    match ops with [] => [] | (_, o) :: r => snd (solo d o) :: solos (fst (solo d o)) r end.
  Lemma hrun_shared : forall ops (m : maps) p d, nth_error m p = Some d -> (forall b, ~ In (b, HClear) ops) ->
    exists m', hrun keqb m p p ops = Ret (m', p, p, solos d ops).
  Proof.
    induction ops as [|[b o] ops IH]; intros m p d N C; cbn [hrun solos].
    - exists m. reflexivity.
    - destruct (hstep_solo m p d o N) as (m1 & p1 & E & N1 & _ & P & _). specialize (P ltac:(intros ->; eapply C; left; reflexivity)). subst p1.
      replace (if b then p else p) with p by (destruct b; reflexivity). rewrite E. cbn [bind].
      destruct (IH m1 p _ N1) as (m2 & E2). { intros c I. eapply C. right. exact I. }
      exists m2. destruct b; rewrite E2; reflexivity.
  Qed.
  (** One variable that is not shared; the other one is not used. *)
  Lemma hrun_false : forall ops (m : maps) v r d, nth_error m v = Some d -> (forall b o, In (b, o) ops -> b = false) ->
    exists m' v', hrun keqb m v r ops = Ret (m', v', r, solos d ops).
  Proof.
    induction ops as [|[b o] ops IH]; intros m v r d N C; cbn [hrun solos].
    - exists m, v. reflexivity.
    - rewrite (C b o) by (left; reflexivity).
      destruct (hstep_solo m v d o N) as (m1 & p1 & E & N1 & _). rewrite E. cbn [bind].
      destruct (IH m1 p1 r _ N1) as (m2 & v2 & E2). { intros c o' I. eapply C. right. exact I. }
      exists m2, v2. rewrite E2. reflexivity.
  Qed.
  Lemma hrun_true : forall ops (m : maps) v r d, nth_error m r = Some d -> (forall b o, In (b, o) ops -> b = true) ->
    exists m' r', hrun keqb m v r ops = Ret (m', v, r', solos d ops).
  Proof.
    induction ops as [|[b o] ops IH]; intros m v r d N C; cbn [hrun solos].
    - exists m, r. reflexivity.
    - rewrite (C b o) by (left; reflexivity).
      destruct (hstep_solo m r d o N) as (m1 & p1 & E & N1 & _). rewrite E. cbn [bind].
      destruct (IH m1 v p1 _ N1) as (m2 & v2 & E2). { intros c o' I. eapply C. right. exact I. }
      exists m2, v2. rewrite E2. reflexivity.
  Qed.
  Lemma only_all : forall b (ops : list (bool * @hop K V)) c o, In (c, o) (only b ops) -> c = b.
  Proof. intros b ops c o I. apply filter_In in I. destruct I as [_ I]. now apply Bool.eqb_prop in I. Qed.
  Lemma hrun_apart : forall ops (m : maps) v r dv dr, v <> r -> nth_error m v = Some dv -> nth_error m r = Some dr ->
    exists m' v' r' l, hrun keqb m v r ops = Ret (m', v', r', l) /\
      answers false ops l = solos dv (only false ops) /\ answers true ops l = solos dr (only true ops).
  Proof.
    induction ops as [|[b o] ops IH]; intros m v r dv dr NE Nv Nr; cbn [hrun].
    - exists m, v, r, []. auto.
    - assert (Lv : v < length m) by (apply nth_error_Some; congruence). assert (Lr : r < length m) by (apply nth_error_Some; congruence).
      destruct b.
      + destruct (hstep_solo m r dr o Nr) as (m1 & p1 & E & N1 & P & _ & L & F). rewrite E. cbn [bind].
        destruct (IH m1 v p1 dv (fst (solo dr o))) as (m2 & v2 & r2 & l & E2 & A & B); [lia | rewrite F by auto; exact Nv | exact N1 |].
        rewrite E2. cbn [bind]. exists m2, v2, r2, (snd (solo dr o) :: l). split; [reflexivity|].
        unfold answers, only in *. cbn [combine filter fst snd Bool.eqb map solos]. split; [exact A|]. now rewrite B.
      + destruct (hstep_solo m v dv o Nv) as (m1 & p1 & E & N1 & P & _ & L & F). rewrite E. cbn [bind].
        destruct (IH m1 p1 r (fst (solo dv o)) dr) as (m2 & v2 & r2 & l & E2 & A & B); [lia | exact N1 | rewrite F by auto; exact Nr |].
        rewrite E2. cbn [bind]. exists m2, v2, r2, (snd (solo dv o) :: l). split; [reflexivity|].
        unfold answers, only in *. cbn [combine filter fst snd Bool.eqb map solos]. split; [|exact B]. now rewrite A.
  Qed.
  Lemma solos_relabel : forall f ops d, solos d (map (fun x => (f x : bool, snd x)) ops) = solos d ops.
  Proof. induction ops as [|[b o] ops IH]; intros d; cbn [map solos snd]; [reflexivity|]. now rewrite IH. Qed.
End Hash.

(** *** Vec *)
From Verif Require Import VecModel VecProofs.
Section VecRef.
  Context {T : Type}.
  Variables (zero : T) (extra : nat -> nat -> nat).
  Implicit Types (m : VecModel.mem T) (v : slice).
  Lemma append_other : forall m v xs, valid m v -> contents (fst (append zero extra m v xs)) v = contents m v.
  Proof.
    intros m v xs [A L]. unfold append. unfold scap in L. destruct (Nat.leb_spec (slen v + length xs) (length (array m v))) as [H|H]; cbn [fst].
    - unfold contents at 1. unfold array at 1. rewrite nth_list_set, Nat.eqb_refl, (proj2 (Nat.ltb_lt _ _) A). cbn [andb].
      rewrite firstn_app, firstn_firstn, firstn_length. replace (slen v - _) with 0 by lia. rewrite firstn_O, app_nil_r.
      unfold contents. f_equal. lia.
    - unfold contents, array. rewrite nth_app_fresh by auto. reflexivity.
  Qed.
  Lemma append_twice : forall m v x y, valid m v ->
    let (m1, r) := Push zero extra m v x in let (m2, v') := Push zero extra m1 v y in
    contents m2 v' = contents m v ++ [y] /\
    contents m2 r = contents m v ++ [if slen v <? scap m v then y else x].
  Proof.
    intros m v x y V. pose proof V as [A L]. unfold Push. pose proof (append_spec zero extra m v [x] V) as S1.
    destruct (append zero extra m v [x]) as [m1 r] eqn:E1. destruct S1 as ((V1 & A1 & L1 & F1) & C1 & N1).
    pose proof (append_other m v [x] V) as O1. rewrite E1 in O1. cbn [fst] in O1.
    assert (V2 : valid m1 v).
    { split; [lia|]. unfold append in E1. destruct (slen v + length [x] <=? length (array m v)) eqn:Q; inversion E1; subst; unfold scap, array.
      - rewrite nth_list_set, Nat.eqb_refl, (proj2 (Nat.ltb_lt _ _) A). cbn [andb]. rewrite app_length, firstn_length. unfold scap, array in L. lia.
      - rewrite nth_app_fresh by auto. exact L. }
    pose proof (append_spec zero extra m1 v [y] V2) as S2. destruct (append zero extra m1 v [y]) as [m2 v'] eqn:E2.
    destruct S2 as ((V3 & A3 & L3 & F3) & C3 & N3). rewrite O1 in C3. split; [exact C3|].
    unfold append in E1. cbn [length] in E1. unfold scap in *. destruct (Nat.leb_spec (slen v + 1) (length (array m v))) as [H|H].
    - replace (slen v <? length (array m v)) with true by (symmetry; apply Nat.ltb_lt; lia).
      assert (R : r = mkSlice (arr v) (slen v + 1)) by congruence.
      assert (CP : length (array m1 v) = length (array m v)).
      { inversion E1; subst. unfold array at 1. rewrite nth_list_set, Nat.eqb_refl, (proj2 (Nat.ltb_lt _ _) A). cbn [andb].
        rewrite !app_length, firstn_length. cbn [length]. rewrite skipn_length. lia. }
      unfold append in E2. cbn [length] in E2. rewrite CP, (proj2 (Nat.leb_le _ _) H) in E2.
      assert (v' = r) by congruence. subst v'. exact C3.
    - replace (slen v <? length (array m v)) with false by (symmetry; apply Nat.ltb_ge; lia).
      rewrite <- C1. unfold contents, array. f_equal. inversion E1; subst. cbn [arr]. apply F3; [rewrite app_length; cbn; lia | cbn [arr]; lia].
  Qed.
  Lemma pop_push : forall m v x, valid m v -> slen v <> 0 ->
    exists y r, Pop m v = Ret (r, Some y) /\ contents m v = contents m r ++ [y] /\
      contents (fst (Push zero extra m r x)) v = contents m r ++ [x].
  Proof.
    intros m v x V N. pose proof V as [A L]. unfold Pop. rewrite (proj2 (Nat.eqb_neq _ _) N).
    assert (LC : length (contents m v) = slen v) by (apply contents_length; auto).
    destruct (nth_error (contents m v) (slen v - 1)) as [y|] eqn:E; [|apply nth_error_None in E; lia].
    unfold idx. rewrite E. cbn [of_option bind]. exists y, (reslice v (slen v - 1)). split; [reflexivity|].
    assert (CR : contents m (reslice v (slen v - 1)) = firstn (slen v - 1) (contents m v)) by (apply reslice_contents; lia).
    split.
    - rewrite CR. rewrite <- (firstn_skipn (slen v - 1) (contents m v)) at 1. f_equal.
      assert (LS : length (skipn (slen v - 1) (contents m v)) = 1) by (rewrite skipn_length; lia).
      assert (HS : nth_error (skipn (slen v - 1) (contents m v)) 0 = Some y) by (rewrite nth_error_skipn, Nat.add_0_r; exact E).
      destruct (skipn (slen v - 1) (contents m v)) as [|z [|z' q]]; cbn in LS, HS; congruence || lia.
    - assert (VR : valid m (reslice v (slen v - 1))). { split; cbn [reslice arr slen]; [exact A|]. unfold scap, array in *. cbn [reslice arr]. lia. }
      pose proof (append_spec zero extra m _ [x] VR) as S. unfold Push. destruct (append zero extra m (reslice v (slen v - 1)) [x]) as [m1 r1] eqn:E1.
      destruct S as (_ & C & _). cbn [fst]. rewrite <- C. f_equal. unfold append in E1. cbn [reslice arr slen length] in E1.
      unfold scap in L. replace (slen v - 1 + 1) with (slen v) in E1 by lia.
      change (array m (reslice v (slen v - 1))) with (array m v) in E1.
      rewrite (proj2 (Nat.leb_le _ _) L) in E1. inversion E1. destruct v; reflexivity.
  Qed.
End VecRef.
