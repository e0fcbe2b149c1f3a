(** AsyncProofs.v -- background calls awaited at once, slices left alone, slices changed. *)
From Verif Require Import Base BaseLemmas OsModel FsModel AsyncSpec AsyncModel FsWriteProofs.
Open Scope Z_scope.

(** *** Awaited at once *)
Lemma main_id (m : main) : m = match m with
  | Finish => Finish | Do o k => Do o k | Start o k => Start o k | Await h k => Await h k | SetByte s i b k => SetByte s i b k end.
Proof. now destruct m. Qed.
Lemma direct_eq (q : script) : direct q = match q with
  | SFinish => Finish | SCall o k => Do o (fun a => direct (k a)) | SSetByte s i b k => SetByte s i b (direct k) end.
Proof. rewrite (main_id (direct q)). now destruct q. Qed.
Lemma awaited_eq (q : script) : awaited q = match q with
  | SFinish => Finish | SCall o k => Start o (fun h => Await h (fun a => awaited (k a))) | SSetByte s i b k => SetByte s i b (awaited k) end.
Proof. rewrite (main_id (awaited q)). now destruct q. Qed.

Lemma turns_app cap c ts1 ts2 : turns cap c (ts1 ++ ts2) =
  let (c1, a) := turns cap c ts1 in let (c2, b) := turns cap c1 ts2 in (c2, a ++ b).
Proof.
  revert c. induction ts1 as [|t r IH]; intros c; cbn [app turns].
  - now destruct (turns cap c ts2).
  - destruct (turn_step cap c t) as [c1 a]. rewrite IH. destruct (turns cap c1 r) as [c2 b]. destruct (turns cap c2 ts2) as [c3 d]. now rewrite app_assoc.
Qed.
Lemma turns_one cap c t : turns cap c [t] = turn_step cap c t.
Proof. cbn [turns]. destruct (turn_step cap c t). now rewrite app_nil_r. Qed.

Definition settled (F : list (operation * option worker)) : Prop := Forall (fun f => snd f = None) F.
Inductive same : conf -> conf -> Prop :=
| same_code w sl F q : settled F -> same (mkConf w sl [] (Code (direct q))) (mkConf w sl F (Code (awaited q)))
| same_in w sl F o wk k : settled F ->
    same (mkConf w sl [] (Inside wk (fun a => direct (k a))))
         (mkConf w sl (F ++ [(o, Some wk)]) (Code (Await (length F) (fun a => awaited (k a))))).

Lemma settled_nth F h o wk : settled F -> nth_error F h = Some (o, Some wk) -> False.
Proof. intros S E. apply nth_error_In in E. unfold settled in S. rewrite Forall_forall in S. specialize (S _ E). discriminate. Qed.
Lemma last_future {A} (F : list A) x : nth_error (F ++ [x]) (length F) = Some x.
Proof. rewrite nth_error_app2, Nat.sub_diag by lia. reflexivity. Qed.
Lemma set_last {A} (F : list A) x y : list_set (F ++ [x]) (length F) y = F ++ [y].
Proof. induction F as [|z F IH]; cbn; [reflexivity | now rewrite IH]. Qed.

Lemma gokio_same o : gokio o = o.
Proof. now destruct o. Qed.
(** The two, step by step: t of the awaited one, none or one of the direct one. *)
Lemma same_step cap cd ca t : same cd ca -> exists ts cd' ca' a,
  turn_step cap ca t = (ca', a) /\ turns cap cd ts = (cd', a) /\ same cd' ca'.
Proof.
  intros S. destruct t as [[h|] ch]; destruct S as [w sl F q St|w sl F o wk k St].
  - (* a worker, all settled *)
    assert (E : turn_step cap (mkConf w sl F (Code (awaited q))) (Some h, ch) = (mkConf w sl F (Code (awaited q)), [])).
    { cbn [turn_step fst snd]. unfold worker_step. destruct (over _); [reflexivity|]. cbn [futures].
      destruct (nth_error F h) as [[o [wk|]]|] eqn:E; [exfalso; eapply settled_nth; eauto | reflexivity | reflexivity]. }
    rewrite E. exists [], (mkConf w sl [] (Code (direct q))). do 2 eexists. split; [reflexivity|]. split; [reflexivity|]. now constructor.
  - (* a worker, one under way *)
    cbn [turn_step fst snd]. unfold worker_step, over. cbn [code futures mem fsys].
    destruct (Nat.eq_dec h (length F)) as [->|N].
    + rewrite last_future. destruct wk as [p|pa s|fd s ca0].
      * destruct p as [r| | | | | | | | | | |].
        { exists []. do 3 eexists. split; [reflexivity|]. split; [reflexivity|]. now constructor. }
        all: destruct (wstep sl w _ ch) as [w1 wk1] eqn:E; exists [(None, ch)]; do 3 eexists; (split; [reflexivity|]);
          rewrite turns_one; cbn [turn_step fst snd]; unfold main_step; cbn [code mem fsys futures]; rewrite E; (split; [reflexivity|]);
          rewrite set_last; now constructor.
      * destruct (wstep sl w _ ch) as [w1 wk1] eqn:E. exists [(None, ch)]. do 3 eexists. split; [reflexivity|].
        rewrite turns_one. cbn [turn_step fst snd]. unfold main_step. cbn [code mem fsys futures]. rewrite E. split; [reflexivity|].
        rewrite set_last. now constructor.
      * destruct (wstep sl w _ ch) as [w1 wk1] eqn:E. exists [(None, ch)]. do 3 eexists. split; [reflexivity|].
        rewrite turns_one. cbn [turn_step fst snd]. unfold main_step. cbn [code mem fsys futures]. rewrite E. split; [reflexivity|].
        rewrite set_last. now constructor.
    + assert (Q : match nth_error (F ++ [(o, Some wk)]) h with Some (_, Some _) => False | _ => True end).
      { destruct (Nat.lt_ge_cases h (length F)) as [L|L].
        - rewrite nth_error_app1 by auto. destruct (nth_error F h) as [[o1 [wk1|]]|] eqn:E; auto. eapply settled_nth; eauto.
        - rewrite nth_error_app2 by lia. destruct (h - length F)%nat as [|x] eqn:E; [lia|]. cbn. now destruct x. }
      exists []. exists (mkConf w sl [] (Inside wk (fun a => direct (k a)))). do 2 eexists.
      destruct (nth_error (F ++ [(o, Some wk)]) h) as [[o1 [wk1|]]|]; [destruct Q| |]; (split; [reflexivity|]); (split; [reflexivity|]); now constructor.
  - (* main, in the program *)
    cbn [turn_step fst snd]. unfold main_step. cbn [code mem fsys futures]. rewrite awaited_eq. destruct q as [|o k|s i b k].
    + exists []. do 3 eexists. split; [reflexivity|]. split; [reflexivity|].
      change (Code Finish) with (Code (match SFinish with SFinish => Finish | SCall o k => Start o (fun h => Await h (fun a => awaited (k a))) | SSetByte s i b k => SetByte s i b (awaited k) end)).
      rewrite <- awaited_eq. now constructor.
    + exists [(None, ch)]. do 3 eexists. split; [reflexivity|]. rewrite turns_one. cbn [turn_step fst snd]. unfold main_step. cbn [code mem fsys futures].
      rewrite direct_eq. split; [reflexivity|]. rewrite gokio_same. now constructor.
    + exists [(None, ch)]. destruct (i <? length (slice_of sl s))%nat eqn:E; do 3 eexists; (split; [reflexivity|]);
        rewrite turns_one; cbn [turn_step fst snd]; unfold main_step; cbn [code mem fsys futures]; rewrite direct_eq, E; (split; [reflexivity|]).
      * now constructor.
      * replace (Code Finish) with (Code (direct SFinish)) at 1 by (now rewrite direct_eq).
        replace (Code Finish) with (Code (awaited SFinish)) by (now rewrite awaited_eq). now constructor.
  - (* main, waiting *)
    cbn [turn_step fst snd]. unfold main_step at 1. cbn [code mem fsys futures]. rewrite last_future.
    destruct wk as [p|pa s|fd s ca0]; [destruct p as [r| | | | | | | | | | |]|..].
    1: { exists [(None, ch)]. do 3 eexists. split; [reflexivity|]. rewrite turns_one. cbn [turn_step fst snd]. unfold main_step. cbn [code mem fsys futures].
         split; [reflexivity|]. rewrite set_last. constructor. apply Forall_app. split; [auto|]. repeat constructor. }
    all: exists []; do 3 eexists; (split; [reflexivity|]); (split; [reflexivity|]); now constructor.
Qed.
(** ... and t of the direct one, none, one or two of the awaited one. *)
Lemma same_step_back cap cd ca t : same cd ca -> exists ts cd' ca' a,
  turn_step cap cd t = (cd', a) /\ turns cap ca ts = (ca', a) /\ same cd' ca'.
Proof.
  intros S. destruct t as [[h|] ch].
  - exists [], cd, ca, []. split; [|split; [reflexivity | exact S]]. cbn [turn_step fst snd]. unfold worker_step.
    destruct (over cd); [reflexivity|]. destruct S; cbn [futures]; destruct h; reflexivity.
  - destruct S as [w sl F q St|w sl F o wk k St].
    + destruct (same_step cap _ _ (None, ch) (same_code w sl F q St)) as (ts & cd' & ca' & a & E1 & E2 & S').
      cbn [turn_step fst snd] in *. unfold main_step in *. cbn [code mem fsys futures] in *. destruct q as [|o k|s i b k].
      * rewrite direct_eq. exists [], (mkConf w sl [] (Code Finish)). do 2 eexists. split; [reflexivity|]. split; [reflexivity|].
        replace (Code Finish) with (Code (direct SFinish)) by (now rewrite direct_eq). now constructor.
      * rewrite direct_eq. exists [(None, ch)]. do 3 eexists. split; [reflexivity|]. rewrite turns_one. cbn [turn_step fst snd]. unfold main_step. cbn [code mem fsys futures].
        rewrite awaited_eq. split; [reflexivity|]. rewrite gokio_same. now constructor.
      * rewrite direct_eq. exists [(None, ch)]. destruct (i <? length (slice_of sl s))%nat eqn:E; do 3 eexists; (split; [reflexivity|]);
          rewrite turns_one; cbn [turn_step fst snd]; unfold main_step; cbn [code mem fsys futures]; rewrite awaited_eq, E; (split; [reflexivity|]).
        -- now constructor.
        -- replace (Code Finish) with (Code (direct SFinish)) at 1 by (now rewrite direct_eq).
           replace (Code Finish) with (Code (awaited SFinish)) by (now rewrite awaited_eq). now constructor.
    + cbn [turn_step fst snd]. unfold main_step at 1. cbn [code mem fsys futures].
      destruct wk as [p|pa s|fd s ca0]; [destruct p as [r| | | | | | | | | | |]|..].
      1: { exists [(None, ch)]. do 3 eexists. split; [reflexivity|]. rewrite turns_one. cbn [turn_step fst snd]. unfold main_step. cbn [code mem fsys futures].
           rewrite last_future. split; [reflexivity|]. rewrite set_last. constructor. apply Forall_app. split; [auto|]. repeat constructor. }
      all: destruct (wstep sl w _ ch) as [w1 wk1] eqn:E; exists [(Some (length F), ch)]; do 3 eexists; (split; [reflexivity|]);
        rewrite turns_one; cbn [turn_step fst snd]; unfold worker_step, over; cbn [code mem fsys futures]; rewrite last_future, E; (split; [reflexivity|]);
        rewrite set_last; now constructor.
Qed.
Lemma same_runs cap ts : forall cd ca, same cd ca -> exists ts' cd' ca' a,
  turns cap ca ts = (ca', a) /\ turns cap cd ts' = (cd', a) /\ same cd' ca'.
Proof.
  induction ts as [|t r IH]; intros cd ca S.
  - exists [], cd, ca, []. split; [reflexivity|]. split; [reflexivity | exact S].
  - destruct (same_step cap cd ca t S) as (ts1 & cd1 & ca1 & a & E1 & E2 & S1). destruct (IH cd1 ca1 S1) as (ts2 & cd2 & ca2 & b & E3 & E4 & S2).
    exists (ts1 ++ ts2), cd2, ca2, (a ++ b). cbn [turns]. rewrite E1, E3, turns_app, E2, E4. auto.
Qed.
Lemma same_runs_back cap ts : forall cd ca, same cd ca -> exists ts' cd' ca' a,
  turns cap cd ts = (cd', a) /\ turns cap ca ts' = (ca', a) /\ same cd' ca'.
Proof.
  induction ts as [|t r IH]; intros cd ca S.
  - exists [], cd, ca, []. split; [reflexivity|]. split; [reflexivity | exact S].
  - destruct (same_step_back cap cd ca t S) as (ts1 & cd1 & ca1 & a & E1 & E2 & S1). destruct (IH cd1 ca1 S1) as (ts2 & cd2 & ca2 & b & E3 & E4 & S2).
    exists (ts1 ++ ts2), cd2, ca2, (a ++ b). cbn [turns]. rewrite E1, E3, turns_app, E2, E4. auto.
Qed.
Lemma same_shows cd ca : same cd ca -> fsys cd = fsys ca /\ mem cd = mem ca /\ over cd = over ca.
Proof.
  intros [w sl F q St|w sl F o wk k St]; cbn [fsys mem]; unfold over; cbn [code]; repeat split; auto.
  rewrite direct_eq, awaited_eq. now destruct q.
Qed.

(** *** Slices left alone while they are being written: as if the bytes were taken at the call *)
Definition writes_slice (wk : worker) (s : nat) : Prop :=
  match wk with Calls _ => False | Creating _ s' | Casting _ s' _ => s' = s end.
Inductive wsim (sl : slices) : worker -> worker -> Prop :=
| wsim_calls p : wsim sl (Calls p) (Calls p)
| wsim_creating p s data : slice_of sl s = data -> wsim sl (Creating p s) (Calls (pmap Plain (Write p data)))
| wsim_casting fd s casted data rest : slice_of sl s = data -> data = casted ++ rest ->
    wsim sl (Casting fd s casted) (Calls (FileWrite fd data (fun err => Close fd (Done (Plain (finish err tt)))))).
Lemma wsim_step sl w wk wk' ch w1 wk1 : wsim sl wk wk' -> wstep sl w wk ch = (w1, wk1) ->
  (forall s, writes_slice wk1 s -> writes_slice wk s) /\
  ((exists wk1', wstep sl w wk' ch = (w1, wk1') /\ wsim sl wk1 wk1') \/ (w1 = w /\ wsim sl wk1 wk')).
Proof.
  intros H E. destruct H as [p|p s data D|fd s casted data rest D Q]; cbn [wstep] in E.
  - destruct (step w p ch) as [w2 p2] eqn:E2. injection E as <- <-. split; [intros s []|]. left. cbn [wstep]. rewrite E2. eexists. split; [reflexivity|constructor].
  - destruct (fails ch) as [e|] eqn:Fl.
    + injection E as <- <-. split; [intros s' []|]. left. cbn [wstep]. unfold Write. cbn [pmap step]. rewrite Fl. eexists. split; [reflexivity|constructor].
    + destruct (os_Create w p) as [w2 [fd|e]] eqn:Cr; injection E as <- <-.
      * split; [intros s' <-; reflexivity|]. left. cbn [wstep]. unfold Write. cbn [pmap step]. rewrite Fl, Cr. eexists. split; [reflexivity|].
        cbn [pmap]. rewrite cast_id. cbn [app]. econstructor; [exact D | reflexivity].
      * split; [intros s' []|]. left. cbn [wstep]. unfold Write. cbn [pmap step]. rewrite Fl, Cr. eexists. split; [reflexivity|]. constructor.
  - injection E as <- <-. rewrite D, Q. destruct rest as [|b rest].
    + rewrite app_nil_r, (proj2 (nth_error_None casted (length casted))) by lia. split; [intros s' []|]. right. split; [reflexivity|].
      constructor.
    + rewrite nth_error_app2, Nat.sub_diag by lia. cbn [nth_error]. split; [intros s' <-; reflexivity|]. right. split; [reflexivity|].
      unfold byte_of. apply (wsim_casting sl fd s (casted ++ [b]) (casted ++ b :: rest) rest); [congruence|]. now rewrite <- app_assoc.
Qed.
Lemma wsim_done sl wk wk' : wsim sl wk wk' -> forall a, wk = Calls (Done a) <-> wk' = Calls (Done a).
Proof. intros [p|p s data D|fd s casted data rest D Q] a; split; intros E; try discriminate; auto. Qed.
Lemma wsim_other sl sl' wk wk' : wsim sl wk wk' -> (forall s, writes_slice wk s -> slice_of sl' s = slice_of sl s) -> wsim sl' wk wk'.
Proof.
  intros H E. destruct H as [p|p s data D|fd s casted data rest D Q].
  - constructor.
  - constructor. rewrite E; cbn; auto.
  - econstructor; [|exact Q]. rewrite E; cbn; auto.
Qed.
Lemma wsim_begin sl o : wsim sl (begin false sl o) (begin true sl o).
Proof. destruct o; cbn [begin]; constructor. reflexivity. Qed.

Definition fsim (sl : slices) (f f' : operation * option worker) : Prop :=
  fst f = fst f' /\
  match snd f, snd f' with
  | Some wk, Some wk' => wsim sl wk wk' /\ forall s, writes_slice wk s -> exists p, fst f = OWrite p s
  | None, None => True
  | _, _ => False
  end.
Definition csim (sl : slices) (m m' : mstate) : Prop :=
  match m, m' with
  | Code a, Code b => a = b
  | Inside wk k, Inside wk' k' => wsim sl wk wk' /\ k = k'
  | _, _ => False
  end.
Definition sim (c c' : conf) : Prop :=
  fsys c = fsys c' /\ mem c = mem c' /\ Forall2 (fsim (mem c)) (futures c) (futures c') /\ csim (mem c) (code c) (code c').

Lemma begin_slice sl o s : writes_slice (begin false sl o) s -> exists p, o = OWrite p s.
Proof. destruct o; cbn; intros E; try contradiction. subst. eauto. Qed.
Lemma F2_nth {A B} (R : A -> B -> Prop) l l' h x : Forall2 R l l' -> nth_error l h = Some x -> exists y, nth_error l' h = Some y /\ R x y.
Proof.
  intros H. revert h. induction H as [|a b l l' R0 H IH]; intros [|h] E; cbn in *; try discriminate; [injection E as <-; eauto | auto].
Qed.
Lemma F2_none {A B} (R : A -> B -> Prop) l l' h : Forall2 R l l' -> nth_error l h = None -> nth_error l' h = None.
Proof. intros H. revert h. induction H; intros [|h] E; cbn in *; auto; discriminate. Qed.
Lemma F2_len {A B} (R : A -> B -> Prop) l l' : Forall2 R l l' -> length l = length l'.
Proof. intros H. induction H; cbn; auto. Qed.
Lemma F2_set {A B} (R : A -> B -> Prop) l l' h x y : Forall2 R l l' -> R x y -> Forall2 R (list_set l h x) (list_set l' h y).
Proof. intros H Q. revert h. induction H; intros [|h]; cbn; constructor; auto. Qed.
Lemma F2_set_left {A B} (R : A -> B -> Prop) l l' h x y : Forall2 R l l' -> nth_error l' h = Some y -> R x y -> Forall2 R (list_set l h x) l'.
Proof. intros H E Q. revert h E. induction H; intros [|h] E; cbn in *; try discriminate; constructor; auto. now injection E as ->. Qed.
Lemma F2_mono {A B} (R R' : A -> B -> Prop) l l' : Forall2 R l l' -> (forall a b, In a l -> R a b -> R' a b) -> Forall2 R' l l'.
Proof. intros H. induction H; intros Q; constructor; [apply Q; cbn; auto|]. apply IHForall2. intros. apply Q; cbn; auto. Qed.

Lemma sim_step c c' t : sim c c' -> quiet c t -> exists ts c1 c1' a,
  turn_step false c t = (c1, a) /\ turns true c' ts = (c1', a) /\ sim c1 c1'.
Proof.
  destruct c as [w sl F m], c' as [w' sl' F' m']. unfold sim. cbn [fsys mem futures code]. intros (<- & <- & HF & HC) Qt.
  destruct t as [[h|] ch].
  - (* a worker *)
    cbn [turn_step fst snd]. unfold worker_step at 1. unfold over at 1. cbn [code futures mem fsys].
    assert (Skip : exists ts c1 c1' a, (mkConf w sl F m, @nil answer) = (c1, a) /\ turns true (mkConf w sl F' m') ts = (c1', a) /\
      fsys c1 = fsys c1' /\ mem c1 = mem c1' /\ Forall2 (fsim (mem c1)) (futures c1) (futures c1') /\ csim (mem c1) (code c1) (code c1')).
    { exists []. do 3 eexists. split; [reflexivity|]. split; [reflexivity|]. cbn [fsys mem futures code]. auto. }
    destruct (match m with Code Finish => true | _ => false end) eqn:Ov; [exact Skip|].
    assert (Ov' : over (mkConf w sl F' m') = false).
    { unfold over. cbn [code]. destruct m, m'; cbn in HC; try contradiction; subst; auto. }
    destruct (nth_error F h) as [[o [wk|]]|] eqn:E; [|exact Skip|exact Skip].
    destruct (F2_nth _ _ _ _ _ HF E) as ([o' [wk'|]] & E' & Hf); cbn [fst snd] in Hf; destruct Hf as [Ho Hf]; [|destruct Hf].
    cbn [fst snd] in Ho, Hf. subst o'. destruct Hf as [Hw Hs].
    assert (Dn : (exists a, wk = Calls (Done a)) \/ (forall a, wk <> Calls (Done a))).
    { destruct wk as [[]| |]; try (right; discriminate). eauto. }
    destruct Dn as [(a & ->)|Dn]; [exact Skip|].
    assert (Dn' : forall a, wk' <> Calls (Done a)) by (intros a Q; apply (Dn a); now apply (wsim_done _ _ _ Hw)).
    destruct (wstep sl w wk ch) as [w1 wk1] eqn:Es.
    assert (X : (match wk with Calls (Done _) => None | _ => Some (mkConf w1 sl (list_set F h (o, Some wk1)) m) end) = Some (mkConf w1 sl (list_set F h (o, Some wk1)) m)).
    { destruct wk as [[]| |]; auto. now destruct (Dn r). }
    destruct (wsim_step _ _ _ _ _ _ _ Hw Es) as (Hs1 & [(wk1' & Es' & Hw1)|(-> & Hw1)]).
    + exists [(Some h, ch)]. do 3 eexists. split.
      { instantiate (2 := mkConf w1 sl (list_set F h (o, Some wk1)) m). instantiate (1 := []).
        destruct wk as [[]| |]; try reflexivity. now destruct (Dn r). }
      split.
      { rewrite turns_one. cbn [turn_step fst snd]. unfold worker_step. rewrite Ov'. cbn [futures mem fsys code]. rewrite E', Es'.
        instantiate (1 := mkConf w1 sl (list_set F' h (o, Some wk1')) m').
        destruct wk' as [[]| |]; try reflexivity. now destruct (Dn' r). }
      cbn [fsys mem futures code]. split; [reflexivity|]. split; [reflexivity|]. split; [|exact HC].
      apply F2_set; [exact HF|]. split; [reflexivity|]. cbn [snd fst]. split; [exact Hw1|]. intros s W. apply Hs. auto.
    + exists []. do 3 eexists. split.
      { instantiate (2 := mkConf w sl (list_set F h (o, Some wk1)) m). instantiate (1 := []).
        destruct wk as [[]| |]; try reflexivity. now destruct (Dn r). }
      split; [reflexivity|].
      cbn [fsys mem futures code]. split; [reflexivity|]. split; [reflexivity|]. split; [|exact HC].
      eapply F2_set_left; [exact HF|exact E'|]. split; [reflexivity|]. cbn [snd fst]. split; [exact Hw1|]. intros s W. apply Hs. auto.
  - (* main *)
    cbn [turn_step fst snd]. unfold main_step at 1. cbn [code futures mem fsys].
    destruct m as [m|wk k], m' as [m'|wk' k']; cbn [csim] in HC; try contradiction.
    + subst m'. destruct m as [|o k|o k|h k|s i b k].
      * exists []. do 3 eexists. split; [reflexivity|]. split; [reflexivity|]. cbn [fsys mem futures code csim]. auto.
      * exists [(None, ch)]. do 3 eexists. split; [reflexivity|]. split; [rewrite turns_one; reflexivity|]. cbn [fsys mem futures code csim].
        repeat split; auto. apply wsim_begin.
      * exists [(None, ch)]. do 3 eexists. split; [reflexivity|]. split; [rewrite turns_one; reflexivity|]. cbn [fsys mem futures code csim].
        split; [auto|]. split; [auto|]. split; [|now rewrite (F2_len _ _ _ HF)].
        apply Forall2_app; [exact HF|]. constructor; [|constructor]. split; [reflexivity|]. rewrite gokio_same. cbn [snd fst]. split; [apply wsim_begin|]. intros s W. eapply begin_slice; eauto.
      * destruct (nth_error F h) as [[o [wk|]]|] eqn:E.
        -- destruct (F2_nth _ _ _ _ _ HF E) as ([o' [wk'|]] & E' & Hf); cbn [fst snd] in Hf; destruct Hf as [Ho Hf]; [|destruct Hf].
           cbn [fst snd] in Ho, Hf. subst o'. destruct Hf as [Hw Hs].
           assert (Dn : (exists a, wk = Calls (Done a)) \/ (forall a, wk <> Calls (Done a))).
           { destruct wk as [[]| |]; try (right; discriminate). eauto. }
           destruct Dn as [(a & ->)|Dn].
           ++ assert (wk' = Calls (Done a)) by (now apply (wsim_done _ _ _ Hw)). subst wk'.
              exists [(None, ch)]. do 3 eexists. split; [reflexivity|]. split.
              { rewrite turns_one. cbn [turn_step fst snd]. unfold main_step. cbn [code futures mem fsys]. rewrite E'. reflexivity. }
              cbn [fsys mem futures code csim]. split; [auto|]. split; [auto|]. split; [|auto].
              apply F2_set; [exact HF|]. split; [reflexivity|]. exact I.
           ++ exists []. exists (mkConf w sl F (Code (Await h k))). do 2 eexists. split.
              { instantiate (1 := []). destruct wk as [[]| |]; try reflexivity. now destruct (Dn r). }
              split; [reflexivity|]. cbn [fsys mem futures code csim]. auto.
        -- destruct (F2_nth _ _ _ _ _ HF E) as ([o' [wk'|]] & E' & Hf); cbn [fst snd] in Hf; destruct Hf as [Ho Hf]; [destruct Hf|].
           exists [(None, ch)]. do 3 eexists. split; [reflexivity|]. split.
           { rewrite turns_one. cbn [turn_step fst snd]. unfold main_step. cbn [code futures mem fsys]. rewrite E'. reflexivity. }
           cbn [fsys mem futures code csim]. auto.
        -- exists []. do 3 eexists. split; [reflexivity|]. split; [reflexivity|]. cbn [fsys mem futures code csim]. auto.
      * cbn [quiet fst code futures] in Qt.
        destruct (i <? length (slice_of sl s))%nat eqn:Hi.
        -- exists [(None, ch)]. do 3 eexists. split; [reflexivity|]. split.
           { rewrite turns_one. cbn [turn_step fst snd]. unfold main_step. cbn [code futures mem fsys]. rewrite Hi. reflexivity. }
           cbn [fsys mem futures code csim]. split; [auto|]. split; [auto|]. split; [|auto].
           eapply F2_mono; [exact HF|]. intros [o [wk|]] [o' [wk'|]] In0 [Ho Hf]; cbn [fst snd] in *; try contradiction; (split; [exact Ho|]); cbn [fst snd]; [|exact I].
           destruct Hf as [Hw Hs]. split; [|exact Hs]. eapply wsim_other; [exact Hw|].
           intros s' W. destruct (Hs s' W) as (p & ->). unfold slice_of.
           destruct (Nat.eq_dec s' s) as [->|N]; [exfalso; eapply Qt; exact In0|].
           destruct (nth_error sl s') as [x|] eqn:Ex.
           ++ rewrite (nth_error_nth _ _ _ Ex). apply nth_error_nth. rewrite nth_error_list_set_neq; auto.
           ++ rewrite !nth_overflow; auto; [apply nth_error_None, Ex | rewrite list_set_length; apply nth_error_None, Ex].
        -- exists [(None, ch)]. do 3 eexists. split; [reflexivity|]. split.
           { rewrite turns_one. cbn [turn_step fst snd]. unfold main_step. cbn [code futures mem fsys]. rewrite Hi. reflexivity. }
           cbn [fsys mem futures code csim]. auto.
    + destruct HC as [Hw <-].
      assert (Dn : (exists a, wk = Calls (Done a)) \/ (forall a, wk <> Calls (Done a))).
      { destruct wk as [[]| |]; try (right; discriminate). eauto. }
      destruct Dn as [(a & ->)|Dn].
      * assert (wk' = Calls (Done a)) by (now apply (wsim_done _ _ _ Hw)). subst wk'.
        exists [(None, ch)]. do 3 eexists. split; [reflexivity|]. split; [rewrite turns_one; reflexivity|]. cbn [fsys mem futures code csim]. auto.
      * assert (Dn' : forall a, wk' <> Calls (Done a)) by (intros a Q; apply (Dn a); now apply (wsim_done _ _ _ Hw)).
        destruct (wstep sl w wk ch) as [w1 wk1] eqn:Es.
        destruct (wsim_step _ _ _ _ _ _ _ Hw Es) as (Hs1 & [(wk1' & Es' & Hw1)|(-> & Hw1)]).
        -- exists [(None, ch)]. exists (mkConf w1 sl F (Inside wk1 k)). exists (mkConf w1 sl F' (Inside wk1' k)), []. split.
           { destruct wk as [[]| |]; try reflexivity. now destruct (Dn r). }
           split.
           { rewrite turns_one. cbn [turn_step fst snd]. unfold main_step. cbn [code futures mem fsys]. rewrite Es'.
             destruct wk' as [[]| |]; try reflexivity. now destruct (Dn' r). }
           cbn [fsys mem futures code csim]. auto.
        -- exists []. exists (mkConf w sl F (Inside wk1 k)). exists (mkConf w sl F' (Inside wk' k)), []. split.
           { destruct wk as [[]| |]; try reflexivity. now destruct (Dn r). }
           split; [reflexivity|]. cbn [fsys mem futures code csim]. auto.
Qed.
Lemma sim_runs ts : forall c c', sim c c' -> careful c ts -> exists ts' c1 c1' a,
  turns false c ts = (c1, a) /\ turns true c' ts' = (c1', a) /\ sim c1 c1'.
Proof.
  induction ts as [|t r IH]; intros c c' S Ca.
  - exists [], c, c', []. auto.
  - destruct Ca as [Q Ca]. destruct (sim_step c c' t S Q) as (ts1 & c1 & c1' & a & E1 & E2 & S1). rewrite E1 in Ca. cbn [fst] in Ca.
    destruct (IH _ _ S1 Ca) as (ts2 & c2 & c2' & b & E3 & E4 & S2).
    exists (ts1 ++ ts2), c2, c2', (a ++ b). cbn [turns]. rewrite E1, E3, turns_app, E2, E4. auto.
Qed.

(** *** Slices that are changed: every byte written was in its place at some time *)
Definition held (c : conf) (ts : list turn) (s i : nat) (b : Z) : Prop :=
  exists ts1 ts2, ts = ts1 ++ ts2 /\ nth_error (slice_of (mem (fst (turns false c ts1))) s) i = Some b.
Lemma held_more c ts ts' s i b : held c ts s i b -> held c (ts ++ ts') s i b.
Proof. intros (t1 & t2 & -> & H). exists t1, (t2 ++ ts'). now rewrite app_assoc. Qed.
Lemma held_now c ts s i b : nth_error (slice_of (mem (fst (turns false c ts))) s) i = Some b -> held c ts s i b.
Proof. intros H. exists ts, []. now rewrite app_nil_r. Qed.

Definition write_state (c : conf) (ts : list turn) (n s : nat) (wk : worker) : Prop :=
  match wk with
  | Creating _ s' => s' = s
  | Casting _ s' casted => s' = s /\ (length casted <= n)%nat /\ forall i b, nth_error casted i = Some b -> held c ts s i b
  | Calls p =>
      (exists a, p = Done a) \/ (exists fd a, p = Close fd (Done a)) \/
      exists fd bs full m, p = FileWrite fd bs (fun err => Close fd (Done (Plain (finish err tt)))) /\
        bs = skipn m full /\ length full = n /\ forall i b, nth_error full i = Some b -> held c ts s i b
  end.
Lemma write_state_more c ts ts' n s wk : write_state c ts n s wk -> write_state c (ts ++ ts') n s wk.
Proof.
  destruct wk as [p| |]; cbn [write_state]; auto.
  - intros [H|[H|(fd & bs & full & m & -> & A & B & C)]]; [auto|auto|]. right; right. exists fd, bs, full, m. repeat split; auto. intros. apply held_more. auto.
  - intros (A & B & C). repeat split; auto. intros. apply held_more. auto.
Qed.
Lemma write_state_step c ts n s wk w ch t : write_state c ts n s wk ->
  length (slice_of (mem (fst (turns false c ts))) s) = n ->
  write_state c (ts ++ [t]) n s (snd (wstep (mem (fst (turns false c ts))) w wk ch)).
Proof.
  intros H L. apply (write_state_more _ _ [t]). set (sl := mem (fst (turns false c ts))) in *. destruct wk as [p|pa s'|fd s' casted]; cbn [wstep write_state] in *.
  - destruct H as [(a & ->)|[(fd & a & ->)|(fd & bs & full & m & -> & A & B & C)]]; cbn [step snd write_state].
    + left. eauto.
    + left. eauto.
    + destruct (fails ch) as [e|]; [cbn; right; left; eauto|].
      destruct (os_write w fd _) as [w1 [e|]]; [cbn; right; left; eauto|].
      destruct (skipn (Nat.min (count ch) (length bs)) bs) as [|x r] eqn:Sk; [cbn; right; left; eauto|].
      destruct (_ =? _)%nat; [cbn; right; left; eauto|]. cbn [snd write_state]. right; right.
      exists fd, (x :: r), full, (m + Nat.min (count ch) (length bs))%nat. split; [reflexivity|]. split; [|split; auto].
      rewrite <- Sk, A. clear. revert full. induction m as [|m IH]; intros full; cbn [skipn plus]; [reflexivity|]. destruct full; [now rewrite skipn_nil | apply IH].
  - subst s'. destruct (fails ch); [cbn; left; eauto|]. destruct (os_Create w pa) as [w1 [fd|e]]; cbn [snd write_state]; [|left; eauto].
    split; [reflexivity|]. split; [cbn; lia|]. intros [|i] b E; discriminate.
  - destruct H as (-> & A & B). cbn [snd]. destruct (nth_error (slice_of sl s) (length casted)) as [b|] eqn:E; cbn [write_state].
    + assert ((length casted < n)%nat) by (rewrite <- L; apply nth_error_Some; congruence).
      split; [reflexivity|]. split; [rewrite app_length; cbn [length]; lia|]. intros i b' Ei.
      destruct (Nat.lt_ge_cases i (length casted)) as [Q|Q]; [rewrite nth_error_app1 in Ei by auto; auto|].
      rewrite nth_error_app2 in Ei by auto. destruct (i - length casted)%nat as [|j] eqn:Ej; [|destruct j; discriminate].
      cbn [nth_error] in Ei. injection Ei as <-. replace i with (length casted) by lia. apply held_now. exact E.
    + right; right. exists fd, casted, casted, 0%nat. cbn [skipn]. apply nth_error_None in E. repeat split; auto. lia.
Qed.

Lemma mem_length c t s : length (slice_of (mem (fst (turn_step false c t))) s) = length (slice_of (mem c) s).
Proof.
  destruct c as [w sl F m], t as [[h|] ch]; cbn [turn_step fst snd].
  - unfold worker_step. destruct (over _); [reflexivity|]. cbn [futures mem fsys code].
    destruct (nth_error F h) as [[o [wk|]]|]; [|reflexivity|reflexivity].
    destruct wk as [[]| |]; try reflexivity; destruct (wstep sl w _ ch); reflexivity.
  - unfold main_step. cbn [futures mem fsys code]. destruct m as [[|o k|o k|h k|s0 i b k]|wk k]; try reflexivity.
    + destruct (nth_error F h) as [[o [[[]| |]|]]|]; reflexivity.
    + destruct (i <? length (slice_of sl s0))%nat eqn:E; [|reflexivity]. cbn [fst mem]. unfold slice_of in *. apply Nat.ltb_lt in E.
      destruct (Nat.eq_dec s0 s) as [->|N].
      * assert (s < length sl)%nat. { destruct (Nat.lt_ge_cases s (length sl)); auto. rewrite nth_overflow in E by auto. cbn in E. lia. }
        rewrite (nth_error_nth _ _ _ (nth_error_list_set_eq sl s (list_set (nth s sl []) i b) H)). apply list_set_length.
      * destruct (nth_error sl s) as [x|] eqn:Ex.
        -- rewrite (nth_error_nth _ _ _ Ex). erewrite nth_error_nth; [reflexivity|]. rewrite nth_error_list_set_neq; auto.
        -- rewrite !nth_overflow; auto; [apply nth_error_None, Ex | rewrite list_set_length; apply nth_error_None, Ex].
    + destruct wk as [[]| |]; try reflexivity; destruct (wstep sl w _ ch); reflexivity.
Qed.
Lemma turns_snoc c ts t : fst (turns false c (ts ++ [t])) = fst (turn_step false (fst (turns false c ts)) t).
Proof. rewrite turns_app. destruct (turns false c ts) as [c1 a]. rewrite turns_one. cbn [fst]. destruct (turn_step false c1 t). reflexivity. Qed.
Lemma mem_length_turns c ts s : length (slice_of (mem (fst (turns false c ts))) s) = length (slice_of (mem c) s).
Proof.
  induction ts as [|t ts IH] using rev_ind; [reflexivity|]. rewrite turns_snoc, mem_length. exact IH.
Qed.
(** The future of a Write stays where it is. *)
Lemma future_step c t h o wk : nth_error (futures c) h = Some (o, Some wk) ->
  nth_error (futures (fst (turn_step false c t))) h = Some (o, Some wk) \/
  nth_error (futures (fst (turn_step false c t))) h = Some (o, None) \/
  exists w ch, nth_error (futures (fst (turn_step false c t))) h = Some (o, Some (snd (wstep (mem c) w wk ch))).
Proof.
  destruct c as [w sl F m]. cbn [futures]. intros E. assert (L : (h < length F)%nat) by (apply nth_error_Some; congruence).
  destruct t as [[h'|] ch]; cbn [turn_step fst snd].
  - unfold worker_step. destruct (over _); [cbn [fst futures]; auto|]. cbn [futures mem fsys code].
    destruct (nth_error F h') as [[o' [wk'|]]|] eqn:E'; [|cbn [fst futures]; auto|cbn [fst futures]; auto].
    assert (G : forall w1 wk1, wstep sl w wk' ch = (w1, wk1) ->
      nth_error (futures (fst (mkConf w1 sl (list_set F h' (o', Some wk1)) m, @nil answer))) h = Some (o, Some wk) \/
      exists w ch, nth_error (futures (fst (mkConf w1 sl (list_set F h' (o', Some wk1)) m, @nil answer))) h = Some (o, Some (snd (wstep sl w wk ch)))).
    { intros w1 wk1 Es. cbn [fst futures]. destruct (Nat.eq_dec h' h) as [->|N].
      - assert (o' = o /\ wk' = wk) as [-> ->] by (split; congruence). right. exists w, ch. rewrite nth_error_list_set_eq, Es by auto. reflexivity.
      - left. rewrite nth_error_list_set_neq; auto. }
    destruct wk' as [[]| |]; try (cbn [fst futures]; auto; fail); destruct (wstep sl w _ ch) as [w1 wk1]; destruct (G _ _ eq_refl) as [Q|Q]; auto.
  - unfold main_step. cbn [futures mem fsys code]. destruct m as [[|o' k|o' k|h' k|s0 i b k]|wk' k]; try (cbn [fst futures]; auto; fail).
    + cbn [fst futures]. left. rewrite nth_error_app1; auto.
    + destruct (nth_error F h') as [[o' [[[]| |]|]]|] eqn:E'; try (cbn [fst futures]; auto; fail). cbn [fst futures].
      destruct (Nat.eq_dec h' h) as [->|N]; [right; left; rewrite nth_error_list_set_eq by auto; congruence | left; rewrite nth_error_list_set_neq; auto].
    + destruct (_ <? _)%nat; cbn [fst futures]; auto.
    + destruct wk' as [[]| |]; try (cbn [fst futures]; auto; fail); destruct (wstep sl w _ ch); cbn [fst futures]; auto.
Qed.
Lemma future_none c t h o : nth_error (futures c) h = Some (o, None) -> nth_error (futures (fst (turn_step false c t))) h = Some (o, None).
Proof.
  destruct c as [w sl F m]. cbn [futures]. intros E. assert (L : (h < length F)%nat) by (apply nth_error_Some; congruence).
  destruct t as [[h'|] ch]; cbn [turn_step fst snd].
  - unfold worker_step. destruct (over _); [cbn [fst futures]; auto|]. cbn [futures mem fsys code].
    destruct (nth_error F h') as [[o' [wk'|]]|] eqn:E'; [|cbn [fst futures]; auto|cbn [fst futures]; auto].
    assert (N : h' <> h) by congruence.
    destruct wk' as [[]| |]; try (cbn [fst futures]; auto; fail); destruct (wstep sl w _ ch) as [w1 wk1]; cbn [fst futures]; rewrite nth_error_list_set_neq; auto.
  - unfold main_step. cbn [futures mem fsys code]. destruct m as [[|o' k|o' k|h' k|s0 i b k]|wk' k]; try (cbn [fst futures]; auto; fail).
    + cbn [fst futures]. rewrite nth_error_app1; auto.
    + destruct (nth_error F h') as [[o' [[[]| |]|]]|] eqn:E'; try (cbn [fst futures]; auto; fail). cbn [fst futures].
      assert (N : h' <> h) by congruence. rewrite nth_error_list_set_neq; auto.
    + destruct (_ <? _)%nat; cbn [fst futures]; auto.
    + destruct wk' as [[]| |]; try (cbn [fst futures]; auto; fail); destruct (wstep sl w _ ch); cbn [fst futures]; auto.
Qed.
Lemma write_states c h p s ts : nth_error (futures c) h = Some (OWrite p s, Some (Creating p s)) ->
  match nth_error (futures (fst (turns false c ts))) h with
  | Some (o, Some wk) => o = OWrite p s /\ write_state c ts (length (slice_of (mem c) s)) s wk
  | Some (o, None) => o = OWrite p s
  | None => False
  end.
Proof.
  intros E. induction ts as [|t ts IH] using rev_ind.
  - cbn [turns fst]. rewrite E. split; reflexivity.
  - rewrite turns_snoc. destruct (nth_error (futures (fst (turns false c ts))) h) as [[o [wk|]]|] eqn:E1; [|now rewrite (future_none _ t _ _ E1)|destruct IH].
    destruct IH as [-> W]. destruct (future_step _ t _ _ _ E1) as [Q|[Q|(w & ch & Q)]]; rewrite Q; auto.
    + split; [reflexivity|]. now apply write_state_more.
    + split; [reflexivity|]. apply write_state_step; [exact W|]. apply mem_length_turns.
Qed.

(** *** The functions *)
Lemma step_pmap : forall {A B} (f : A -> B) w p ch, step w (pmap f p) ch = (fst (step w p ch), pmap f (snd (step w p ch))).
Proof.
  intros A B f w p ch. destruct p; cbn [step pmap fst snd]; try reflexivity;
    try (destruct (fails ch); [reflexivity|]); try reflexivity.
  - now destruct (os_Mkdir w p) as [? ?].
  - now destruct (os_Remove w p) as [? ?].
  - now destruct (os_Create w p) as [? ?].
  - now destruct (os_Open w p) as [? ?].
  - destruct (os_write w fd (firstn (Nat.min (count ch) (length bs)) bs)) as [w1 [e|]]; [reflexivity|].
    destruct (skipn _ bs); [reflexivity|]. now destruct (_ =? 0)%nat.
  - destruct (n =? 0)%nat; [reflexivity|]. now destruct (os_read w fd (Nat.min n (Nat.max 1 (count ch)))) as [w1 [[|]|]].
  - now destruct (os_Rename w p q) as [? ?].
  - now destruct (os_Link w p q) as [? ?].
Qed.
Lemma worker_runs : forall {R} (f : R -> answer) captured sl o k chs w p,
  fst (turns captured (mkConf w sl [(o, Some (Calls (pmap f p)))] (Code (Await 0 k))) (map (fun ch => (Some 0%nat, ch)) chs))
  = mkConf (fst (run w p chs)) sl [(o, Some (Calls (pmap f (snd (run w p chs)))))] (Code (Await 0 k)).
Proof.
  intros R f captured sl o k. induction chs as [|ch chs IH]; intros w p; [reflexivity|]. cbn [map turns run].
  assert (E : turn_step captured (mkConf w sl [(o, Some (Calls (pmap f p)))] (Code (Await 0 k))) (Some 0%nat, ch)
    = (mkConf (fst (step w p ch)) sl [(o, Some (Calls (pmap f (snd (step w p ch)))))] (Code (Await 0 k)), [])).
  { cbn [turn_step fst snd]. unfold worker_step. cbn [over code futures nth_error fsys mem].
    pose proof (step_pmap f w p ch) as SP. destruct (pmap f p) as [r| | | | | | | | | | |] eqn:Ep.
    1: { destruct p; try discriminate Ep. cbn in *. now injection Ep as <-. }
    all: cbn [wstep]; rewrite SP; reflexivity. }
  rewrite E. destruct (step w p ch) as [w1 p1]. cbn [fst snd].
  specialize (IH w1 p1). match goal with |- context [turns captured ?c (map ?g chs)] => change (fst (turns captured c (map g chs)) = mkConf (fst (run w1 p1 chs)) sl [(o, Some (Calls (pmap f (snd (run w1 p1 chs)))))] (Code (Await 0 k))) || destruct (turns captured c (map g chs)) end; exact IH.
Qed.
Lemma begins : forall captured sl o R (P : prog R) f, fs_call sl o R P f -> captured = true \/ (forall p s, o <> OWrite p s) ->
  begin captured sl (gokio o) = Calls (pmap f P).
Proof.
  intros captured sl o R P f C H. destruct C; try reflexivity. cbn [gokio begin].
  destruct H as [-> | H]; [|now destruct (H p s)]. unfold slice_of. now rewrite (nth_error_nth _ _ _ H0).
Qed.
