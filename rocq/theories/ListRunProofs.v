(** ListRunProofs.v -- histories of several linked lists on one heap. *)
From Verif Require Import Base BaseLemmas Effect VecSpec ListModel ListProofs ListIterProofs.
From Verif Require Import ListHistory.
From Verif Require ListSpec.
Local Open Scope Z_scope.
Import ListSpec(forward, backward, list_shows, apart, extends, lstep, lhistory, countable).

Section Run.
  Context {T : Type}.
  Variable eqb : T -> T -> bool.
  Variable clone : T -> T.
  Implicit Types (w : world T) (css : list (list (nat * T))).

  Lemma nth_set : forall A (xs : list A) v y i, (v < length xs)%nat -> nth_error (list_set xs v y) i = if Nat.eqb i v then Some y else nth_error xs i.
  Proof.
    intros A xs v y i H. destruct (Nat.eqb_spec i v) as [->|N]; [now apply nth_error_list_set_eq | apply nth_error_list_set_neq; auto].
  Qed.
  Definition owns (w : world T) (css : list (list (nat * T))) : Prop :=
    length css = length (vars w) /\
    (forall i l cs, nth_error (vars w) i = Some l -> nth_error css i = Some cs -> own (cells w) l cs) /\
    (forall i j cs ds, i <> j -> nth_error css i = Some cs -> nth_error css j = Some ds -> apart (addrs cs) (addrs ds)).

  Lemma owns_var : forall w css v cs, owns w css -> nth_error css v = Some cs ->
    exists l, nth_error (vars w) v = Some l /\ own (cells w) l cs.
  Proof.
    intros w css v cs (L & O & P) H. assert (Hv : (v < length css)%nat) by (apply nth_error_Some; congruence).
    destruct (nth_error (vars w) v) as [l|] eqn:E; [|apply nth_error_None in E; lia]. eauto.
  Qed.
  Lemma nth_vals : forall css v l, nth_error (map vals css) v = Some l -> exists cs, nth_error css v = Some cs /\ vals (T := T) cs = l.
  Proof.
    intros css v l H. rewrite nth_error_map in H. destruct (nth_error css v) as [cs|]; inversion H; eauto.
  Qed.

  Lemma owns_set : forall w css v cs h' l' cs', owns w css -> nth_error css v = Some cs ->
    changes (cells w) h' (addrs cs) -> own h' l' cs' -> (forall a, In a (addrs cs') -> In a (addrs cs) \/ (length (cells w) <= a)%nat) ->
    owns (mkWorld h' (list_set (vars w) v l')) (list_set css v cs').
  Proof.
    intros w css v cs h' l' cs' (L & O & P) Hv C O' Fr.
    assert (Lv : (v < length css)%nat) by (apply nth_error_Some; congruence).
    assert (Bd : forall j ds a, nth_error css j = Some ds -> In a (addrs ds) -> (a < length (cells w))%nat).
    { intros j ds a Hj Ha. destruct (nth_error (vars w) j) as [l|] eqn:E.
      - eapply own_bound; eauto.
      - apply nth_error_None in E. assert (j < length css)%nat by (apply nth_error_Some; congruence). lia. }
    split; [|split]; cbn [vars cells].
    - now rewrite !list_set_length.
    - intros i l ds. rewrite !nth_set by lia. destruct (Nat.eqb_spec i v) as [->|N].
      + intros E1 E2. inversion E1; inversion E2; subst. exact O'.
      + intros E1 E2. eapply own_frame; eauto.
    - intros i j ds es Hij. rewrite !nth_set by lia. destruct (Nat.eqb_spec i v) as [->|Ni], (Nat.eqb_spec j v) as [->|Nj]; try congruence.
      + intros E1 E2 a Ia Ib. inversion E1; subst.
        destruct (Fr a Ia) as [I|I]; [apply (P v j cs es Hij Hv E2 a I Ib) | pose proof (Bd j es a E2 Ib); lia].
      + intros E1 E2 a Ia Ib. inversion E2; subst.
        destruct (Fr a Ib) as [I|I]; [apply (P v i cs ds ltac:(auto) Hv E1 a I Ia) | pose proof (Bd i ds a E1 Ia); lia].
      + intros E1 E2. eauto.
  Qed.
  Lemma owns_add : forall w css h' n ds, owns w css -> changes (cells w) h' [] -> own h' n ds -> (forall a, In a (addrs ds) -> (length (cells w) <= a)%nat) ->
    owns (mkWorld h' (vars w ++ [n])) (css ++ [ds]).
  Proof.
    intros w css h' n ds (L & O & P) C O' Fr.
    assert (Bd : forall j es a, nth_error css j = Some es -> In a (addrs es) -> (a < length (cells w))%nat).
    { intros j es a Hj Ha. destruct (nth_error (vars w) j) as [l|] eqn:E.
      - eapply own_bound; eauto.
      - apply nth_error_None in E. assert (j < length css)%nat by (apply nth_error_Some; congruence). lia. }
    assert (Snoc : forall A (xs : list A) x i y, nth_error (xs ++ [x]) i = Some y -> nth_error xs i = Some y \/ (i = length xs /\ y = x)).
    { intros A xs x i y H. destruct (Nat.lt_ge_cases i (length xs)) as [Hi|Hi].
      - rewrite nth_error_app1 in H by auto. auto.
      - rewrite nth_error_app2 in H by auto. destruct (i - length xs)%nat as [|k] eqn:E; cbn in H.
        + right. split; [lia | congruence].
        + destruct k; discriminate. }
    split; [|split]; cbn [vars cells].
    - rewrite !app_length. cbn. lia.
    - intros i l es E1 E2. apply Snoc in E1, E2. destruct E1 as [E1|[-> ->]], E2 as [E2|[E2 ->]].
      + eapply own_frame; eauto. intros a [].
      + exfalso. assert (i < length (vars w))%nat by (apply nth_error_Some; congruence). lia.
      + exfalso. assert (length (vars w) < length css)%nat by (apply nth_error_Some; congruence). lia.
      + exact O'.
    - intros i j es fs Hij E1 E2. apply Snoc in E1, E2. destruct E1 as [E1|[-> ->]], E2 as [E2|[-> ->]]; try congruence.
      + eauto.
      + intros a Ia Ib. specialize (Fr a Ib). pose proof (Bd i es a E1 Ia). lia.
      + intros a Ia Ib. specialize (Fr a Ia). pose proof (Bd j fs a E2 Ib). lia.
  Qed.
  Lemma map_vals_set : forall css v cs', map vals (list_set css v cs') = list_set (map vals css) v (vals (T := T) cs').
  Proof. induction css as [|c css IH]; intros [|v] cs'; cbn; auto. now rewrite IH. Qed.

  Lemma vals_length : forall cs : list (nat * T), length (vals cs) = length cs.
  Proof. intros. apply map_length. Qed.
  Lemma vals_snoc : forall (cs : list (nat * T)) l x, vals cs = l ++ [x] -> exists ds a, cs = ds ++ [(a, x)] /\ vals ds = l.
  Proof.
    intros cs l x H. destruct cs as [|[a y] cs _] using rev_ind; [destruct l; discriminate|].
    unfold vals in H. rewrite map_app in H. cbn in H. apply app_inj_tail in H. destruct H as [H ->]. eauto.
  Qed.

  Lemma countable_nth : forall (s : list (list T)) v l, countable s -> nth_error s v = Some l -> Z.of_nat (length l) < 2 ^ 64.
  Proof. intros s v l C H. unfold countable in C. rewrite Forall_forall in C. apply (C l). eapply nth_error_In; eauto. Qed.

  Lemma method_Ret : forall A w v m l l' (a : A) h', nth_error (vars w) v = Some l -> m l (cells w) = Ret (l', a, h') ->
    method w v m = Ret (mkWorld h' (list_set (vars w) v l'), a).
  Proof.
    intros A w v m l l' a h' H E. unfold method, idx. rewrite H. cbn [of_option bind]. rewrite E. cbn [bind fst snd].
    rewrite upd_Ret by (apply nth_error_Some; congruence). reflexivity.
  Qed.
  Lemma modify_Ret : forall w v m l l' h', nth_error (vars w) v = Some l -> m l (cells w) = Ret (l', h') ->
    modify w v m = Ret (mkWorld h' (list_set (vars w) v l'), ListSpec.Done).
  Proof.
    intros w v m l l' h' H E. unfold modify. eapply method_Ret; eauto. rewrite (mb_Ret _ _ _ _ _ _ _ _ E). reflexivity.
  Qed.
  Lemma world_same : forall w v l, nth_error (vars w) v = Some l -> mkWorld (cells w) (list_set (vars w) v l) = w.
  Proof. intros [h vs] v l H. cbn in *. f_equal. now apply list_set_same. Qed.

  Lemma peek_Ret : forall (h : heap T) p A v, forward h p A v -> peek p h = Ret (hd_error v, h).
  Proof.
    intros h p A v F. unfold peek. inversion F; subst; [reflexivity|].
    rewrite (mb_Ret _ _ _ _ _ _ _ _ (load_spec _ _ _ H)). reflexivity.
  Qed.
  Lemma peek_back_Ret : forall (h : heap T) p A v, backward h p A v -> peek p h = Ret (hd_error v, h).
  Proof.
    intros h p A v F. unfold peek. inversion F; subst; [reflexivity|].
    rewrite (mb_Ret _ _ _ _ _ _ _ _ (load_spec _ _ _ H)). reflexivity.
  Qed.

  Ltac start H := apply nth_vals in H as (cs & Hcs & Vcs).

  (** Which nodes the lists consist of after a call; n is the size of the heap before it. *)
  Definition shape (n : nat) css (o : ListSpec.lop T) css' : Prop :=
    match o with
    | ListSpec.New => css' = css ++ [[]]
    | ListSpec.PushFront v x => exists cs, nth_error css v = Some cs /\ css' = list_set css v ((n, x) :: cs)
    | ListSpec.PushBack v x => exists cs, nth_error css v = Some cs /\ css' = list_set css v (cs ++ [(n, x)])
    | ListSpec.PopFront v => exists cs, nth_error css v = Some cs /\ css' = list_set css v (tl cs)
    | ListSpec.PopBack v => exists cs, nth_error css v = Some cs /\ css' = list_set css v (removelast cs)
    | ListSpec.WriteFront v x => exists b y cs, nth_error css v = Some ((b, y) :: cs) /\ css' = list_set css v ((b, x) :: cs)
    | ListSpec.WriteBack v x => exists b y cs, nth_error css v = Some (cs ++ [(b, y)]) /\ css' = list_set css v (cs ++ [(b, x)])
    | ListSpec.Clear v => exists cs, nth_error css v = Some cs /\ css' = list_set css v []
    | ListSpec.Append v u => exists cs ds, v <> u /\ nth_error css v = Some cs /\ nth_error css u = Some ds /\
        css' = list_set (list_set css v (cs ++ ds)) u []
    | ListSpec.Clone v => exists ds, css' = css ++ [ds] /\ (forall b, In b (addrs ds) -> (n <= b)%nat)
    | _ => css' = css
    end.
  (** Nodes that belong to no list afterwards are as before. *)
  Definition quiet (h h' : heap T) css' : Prop :=
    (length h <= length h')%nat /\
    forall b, (b < length h)%nat -> (forall i cs, nth_error css' i = Some cs -> ~ In b (addrs cs)) -> nth_error h' b = nth_error h b.
  Lemma quiet_refl : forall h css', quiet h h css'.
  Proof. intros h css'. split; auto. Qed.
  Lemma quiet_changes : forall h h' A css' v cs', changes h h' A -> nth_error css' v = Some cs' -> incl A (addrs cs') -> quiet h h' css'.
  Proof. intros h h' A css' v cs' [L C] N I. split; [auto|]. intros b Hb Nb. apply C; auto. intros Ib. apply (Nb v cs' N). auto. Qed.
  Lemma nth_set_eq : forall A (xs : list A) v y z, nth_error xs v = Some z -> nth_error (list_set xs v y) v = Some y.
  Proof. intros A xs v y z H. apply nth_error_list_set_eq. apply nth_error_Some. congruence. Qed.

  Lemma exec_shape : forall w css o s' a, owns w css -> countable (map vals css) -> lstep eqb clone (map vals css) o s' a -> countable s' ->
    exists w' css', exec eqb clone w o = Ret (w', a) /\ owns w' css' /\ s' = map vals css' /\
      shape (length (cells w)) css o css' /\ quiet (cells w) (cells w') css'.
  Proof.
    intros w css o s' a O C St C'. inversion St; subst; cbn [exec];
      try (match goal with H : nth_error (map vals css) _ = Some _ |- _ => pose proof (countable_nth _ _ _ C H) as Cl end).
    - (* New *)
      eexists _, (css ++ [[]]). split; [reflexivity|]. split; [|split; [now rewrite map_app|split; [reflexivity|apply quiet_refl]]].
      apply owns_add; auto; [apply changes_refl | apply own_new | intros a []].
    - (* PushFront *)
      start H. destruct (owns_var _ _ _ _ O Hcs) as (l0 & Hl & Ol).
      assert (B : Z.of_nat (length cs) + 1 < 2 ^ 64).
      { pose proof (countable_nth _ v (x :: l) C') as B. rewrite nth_error_list_set_eq in B by (rewrite map_length; apply nth_error_Some; congruence).
        specialize (B eq_refl). cbn [length] in B. rewrite <- Vcs, vals_length in B. lia. }
      destruct (PushFront_spec _ _ _ x Ol B) as (h' & l' & E & O' & Ch).
      eexists _, (list_set css v ((length (cells w), x) :: cs)). split; [eapply modify_Ret; eauto|]. split.
      + eapply owns_set; eauto. intros b [<-|Hb]; [right; cbn; lia | now left].
      + split; [rewrite map_vals_set; cbn; now rewrite <- Vcs|]. split; [exists cs; auto|].
        eapply quiet_changes; [exact Ch|eapply nth_set_eq; eauto|]. intros b Hb. now right.
    - (* PushBack *)
      start H. destruct (owns_var _ _ _ _ O Hcs) as (l0 & Hl & Ol).
      assert (B : Z.of_nat (length cs) + 1 < 2 ^ 64).
      { pose proof (countable_nth _ v (l ++ [x]) C') as B. rewrite nth_error_list_set_eq in B by (rewrite map_length; apply nth_error_Some; congruence).
        specialize (B eq_refl). rewrite app_length in B. cbn [length] in B. rewrite <- Vcs, vals_length in B. lia. }
      destruct (PushBack_spec _ _ _ x Ol B) as (h' & l' & E & O' & Ch).
      eexists _, (list_set css v (cs ++ [(length (cells w), x)])). split; [eapply modify_Ret; eauto|]. split.
      + eapply owns_set; eauto. intros b Hb. rewrite addrs_app, in_app_iff in Hb. destruct Hb as [Hb|[<-|[]]]; [now left | right; cbn; lia].
      + split; [rewrite map_vals_set; unfold vals at 3; rewrite map_app; cbn; now rewrite <- Vcs|]. split; [exists cs; auto|].
        eapply quiet_changes; [exact Ch|eapply nth_set_eq; eauto|]. intros b Hb. rewrite addrs_app, in_app_iff. now left.
    - (* PopFront, empty *)
      start H. destruct cs; [|discriminate]. destruct (owns_var _ _ _ _ O Hcs) as (l0 & Hl & Ol).
      exists w, css. split; [|split; [auto|split; [auto|split; [|apply quiet_refl]]]]; [|exists []; split; [auto|symmetry; now apply list_set_same]]. rewrite <- (world_same w v l0 Hl) at 2. eapply method_Ret; eauto. cbv beta.
      rewrite (mb_Ret _ _ _ _ _ _ _ _ (PopFront_nil _ _ Ol)). reflexivity.
    - start H. destruct cs as [|[b y] cs]; [discriminate|]. cbn in Vcs. inversion Vcs; subst. destruct (owns_var _ _ _ _ O Hcs) as (l0 & Hl & Ol).
      cbn [length] in Cl. rewrite map_length in Cl.
      destruct (PopFront_cons _ _ _ _ _ Ol) as (h' & l' & E & O' & Ch); [lia|].
      eexists _, (list_set css v cs). split; [eapply method_Ret; eauto; cbv beta; rewrite (mb_Ret _ _ _ _ _ _ _ _ E); reflexivity|].
      split; [|split; [now rewrite map_vals_set|split; [exists ((b, x) :: cs); auto|
        eapply quiet_changes; [exact Ch|eapply nth_set_eq; eauto|apply incl_refl]]]]. eapply owns_set; eauto.
      + eapply changes_weaken; eauto. intros c Hc. now right.
      + intros c Hc. left. now right.
    - (* PopBack *)
      start H. destruct cs; [|discriminate]. destruct (owns_var _ _ _ _ O Hcs) as (l0 & Hl & Ol).
      exists w, css. split; [|split; [auto|split; [auto|split; [|apply quiet_refl]]]]; [|exists []; split; [auto|symmetry; now apply list_set_same]]. rewrite <- (world_same w v l0 Hl) at 2. eapply method_Ret; eauto. cbv beta.
      rewrite (mb_Ret _ _ _ _ _ _ _ _ (PopBack_nil _ _ Ol)). reflexivity.
    - start H. apply vals_snoc in Vcs. destruct Vcs as (ds & b & -> & <-). destruct (owns_var _ _ _ _ O Hcs) as (l0 & Hl & Ol).
      rewrite app_length in Cl. cbn [length] in Cl. rewrite vals_length in Cl.
      destruct (PopBack_snoc _ _ _ _ _ Ol) as (h' & l' & E & O' & Ch); [lia|].
      eexists _, (list_set css v ds). split; [eapply method_Ret; eauto; cbv beta; rewrite (mb_Ret _ _ _ _ _ _ _ _ E); reflexivity|].
      split; [|split; [now rewrite map_vals_set|split; [exists (ds ++ [(b, x)]); split; [auto|now rewrite removelast_last]|
        eapply quiet_changes; [exact Ch|eapply nth_set_eq; eauto|apply incl_refl]]]]. eapply owns_set; eauto.
      + eapply changes_weaken; eauto. intros c Hc. rewrite addrs_app, in_app_iff. now left.
      + intros c Hc. left. rewrite addrs_app, in_app_iff. now left.
    - (* Front *)
      start H. destruct (owns_var _ _ _ _ O Hcs) as (l0 & Hl & Ol). destruct (own_shows _ _ _ Ol) as (F & Bk & _). rewrite Vcs in *.
      exists w, css. split; [|split; [auto|split; [auto|split; [reflexivity|apply quiet_refl]]]]. rewrite <- (world_same w v l0 Hl) at 2. eapply method_Ret; eauto. cbv beta.
      rewrite (mb_Ret _ _ _ _ _ _ _ _ (peek_Ret _ _ _ _ F)). reflexivity.
    - start H. destruct (owns_var _ _ _ _ O Hcs) as (l0 & Hl & Ol). destruct (own_shows _ _ _ Ol) as (F & Bk & _). rewrite Vcs in *.
      exists w, css. split; [|split; [auto|split; [auto|split; [reflexivity|apply quiet_refl]]]]. rewrite <- (world_same w v l0 Hl) at 2. eapply method_Ret; eauto. cbv beta.
      rewrite (mb_Ret _ _ _ _ _ _ _ _ (peek_back_Ret _ _ _ _ Bk)). reflexivity.
    - (* WriteFront *)
      start H. destruct cs as [|[b z] cs]; [discriminate|]. cbn in Vcs. inversion Vcs; subst. destruct (owns_var _ _ _ _ O Hcs) as (l0 & Hl & Ol).
      pose proof Ol as (_ & Hd & _). cbn [first_or] in Hd.
      destruct (write_spec _ _ [] b y cs x Ol) as (h' & E & O' & Ch).
      eexists _, (list_set css v ((b, x) :: cs)). split.
      + eapply modify_Ret; eauto. cbv beta. unfold Front. rewrite Hd. rewrite (mb_Ret _ _ _ _ _ _ _ _ E). reflexivity.
      + split; [|split; [now rewrite map_vals_set|split; [exists b, y, cs; auto|
          eapply quiet_changes; [exact Ch|eapply nth_set_eq; eauto|intros c [<-|[]]; now left]]]]. eapply owns_set; eauto.
        eapply changes_weaken; eauto. intros c [<-|[]]. now left.
    - start H. apply vals_snoc in Vcs. destruct Vcs as (ds & b & -> & <-). destruct (owns_var _ _ _ _ O Hcs) as (l0 & Hl & Ol).
      pose proof Ol as (_ & _ & Tl & _). rewrite last_or_snoc in Tl.
      destruct (write_spec _ _ ds b y [] x Ol) as (h' & E & O' & Ch).
      eexists _, (list_set css v (ds ++ [(b, x)])). split.
      + eapply modify_Ret; eauto. cbv beta. unfold Back. rewrite Tl. rewrite (mb_Ret _ _ _ _ _ _ _ _ E). reflexivity.
      + split; [|split; [rewrite map_vals_set; unfold vals at 4; now rewrite map_app|split; [exists b, y, ds; auto|
          eapply quiet_changes; [exact Ch|eapply nth_set_eq; eauto|intros c [<-|[]]; rewrite addrs_app, in_app_iff; right; now left]]]]. eapply owns_set; eauto.
        * eapply changes_weaken; eauto. intros c [<-|[]]. rewrite addrs_app, in_app_iff. right. now left.
        * intros c Hc. left. rewrite addrs_app in *. exact Hc.
    - (* Clear *)
      start H. destruct (owns_var _ _ _ _ O Hcs) as (l0 & Hl & Ol).
      eexists _, (list_set css v []). split; [eapply modify_Ret; eauto; reflexivity|].
      split; [|split; [now rewrite map_vals_set|split; [exists cs; auto|apply quiet_refl]]].
      eapply owns_set; eauto; [apply changes_refl | apply own_new | intros b []].
    - start H. destruct (owns_var _ _ _ _ O Hcs) as (l0 & Hl & Ol). destruct (own_shows _ _ _ Ol) as (_ & _ & Ln). rewrite Vcs in *.
      exists w, css. split; [|split; [auto|split; [auto|split; [reflexivity|apply quiet_refl]]]]. rewrite <- (world_same w v l0 Hl) at 2. eapply method_Ret; eauto. cbv beta. unfold mret. now rewrite Ln.
    - start H. destruct (owns_var _ _ _ _ O Hcs) as (l0 & Hl & Ol). destruct (own_shows _ _ _ Ol) as (_ & _ & Ln). rewrite Vcs in *.
      exists w, css. split; [|split; [auto|split; [auto|split; [reflexivity|apply quiet_refl]]]]. rewrite <- (world_same w v l0 Hl) at 2. eapply method_Ret; eauto. cbv beta. unfold mret, IsEmpty.
      unfold Len in Ln. rewrite Ln. destruct l; reflexivity.
    - (* Append *)
      rename H into N, H0 into H, H1 into H1. pose proof (countable_nth _ _ _ C H1) as Ck. start H. apply nth_vals in H1 as (ds & Hds & Vds).
      destruct (owns_var _ _ _ _ O Hcs) as (l0 & Hl & Ol). destruct (owns_var _ _ _ _ O Hds) as (k0 & Hk & Ok).
      assert (Lv : (v < length css)%nat) by (apply nth_error_Some; congruence). assert (Lu : (u < length css)%nat) by (apply nth_error_Some; congruence).
      destruct O as (L & O & P). assert (Ap : apart (addrs cs) (addrs ds)) by eauto.
      assert (B : Z.of_nat (length cs + length ds) < 2 ^ 64).
      { pose proof (countable_nth _ v (l ++ k) C') as B. rewrite nth_error_list_set_neq in B by auto.
        rewrite nth_error_list_set_eq in B by (now rewrite map_length).
        specialize (B eq_refl). rewrite app_length, <- Vcs, <- Vds, !vals_length in B. lia. }
      destruct (Append_spec _ _ _ _ _ Ol Ok Ap B) as (h' & l' & k' & E & O1 & O2 & Ch).
      destruct (Nat.eqb_spec v u); [contradiction|]. unfold idx. rewrite Hl, Hk. cbn [of_option bind]. rewrite E. cbn [bind fst snd].
      rewrite upd_Ret by lia. cbn [bind]. rewrite upd_Ret by (rewrite list_set_length; lia). cbn [bind].
      eexists _, (list_set (list_set css v (cs ++ ds)) u []). split; [reflexivity|]. split.
      + assert (Sub : forall a, In a (addrs (cs ++ ds)) -> In a (addrs cs) \/ In a (addrs ds)) by (intros a Ha; now rewrite addrs_app, in_app_iff in Ha).
        split; [|split]; cbn [vars cells].
        * now rewrite !list_set_length.
        * intros i l1 es. rewrite !nth_set by (rewrite ?list_set_length; lia). destruct (Nat.eqb_spec i u) as [->|Nu].
          -- intros E1 E2. inversion E1; inversion E2; subst. exact O2.
          -- destruct (Nat.eqb_spec i v) as [->|Nv].
             ++ intros E1 E2. inversion E1; inversion E2; subst. exact O1.
             ++ intros E1 E2. eapply own_frame; eauto. intros a Ia Ib. rewrite in_app_iff in Ia. destruct Ia as [Ia|Ia].
                ** apply (P v i cs es ltac:(auto) Hcs E2 a Ia Ib).
                ** apply (P u i ds es ltac:(auto) Hds E2 a Ia Ib).
        * intros i j es fs Hij. rewrite !nth_set by (rewrite ?list_set_length; lia).
          destruct (Nat.eqb_spec i u) as [->|Niu]; [|destruct (Nat.eqb_spec j u) as [->|Nju]].
          -- intros E1 _ a Ia. inversion E1; subst. destruct Ia.
          -- intros _ E2 a _ Ia. inversion E2; subst. destruct Ia.
          -- destruct (Nat.eqb_spec i v) as [->|Niv], (Nat.eqb_spec j v) as [->|Njv]; try congruence.
             ++ intros E1 E2 a Ia Ib. inversion E1; subst. apply Sub in Ia. destruct Ia as [Ia|Ia].
                ** apply (P v j cs fs ltac:(auto) Hcs E2 a Ia Ib).
                ** apply (P u j ds fs ltac:(auto) Hds E2 a Ia Ib).
             ++ intros E1 E2 a Ia Ib. inversion E2; subst. apply Sub in Ib. destruct Ib as [Ib|Ib].
                ** apply (P v i cs es ltac:(auto) Hcs E1 a Ib Ia).
                ** apply (P u i ds es ltac:(auto) Hds E1 a Ib Ia).
             ++ intros E1 E2. eauto.
      + split; [rewrite !map_vals_set; unfold vals at 3; rewrite map_app; fold (vals cs) (vals ds); now rewrite Vcs, Vds|].
        split; [exists cs, ds; auto|]. eapply (quiet_changes _ _ _ _ v); [exact Ch| |].
        * rewrite nth_error_list_set_neq by auto. eapply nth_set_eq; eauto.
        * rewrite addrs_app. apply incl_refl.
    - (* Clone *)
      start H. destruct (owns_var _ _ _ _ O Hcs) as (l0 & Hl & Ol). destruct (own_shows _ _ _ Ol) as (F & _ & _).
      destruct (Clone_spec clone _ _ _ _ F) as (h' & n' & E & ds & O' & V' & Ch & Fr); [now rewrite Vcs|].
      unfold idx. rewrite Hl. cbn [of_option bind]. rewrite E. cbn [bind fst snd].
      eexists _, (css ++ [ds]). split; [reflexivity|]. split; [now apply owns_add|].
      split; [rewrite map_app; cbn [map]; now rewrite V', Vcs|]. split; [exists ds; auto|]. destruct Ch as [Ch1 Ch2]. split; [exact Ch1|].
      intros b Hb _. apply Ch2; auto.
    - (* Eq *)
      apply nth_vals in H as (cs & Hcs & Vcs). apply nth_vals in H0 as (ds & Hds & Vds).
      destruct (owns_var _ _ _ _ O Hcs) as (l0 & Hl & Ol). destruct (owns_var _ _ _ _ O Hds) as (k0 & Hk & Ok).
      destruct (own_shows _ _ _ Ol) as (F & _ & Ln). destruct (own_shows _ _ _ Ok) as (F2 & _ & Ln2). rewrite Vcs in *. rewrite Vds in *.
      unfold idx. rewrite Hl, Hk. cbn [of_option bind]. rewrite (Eq_spec eqb _ _ _ _ _ _ _ F F2 Ln Ln2). cbn [bind fst snd].
      exists w, css. split; [destruct w; reflexivity|]. split; [auto|split; [auto|split; [reflexivity|apply quiet_refl]]].
    - start H. destruct (owns_var _ _ _ _ O Hcs) as (l0 & Hl & Ol). destruct (own_shows _ _ _ Ol) as (F & _ & _). rewrite Vcs in *.
      exists w, css. split; [|split; [auto|split; [auto|split; [reflexivity|apply quiet_refl]]]]. rewrite <- (world_same w v l0 Hl) at 2. eapply method_Ret; eauto. cbv beta.
      unfold IntoIter. rewrite (mb_Ret _ _ _ _ _ _ _ _ (It_CollectToVec_spec _ _ _ _ F)). reflexivity.
  Qed.

  Lemma exec_step : forall w css o s' a, owns w css -> countable (map vals css) -> lstep eqb clone (map vals css) o s' a -> countable s' ->
    exists w' css', exec eqb clone w o = Ret (w', a) /\ owns w' css' /\ s' = map vals css'.
  Proof. intros w css o s' a O C St C'. destruct (exec_shape _ _ _ _ _ O C St C') as (w' & css' & E & O' & V & _). eauto. Qed.

  Lemma run_history : forall s ops s' r, lhistory eqb clone s ops s' r -> forall w css, owns w css -> s = map vals css -> countable s ->
    exists w' css', run eqb clone w ops = Ret (w', r) /\ owns w' css' /\ s' = map vals css'.
  Proof.
    induction 1 as [s|s o s1 a ops s2 r St C1 H IH]; intros w css O -> C; cbn [run].
    - exists w, css. auto.
    - destruct (exec_step _ _ _ _ _ O C St C1) as (w1 & css1 & E & O1 & E1). rewrite E. cbn [bind fst snd].
      destruct (IH w1 css1 O1 E1 C1) as (w2 & css2 & E2 & O2 & E3). rewrite E2. cbn [bind fst snd]. exists w2, css2. auto.
  Qed.
  Lemma owns_start : owns start [].
  Proof. split; [reflexivity|]. split; intros [|i]; intros; discriminate. Qed.
End Run.
