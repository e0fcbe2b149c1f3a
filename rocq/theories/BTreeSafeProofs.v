(** BTreeSafeProofs.v -- whatever happens to the tree, it only holds what was inserted. *)
From Verif Require Import Base BaseLemmas Effect CmpSpec VecSpec HashModel BTreeModel BTreeSpec BTreeHistory BTreeProofs.
Local Open Scope nat_scope.

Section Safe.
  Context {K V : Type}.
  Variable cmp : K -> K -> ordering.
  Variable P : K -> V -> Prop.
  Hypothesis P_equal : forall k k' v, cmp k k' = Equal -> P k v <-> P k' v.
  Implicit Types (nd : node K V) (h : heap K V).

  Definition good nd : Prop := exists S, srep nd S /\ forall k v, In (Some (k, v)) S -> P k v.
  Definition all_good h : Prop := forall a nd, nth_error h a = Some nd -> good nd.
  Definition yields {A} (m : out A) (Q : A -> Prop) : Prop := match m with Ret a => Q a | _ => True end.
  Definition triple {A} (m : M (heap K V) A) (Q : A -> Prop) : Prop :=
    forall h, all_good h -> match m h with Ret (a, h') => all_good h' /\ Q a | _ => True end.

  Lemma yields_bind {A B} (m : out A) (k : A -> out B) Q R :
    yields m Q -> (forall a, Q a -> yields (k a) R) -> yields (bind m k) R.
  Proof. destruct m; cbn; auto. Qed.
  Lemma yields_any {A} (m : out A) : yields m (fun _ => True).
  Proof. destruct m; exact I. Qed.
  Lemma triple_bind {A B} (m : M (heap K V) A) (k : A -> M (heap K V) B) Q R :
    triple m Q -> (forall a, Q a -> triple (k a) R) -> triple (mbind m k) R.
  Proof.
    intros T1 T2 h G. specialize (T1 h G). unfold mbind. destruct (m h) as [[a h']| |]; auto.
    destruct T1 as (G' & HQ). apply T2; auto.
  Qed.
  Lemma triple_ret {A} (a : A) (Q : A -> Prop) : Q a -> triple (mret a) Q.
  Proof. intros H h G. cbn. auto. Qed.
  Lemma triple_lift {A} (m : out A) Q : yields m Q -> triple (lift m) Q.
  Proof. intros Y h G. unfold lift. destruct m; cbn in *; auto. Qed.
  Lemma triple_diverge {A} (Q : A -> Prop) : triple (fun _ => Diverge) Q.
  Proof. intros h G. exact I. Qed.
  Lemma triple_rd a : triple (rd a) good.
  Proof. intros h G. unfold rd, idx. destruct (nth_error h a) eqn:E; cbn; auto. eauto. Qed.
  Lemma triple_wr a nd : good nd -> triple (wr a nd) (fun _ => True).
  Proof.
    intros H h G. unfold wr, upd. destruct (a <? length h); cbn; auto. split; auto.
    intros b nb E. rewrite nth_error_list_set in E. destruct (a =? b); [|eauto].
    destruct (b <? length h); [|discriminate]. injection E as <-. auto.
  Qed.
  Lemma triple_alloc nd : good nd -> triple (alloc nd) (fun _ => True).
  Proof.
    intros H h G. cbn. split; auto. intros b nb E. destruct (Nat.ltb_spec b (length h)).
    - rewrite nth_error_app1 in E by auto. eauto.
    - rewrite nth_error_app2 in E by auto. destruct (b - length h) as [|[|]]; cbn in E; try discriminate. congruence.
  Qed.
  Lemma triple_read {A} (f : heap K V -> out A) Q : (forall h, all_good h -> yields (f h) Q) -> triple (fun h => x <- f h ;; Ret (x, h)) Q.
  Proof. intros H h G. specialize (H h G). destruct (f h); cbn in *; auto. Qed.
  Lemma triple_weaken {A} (m : M (heap K V) A) (Q R : A -> Prop) : triple m Q -> (forall a, Q a -> R a) -> triple m R.
  Proof. intros T H h G. specialize (T h G). destruct (m h) as [[a h']| |]; auto. destruct T; auto. Qed.

  Lemma good_with nd nd' : good nd -> keys nd' = keys nd -> values nd' = values nd -> good nd'.
  Proof. intros (S & R & H) E1 E2. exists S. split; auto. eapply srep_same; eauto. Qed.
  Lemma good_set_n nd m : good nd -> good (set_n nd m). Proof. intros G. eapply good_with; eauto. Qed.
  Lemma good_set_childs nd cs : good nd -> good (set_childs nd cs). Proof. intros G. eapply good_with; eauto. Qed.
  Lemma good_new lf d : good (new_node lf d).
  Proof.
    exists (repeat None cap). split; [split; reflexivity|]. intros k v I. apply repeat_spec in I. discriminate.
  Qed.
  Lemma In_list_set {A} (l : list A) i x y : In y (list_set l i x) -> y = x \/ In y l.
  Proof. revert i; induction l as [|z l IH]; destruct i; cbn; intuition. apply IH in H0. intuition. Qed.
  Lemma good_set_kv nd i e : good nd -> match e with Some (k, v) => P k v | None => True end ->
    yields (set_kv nd i (option_map fst e) (option_map snd e)) good.
  Proof.
    intros (S & [Rk Rv] & H) He. unfold set_kv, upd.
    destruct (i <? length (keys nd)); cbn [bind yields]; auto. destruct (i <? length (values nd)); cbn [bind yields]; auto.
    exists (list_set S i e). split; [split; cbn; rewrite map_list_set; congruence|].
    intros k v I. apply In_list_set in I. destruct I as [<-|I]; auto.
  Qed.
  Lemma good_copy_kv src i dst j : good src -> good dst -> yields (copy_kv src i dst j) good.
  Proof.
    intros (S & R & H) G. unfold copy_kv.
    destruct (nth_error S i) as [e|] eqn:N.
    - rewrite (idx_keys _ _ _ _ R N). cbn [bind]. rewrite (idx_values _ _ _ _ R N). cbn [bind].
      apply good_set_kv; auto. destruct e as [[k v]|]; auto. apply H. eapply nth_error_In; eauto.
    - unfold idx. destruct R as [-> _]. rewrite nth_error_map, N. exact I.
  Qed.
  Lemma good_shift_kv c : forall j nd, good nd -> yields (shift_kv c j nd) good.
  Proof. induction c; cbn [shift_kv]; intros; [exact H|]. eapply yields_bind; [apply good_copy_kv; auto|auto]. Qed.
  Lemma good_copy_range c : forall j src so dst d, good src -> good dst -> yields (copy_range c j src so dst d) good.
  Proof. induction c; cbn [copy_range]; intros; [exact H0|]. eapply yields_bind; [apply good_copy_kv; auto|auto]. Qed.
  Lemma good_shift_greater k j : forall nd, good nd -> yields (shift_greater cmp k j nd) (fun r => good (fst r)).
  Proof.
    induction j; cbn [shift_greater]; intros nd G; [exact G|].
    eapply yields_bind; [apply yields_any|]. intros [k'|] _; [|exact G].
    destruct (is _ _); [|exact G]. eapply yields_bind; [apply good_copy_kv; auto|auto].
  Qed.
  Lemma good_close_gap m : forall i nd, good nd -> yields (close_gap m i nd) good.
  Proof.
    induction m; cbn [close_gap]; intros i nd G; [exact G|].
    eapply yields_bind; [apply yields_any|]. intros j _.
    eapply yields_bind; [apply good_copy_kv; auto|]. intros nd1 G1.
    eapply yields_bind; [apply (good_set_kv nd1 i None); auto|auto].
  Qed.
  Lemma good_move_down c : forall i nd, good nd -> yields (move_down c i nd) good.
  Proof.
    induction c; cbn [move_down]; intros i nd G; [exact G|].
    eapply yields_bind; [apply yields_any|]. intros j _. eapply yields_bind; [apply good_copy_kv; auto|auto].
  Qed.

  Ltac any := apply triple_lift, yields_any.
  Ltac step :=
    match goal with
    | |- triple (mbind (rd _) _) _ => eapply triple_bind; [apply triple_rd|intros ? ?]
    | |- triple (mbind (wr _ _) _) _ => eapply triple_bind; [apply triple_wr|intros ? _]
    | |- triple (mbind (alloc _) _) _ => eapply triple_bind; [apply triple_alloc|intros ? _]
    | |- triple (mbind (lift (copy_kv _ _ _ _)) _) _ => eapply triple_bind; [apply triple_lift, good_copy_kv|intros ? ?]
    | |- triple (mbind (lift (shift_kv _ _ _)) _) _ => eapply triple_bind; [apply triple_lift, good_shift_kv|intros ? ?]
    | |- triple (mbind (lift (copy_range _ _ _ _ _ _)) _) _ => eapply triple_bind; [apply triple_lift, good_copy_range|intros ? ?]
    | |- triple (mbind (lift (move_down _ _ _)) _) _ => eapply triple_bind; [apply triple_lift, good_move_down|intros ? ?]
    | |- triple (mbind (lift (close_gap _ _ _)) _) _ => eapply triple_bind; [apply triple_lift, good_close_gap|intros ? ?]
    | |- triple (mbind (lift (shift_greater _ _ _ _)) _) _ => eapply triple_bind; [apply triple_lift, good_shift_greater|intros ? ?]
    | |- triple (mbind (lift _) _) _ => eapply triple_bind; [any|intros ? _]
    | |- triple (wr _ _) _ => apply triple_wr
    | |- triple (mret _) _ => apply triple_ret; exact I
    | |- good (set_n _ _) => apply good_set_n
    | |- good (set_childs _ _) => apply good_set_childs
    | |- good (new_node _ _) => apply good_new
    | |- good _ => assumption
    | |- triple (let _ := _ in _) _ => cbv zeta
    end.
  Ltac steps := repeat step.

  Lemma triple_splitChild a i y : triple (splitChild a i y) (fun _ => True).
  Proof. unfold splitChild. steps. Qed.

  Lemma triple_insert_non_full f : forall a k v, P k v -> triple (insert_non_full cmp f a k v) (fun _ => True).
  Proof.
    induction f; intros a k v HP; cbn [insert_non_full]; [apply triple_diverge|].
    step. destruct (leaf a0).
    - step; [auto|]. eapply triple_bind; [apply triple_lift, (good_set_kv (fst a1) (snd a1) (Some (k, v))); auto|].
      intros nd G. steps.
    - do 3 step. eapply triple_bind.
      + instantiate (1 := fun _ => True). destruct (_ =? _); [|steps].
        eapply triple_bind; [apply triple_splitChild|]. intros _ _. steps.
      + intros j _. do 2 step. apply IHf; auto.
  Qed.
  Lemma search_found f : forall h a k b i, search cmp f h a k = Ret (Some (b, i)) ->
    exists nd k', nth_error h b = Some nd /\ nth_error (keys nd) i = Some (Some k') /\ cmp k k' = Equal.
  Proof.
    induction f; cbn [search]; intros h a k b i; [discriminate|].
    unfold idx at 1. destruct (nth_error h a) as [nd|] eqn:E; cbn [of_option bind]; [|discriminate].
    cbn zeta. set (j := scan cmp k (keys nd) 0).
    assert (REC : (if leaf nd then Ret None else c <- idx (childs nd) j ;; match c with Some c' => search cmp f h c' k | None => Ret None end) = Ret (Some (b, i)) ->
      exists nd k', nth_error h b = Some nd /\ nth_error (keys nd) i = Some (Some k') /\ cmp k k' = Equal).
    { destruct (leaf nd); [discriminate|]. destruct (idx (childs nd) j) as [[c|]| |]; cbn; try discriminate. apply IHf. }
    destruct (nth_error (keys nd) j) as [[k'|]|] eqn:N; auto.
    destruct (is (cmp k k') Equal) eqn:C; auto.
    intros H. injection H as <- <-. exists nd, k'. apply is_Equal in C. auto.
  Qed.
  (** What the search finds. *)
  Definition found (k : K) (x : option (nat * nat)) h : Prop :=
    match x with
    | None => True
    | Some (a, i) => exists nd e, nth_error h a = Some nd /\ idx (values nd) i = Ret (Some (snd e)) /\
                                  idx (keys nd) i = Ret (Some (fst e)) /\ cmp k (fst e) = Equal /\ P (fst e) (snd e)
    end.
  Lemma search_good f h a k : all_good h -> yields (search cmp f h a k) (fun x => found k x h).
  Proof.
    intros G. destruct (search cmp f h a k) as [[[b i]|]| |] eqn:E; cbn; auto.
    destruct (search_found _ _ _ _ _ _ E) as (nd & k' & N & NK & C).
    destruct (G _ _ N) as (S & R & H). destruct R as [Rk Rv]. rewrite Rk, nth_error_map in NK.
    destruct (nth_error S i) as [[e|]|] eqn:NS; cbn in NK; try discriminate. injection NK as <-.
    exists nd, e. assert (R : srep nd S) by (split; auto).
    rewrite (idx_keys _ _ _ _ R NS), (idx_values _ _ _ _ R NS). repeat split; auto.
    apply H. destruct e. eapply nth_error_In; eauto.
  Qed.

  (** *** The operations *)
  Lemma triple_Insert m k v : P k v -> triple (Insert cmp m k v) (fun r => match snd r with Some w => P k w | None => True end).
  Proof.
    intros HP. unfold Insert. destruct (root m) as [r|].
    2:{ eapply triple_bind; [apply triple_lift, (good_set_kv _ 0 (Some (k, v))); auto; steps|]. intros nd G. step; [auto|].
        apply triple_ret. exact I. }
    intros h G. unfold mbind at 1. pose proof (search_good (fuel h) h r k G) as Y.
    destruct (search cmp (fuel h) h r k) as [[[a i]|]| |]; cbn [bind]; auto; cbn [yields found] in Y.
    - destruct Y as (nd & e & N & NV & NK & C & HE).
      rewrite (mbind_Ret _ _ _ _ _ (rd_Ret _ _ _ N)). unfold lift at 1. erewrite mbind_Ret by (rewrite NV; reflexivity).
      destruct (G _ _ N) as (S & R & H).
      assert (LI : i < length (values nd)) by (unfold idx in NV; apply nth_error_Some; destruct (nth_error (values nd) i); cbn in NV; congruence).
      erewrite mbind_Ret by (unfold lift; rewrite upd_Ret by exact LI; reflexivity).
      assert (GN : good (mkNode (leaf nd) (deg nd) (keys nd) (list_set (values nd) i (Some v)) (n nd) (childs nd))).
      { exists (list_set S i (Some (fst e, v))). destruct R as [Rk Rv]. split.
        - split; cbn [keys values]; rewrite map_list_set; cbn; [|congruence].
          symmetry. rewrite <- Rk. apply list_set_same. unfold idx in NK. destruct (nth_error (keys nd) i); cbn in NK; congruence.
        - intros k0 v0 I. apply In_list_set in I. destruct I as [E|I]; [|auto]. injection E as -> ->. apply (P_equal _ _ v C). auto. }
      match goal with |- match ?m h with _ => _ end =>
        assert (T : triple m (fun r => match snd r with Some w => P k w | None => True end)); [|exact (T h G)] end.
      step; [auto|]. intros h1 G1. unfold mbind. cbn. split; [auto|]. apply (P_equal _ _ _ C). auto.
    - match goal with |- match ?m h with _ => _ end =>
        assert (T : triple m (fun r => match snd r with Some w => P k w | None => True end)); [|exact (T h G)] end.
      step. destruct (_ =? _).
      + step. step; [steps|]. eapply triple_bind; [apply triple_splitChild|]. intros _ _. do 4 step.
        eapply triple_bind; [intros h' G'; apply (triple_insert_non_full (fuel h') _ k v HP h' G')|].
        intros _ _. apply triple_ret. exact I.
      + eapply triple_bind; [intros h' G'; apply (triple_insert_non_full (fuel h') r k v HP h' G')|].
        intros _ _. apply triple_ret. exact I.
  Qed.

  Lemma triple_borrow_from_prev a i : triple (borrow_from_prev a i) (fun _ => True).
  Proof. unfold borrow_from_prev. steps. Qed.
  Lemma triple_borrow_from_next a i : triple (borrow_from_next a i) (fun _ => True).
  Proof. unfold borrow_from_next. steps. Qed.
  Lemma triple_merge a i : triple (merge a i) (fun _ => True).
  Proof. unfold merge. steps. Qed.
  Lemma triple_rich nd i : triple (rich nd i) (fun _ => True).
  Proof. unfold rich. steps. Qed.
  Lemma triple_fill a i : triple (fill a i) (fun _ => True).
  Proof.
    unfold fill. step. eapply triple_bind; [instantiate (1 := fun _ => True); destruct i; [steps|apply triple_rich]|].
    intros [] _; [apply triple_borrow_from_prev|].
    eapply triple_bind; [instantiate (1 := fun _ => True); destruct (_ =? _); [steps|apply triple_rich]|].
    intros [] _; [apply triple_borrow_from_next|]. destruct (_ =? _); [|apply triple_merge]. step. apply triple_merge.
  Qed.
  Lemma triple_remove f : forall a k, triple (remove_ cmp f a k) (fun _ => True).
  Proof.
    induction f; intros a k; cbn [remove_]; [apply triple_diverge|].
    do 3 step.
    match goal with |- triple (if ?b then _ else _) _ => destruct b end.
    - destruct (leaf a0); [unfold remove_from_leaf; steps|].
      eapply triple_bind; [apply triple_rich|]. intros [] _.
      + step. eapply triple_bind; [apply triple_read; intros h G; apply yields_any|]. intros pr _.
        step. step. step; [auto|auto|]. step; [auto|]. do 2 step. apply IHf.
      + eapply triple_bind; [apply triple_rich|]. intros [] _.
        * step. eapply triple_bind; [apply triple_read; intros h G; apply yields_any|]. intros pr _.
          step. step; [auto|auto|]. step; [auto|]. do 2 step. apply IHf.
        * eapply triple_bind; [apply triple_merge|]. intros _ _. do 3 step. apply IHf.
    - destruct (leaf a0); [steps|]. cbv zeta.
      eapply triple_bind; [apply triple_rich|]. intros p _.
      eapply triple_bind; [instantiate (1 := fun _ => True); destruct p; [steps|apply triple_fill]|]. intros _ _.
      do 3 step. apply IHf.
  Qed.
  Lemma good_value_at h a i : all_good h -> yields (value_at h a i) (fun v => exists k, P k v).
  Proof.
    intros G. unfold value_at, idx at 1. destruct (nth_error h a) as [nd|] eqn:N; cbn [of_option bind]; [|exact I].
    destruct (G _ _ N) as (S & R & H). destruct R as [_ Rv]. unfold idx. rewrite Rv, nth_error_map.
    destruct (nth_error S i) as [[[k v]|]|] eqn:NS; cbn; auto. exists k. apply H. eapply nth_error_In; eauto.
  Qed.
  (** Remove gives some value that is in the tree (not necessarily the right one). *)
  Lemma triple_Remove m k : triple (Remove cmp m k) (fun r => match snd r with Some w => exists k', P k' w | None => True end).
  Proof.
    unfold Remove. destruct (root m) as [r|]; [|apply triple_ret; exact I].
    eapply triple_bind; [apply triple_read; intros h G; apply yields_any|]. intros res _.
    eapply triple_bind; [intros h' G'; apply (triple_remove (fuel h') r k h' G')|]. intros _ _.
    do 2 step. destruct res as [[b i]|]; [|apply triple_ret; exact I].
    eapply triple_bind; [apply triple_read; intros h G; apply good_value_at; auto|]. intros v Hv. apply triple_ret. exact Hv.
  Qed.
  Lemma good_Get m k h : all_good h -> yields (Get cmp m k h) (fun o => match o with Some v => P k v | None => True end).
  Proof.
    intros G. unfold Get. destruct (root m); [|exact I].
    pose proof (search_good (fuel h) h n k G) as Y.
    destruct (search cmp (fuel h) h n k) as [[[a i]|]| |]; cbn [bind]; try exact I. cbn in Y.
    destruct Y as (nd & e & N & NV & _ & C & HE). unfold value_at, idx at 1. rewrite N. cbn [of_option bind].
    rewrite NV. cbn. apply (P_equal _ _ _ C); auto.
  Qed.

  (** *** The listings *)
  Lemma good_to_vec f : forall h a, all_good h -> yields (to_vec f h a) (fun l => forall k v, In (k, v) l -> P k v).
  Proof.
    induction f; intros h a G; cbn [to_vec]; [exact I|].
    unfold idx at 1. destruct (nth_error h a) as [nd|] eqn:N; cbn [of_option bind]; [|exact I].
    destruct (G _ _ N) as (S & R & H).
    generalize (length (keys nd)) 0. induction n as [|m IH]; intros i; [cbn; tauto|].
    eapply yields_bind.
    - instantiate (1 := fun l => forall k v, In (k, v) l -> P k v). destruct (leaf nd); [cbn; tauto|].
      eapply yields_bind; [apply yields_any|]. intros [c|] _; [apply IHf; auto|cbn; tauto].
    - intros cs Hc. destruct (nth_error S i) as [e|] eqn:NS.
      + rewrite (idx_keys _ _ _ _ R NS). cbn [bind]. rewrite (idx_values _ _ _ _ R NS).
        eapply yields_bind.
        * instantiate (1 := fun l => forall k v, In (k, v) l -> P k v). destruct e as [[k v]|]; cbn; [|tauto].
          intros k0 v0 [E|[]]. injection E as <- <-. apply H. eapply nth_error_In; eauto.
        * intros e1 He. eapply yields_bind; [apply IH|]. cbn. intros r Hr k v I.
          apply in_app_iff in I. destruct I as [I|I]; [auto|]. apply in_app_iff in I. destruct I; auto.
      + unfold idx at 1. destruct R as [-> _]. rewrite nth_error_map, NS. exact I.
  Qed.
  Lemma good_to_key_vec f : forall h a, all_good h -> yields (to_key_vec f h a) (fun l => forall k, In k l -> exists v, P k v).
  Proof.
    induction f; intros h a G; cbn [to_key_vec]; [exact I|].
    unfold idx at 1. destruct (nth_error h a) as [nd|] eqn:N; cbn [of_option bind]; [|exact I].
    destruct (G _ _ N) as (S & R & H).
    generalize (Nat.min (length (keys nd)) (n nd)) 0. induction n as [|m IH]; intros i; [cbn; tauto|].
    eapply yields_bind.
    - instantiate (1 := fun l => forall k, In k l -> exists v, P k v). destruct (leaf nd); [cbn; tauto|].
      eapply yields_bind; [apply yields_any|]. intros [c|] _; [apply IHf; auto|cbn; tauto].
    - intros cs Hc. destruct (nth_error S i) as [e|] eqn:NS.
      + rewrite (idx_keys _ _ _ _ R NS). cbn [bind].
        eapply yields_bind; [apply IH|]. cbn. intros r Hr k I.
        apply in_app_iff in I. destruct I as [I|I]; [auto|]. apply in_app_iff in I. destruct I as [I|I]; [|auto].
        destruct e as [[k0 v0]|]; cbn in I; [|tauto]. destruct I as [<-|[]]. exists v0. apply H. eapply nth_error_In; eauto.
      + unfold idx at 1. destruct R as [-> _]. rewrite nth_error_map, NS. exact I.
  Qed.
  Lemma good_to_value_vec f : forall h a, all_good h -> yields (to_value_vec f h a) (fun l => forall v, In v l -> exists k, P k v).
  Proof.
    induction f; intros h a G; cbn [to_value_vec]; [exact I|].
    unfold idx at 1. destruct (nth_error h a) as [nd|] eqn:N; cbn [of_option bind]; [|exact I].
    destruct (G _ _ N) as (S & R & H).
    generalize (length (keys nd)) 0. induction n as [|m IH]; intros i; [cbn; tauto|].
    eapply yields_bind.
    - instantiate (1 := fun l => forall v, In v l -> exists k, P k v). destruct (leaf nd); [cbn; tauto|].
      eapply yields_bind; [apply yields_any|]. intros [c|] _; [apply IHf; auto|cbn; tauto].
    - intros cs Hc. destruct (nth_error S i) as [e|] eqn:NS.
      + rewrite (idx_values _ _ _ _ R NS). cbn [bind].
        eapply yields_bind; [apply IH|]. cbn. intros r Hr v I.
        apply in_app_iff in I. destruct I as [I|I]; [auto|]. apply in_app_iff in I. destruct I as [I|I]; [|auto].
        destruct e as [[k0 v0]|]; cbn in I; [|tauto]. destruct I as [<-|[]]. exists k0. apply H. eapply nth_error_In; eauto.
      + unfold idx at 1. destruct R as [_ ->]. rewrite nth_error_map, NS. exact I.
  Qed.

  (** *** Histories *)
  Definition honest (o : bop K V) (a : banswer K V) : Prop :=
    match o, a with
    | BInsert k _, Value (Some v) | BGet k, Value (Some v) => P k v
    | BRemove _, Value (Some v) => exists k, P k v
    | BEntries, Entries es => forall k v, In (k, v) es -> P k v
    | BKeys, KeyList ks => forall k, In k ks -> exists v, P k v
    | BValues, ValueList vs => forall v, In v vs -> exists k, P k v
    | _, _ => True
    end.
  Lemma triple_asking {A} m (f : heap K V -> out A) g (Q : BTreeMap * banswer K V -> Prop) :
    (forall h, all_good h -> yields (f h) (fun a => Q (m, g a))) -> triple (asking m f g) Q.
  Proof. intros H h G. specialize (H h G). unfold asking. destruct (f h); cbn in *; auto. Qed.
  Lemma triple_exec m o : (forall k v, o = BInsert k v -> P k v) -> triple (exec cmp m o) (fun r => honest o (snd r)).
  Proof.
    intros HI. destruct o; cbn [exec].
    - eapply triple_bind; [apply triple_Insert; auto|]. intros [m' w] Hw. apply triple_ret. cbn in *. destruct w; auto.
    - eapply triple_bind; [apply triple_Remove; auto|]. intros [m' w] Hw. apply triple_ret. cbn in *. destruct w; auto.
    - apply triple_asking. intros h G. pose proof (good_Get m k h G) as Y. destruct (Get cmp m k h) as [[]| |]; cbn in *; auto.
    - apply triple_asking. intros h G. destruct (ContainsKey cmp m k h); cbn; auto.
    - apply triple_ret. exact I.
    - apply triple_ret. exact I.
    - apply triple_ret. exact I.
    - apply triple_asking. intros h G. unfold IntoIter_vec. destruct (root m); [|cbn; tauto]. apply good_to_vec; auto.
    - apply triple_asking. intros h G. unfold Keys_vec. destruct (root m); [|cbn; tauto]. apply good_to_key_vec; auto.
    - apply triple_asking. intros h G. unfold Values_vec. destruct (root m); [|cbn; tauto]. apply good_to_value_vec; auto.
  Qed.
  Lemma triple_run ops : forall m, (forall k v, In (BInsert k v) ops -> P k v) ->
    triple (run cmp m ops) (fun r => Forall2 honest ops (snd r)).
  Proof.
    induction ops as [|o ops IH]; intros m HI; cbn [run].
    - apply triple_ret. constructor.
    - eapply triple_bind; [apply triple_exec; intros k v ->; apply HI; cbn; auto|]. intros x Hx.
      eapply triple_bind; [apply IH; intros k v I; apply HI; cbn; auto|]. intros y Hy.
      apply triple_ret. constructor; auto.
  Qed.
End Safe.
