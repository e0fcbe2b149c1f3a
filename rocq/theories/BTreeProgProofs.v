(** BTreeProgProofs.v -- programs over any number of B-tree maps or sets are runs of as many
    machines of BTreeTreeSpec. *)
From Verif Require Import Base BaseLemmas Effect CmpSpec VecSpec TextSpec StringModel HashModel HashSetProofs BTreeModel BTreeSpec BTreeHistory BTreeProofs BTreeMapProofs BTreeSafeProofs
  BTreeSepProofs BTreeTwoProofs BTreeTreeSpec BTreeTreeProofs BTreeTreeRunProofs BTreeShowSpec BTreeShowProofs BTreeSetRun BTreeSetRunProofs BTreeProgSpec BTreeProgModel.
Local Open Scope nat_scope.

Section World.
  Context {K V : Type}.
  Variable cmp : K -> K -> ordering.
  Implicit Types (h : heap K V) (m : BTreeMap) (t : tree K V).

  (** [who] says to which variable a node belongs. *)
  Definition his (who : nat -> option nat) (i : nat) h (a : nat) : Prop := a < length h /\ who a = Some i.
  Definition world h (ms : list BTreeMap) (ts : list (tree K V)) : Prop :=
    length ms = length ts /\ exists who : nat -> option nat,
      (forall a i, a < length h -> who a = Some i -> i < length ms) /\
      forall i m t, nth_error ms i = Some m -> nth_error ts i = Some t -> tree_at h m t /\ area h m (his who i h).

  Lemma tree_at_same h h' m t F : tree_at h m t -> area h m F -> (forall a, F a -> nth_error h' a = nth_error h a) -> tree_at h' m t.
  Proof.
    intros T (R & L & C) S. destruct t as [s|seps kids total]; cbn [tree_at] in *.
    - destruct T as (CO & T). split; [exact CO|]. destruct (root m) as [r|]; [|exact T]. destruct T as (nd & E & T). exists nd. rewrite S; auto.
    - destruct T as (r & -> & addrs & rn & E & RN & KA). exists r. split; [reflexivity|]. exists addrs, rn. cbn [root] in R.
      split; [rewrite S; auto|]. split; [exact RN|]. destruct KA as (LK & KA). split; [exact LK|]. intros i a N. destruct (KA i a N) as (nd & Ea & KN).
      exists nd. split; [|exact KN]. rewrite S; auto. apply (C r rn R E). destruct RN as (_ & _ & _ & _ & _ & CH & _). rewrite CH.
      apply in_or_app. left. apply in_map. eapply nth_error_In; eauto.
  Qed.
  Lemma world_new h : world h [] [].
  Proof. split; [reflexivity|]. exists (fun _ => None). split; [discriminate|]. intros [|i]; discriminate. Qed.
  Lemma world_more h ms ts : world h ms ts -> world h (ms ++ [BTreeMapNew]) (ts ++ [empty]).
  Proof.
    intros (L & who & B & W). split; [rewrite !app_length; cbn; lia|]. exists who. split; [intros a i A E; rewrite app_length; specialize (B a i A E); lia|].
    intros i m t E E'. destruct (Nat.lt_ge_cases i (length ms)) as [LT|GE].
    - rewrite nth_error_app1 in E by auto. rewrite nth_error_app1 in E' by lia. auto.
    - rewrite nth_error_app2 in E by auto. rewrite nth_error_app2 in E' by lia.
      destruct (i - length ms) as [|[|]] eqn:EI; cbn in E; try discriminate. replace (i - length ts) with 0 in E' by lia. cbn in E'.
      injection E as <-. injection E' as <-. split.
      + cbn. split; [reflexivity|]. split; reflexivity.
      + split; [exact I|]. split; [intros a Q; apply Q|]. intros a nd (A & Q). specialize (B a i A Q). lia.
  Qed.
  Lemma world_step h ms ts i m t o : world h ms ts -> nth_error ms i = Some m -> nth_error ts i = Some t ->
    match tree_step cmp t o with
    | None => exec cmp m o h = Panic
    | Some (t', a) => exists h' m', exec cmp m o h = Ret ((m', a), h') /\ world h' (list_set ms i m') (list_set ts i t')
    end.
  Proof.
    intros (L & who & B & W) EM ET. destruct (W i m t EM ET) as (TA & AR). pose proof (step_tree cmp h m t o TA) as ST.
    destruct (tree_step cmp t o) as [[t' a]|]; [|exact ST]. destruct ST as (h' & m' & EX & TA'). exists h', m'. split; [exact EX|].
    set (O := fun x => his who i h x \/ length h <= x). destruct AR as (RA & LA & CA).
    assert (IN : inside O (length h) h).
    { split; [lia|]. intros x nd [Fx|Lx] EN c I; [|apply nth_lt in EN; lia].
      assert (Fc : his who i h c) by (eapply CA; eauto). split; [left; exact Fc|apply Fc]. }
    assert (RO : root_own O m (length h)).
    { unfold root_own, maybe. destruct (root m); [|exact I]. split; [left; exact RA|apply RA]. }
    pose proof (sep_exec cmp O (length h) (fun x H => or_intror H) _ m o RO h (le_n _) IN) as Q. rewrite EX in Q.
    destruct Q as ((LN & CL) & KE & LE & RO'). cbn [fst] in RO'.
    split; [rewrite !list_set_length; exact L|]. exists (fun x => if x <? length h then who x else Some i).
    assert (LI : i < length ms) by (eapply nth_lt; eauto).
    assert (HIS : forall j x, j <> i -> his (fun x => if x <? length h then who x else Some i) j h' x <-> his who j h x).
    { intros j x NE. unfold his. destruct (Nat.ltb_spec x (length h)); split; intros (A1 & A2); split; auto; try lia; congruence. }
    assert (MINE : forall x, his (fun x => if x <? length h then who x else Some i) i h' x <-> O x /\ x < length h').
    { intros x. unfold O, his. destruct (Nat.ltb_spec x (length h)); split.
      - intros (A1 & A2). tauto.
      - intros ([(A1 & A2)|A1] & A3); [auto|lia].
      - intros (A1 & A2). auto.
      - intros (A1 & A2). auto. }
    split.
    { intros x j LX E. rewrite list_set_length. destruct (Nat.ltb_spec x (length h)); [eauto|]. congruence. }
    intros j mj tj Ej Ej'. rewrite nth_error_list_set in Ej. rewrite nth_error_list_set in Ej'. destruct (Nat.eqb_spec i j) as [<-|NE].
    - destruct (i <? length ms); [|discriminate]. destruct (i <? length ts); [|discriminate]. injection Ej as <-. injection Ej' as <-. split; [exact TA'|].
      split; [|split].
      + unfold root_own, maybe in RO'. destruct (root m') as [r'|]; [|exact I]. apply MINE. exact RO'.
      + intros x X. apply X.
      + intros x nd X EN c I. apply MINE in X. apply MINE. exact (CL x nd (proj1 X) EN c I).
    - destruct (W j mj tj Ej Ej') as (TJ & AJ).
      assert (SAME : forall x, his who j h x -> nth_error h' x = nth_error h x).
      { intros x (LX & WX). apply KE. intros [(_ & X)|X]; [congruence|lia]. }
      split; [eapply tree_at_same; eauto|]. destruct AJ as (RJ & LJ & CJ). split; [|split].
      + destruct (root mj); [|exact I]. apply HIS; auto.
      + intros x X. apply X.
      + intros x nd X EN c I. apply HIS in X; auto. apply HIS; auto. rewrite (SAME x X) in EN. eauto.
  Qed.

  (** *** Reading *)
  Lemma at_get h m t q : tree_at h m t -> Get cmp m q h = Ret (value_of cmp t q).
  Proof.
    intros T. pose proof (step_tree cmp h m t (BGet q) T) as S. unfold value_of.
    destruct t; cbn [tree_step slot_step lost] in *; destruct S as (h' & m' & E & _); cbn [exec] in E; unfold asking in E;
      destruct (Get cmp m q h); cbn [bind] in E; congruence.
  Qed.
  Lemma at_has h m t q : tree_at h m t -> ContainsKey cmp m q h = Ret (has cmp t q).
  Proof.
    intros T. pose proof (step_tree cmp h m t (BContainsKey q) T) as S. unfold has.
    destruct t; cbn [tree_step slot_step lost] in *; destruct S as (h' & m' & E & _); cbn [exec] in E; unfold asking in E;
      destruct (ContainsKey cmp m q h); cbn [bind] in E; congruence.
  Qed.
  Lemma at_size h m t : tree_at h m t -> Len m = size cmp t.
  Proof.
    intros T. pose proof (step_tree cmp h m t BLen T) as S. unfold size.
    destruct t; cbn [tree_step slot_step lost] in *; destruct S as (h' & m' & E & _); cbn [exec] in E; unfold mret in E; congruence.
  Qed.
  Lemma at_keys h m t : tree_at h m t -> Keys_vec m h = Ret (keys_of cmp t).
  Proof.
    intros T. pose proof (step_tree cmp h m t BKeys T) as S. unfold keys_of.
    destruct t; cbn [tree_step slot_step lost] in *; destruct S as (h' & m' & E & _); cbn [exec] in E; unfold asking in E;
      destruct (Keys_vec m h); cbn [bind] in E; congruence.
  Qed.
  Lemma at_entries h m t : tree_at h m t -> IntoIter_vec m h = Ret (entries_of cmp t).
  Proof.
    intros T. pose proof (step_tree cmp h m t BEntries T) as S. unfold entries_of.
    destruct t; cbn [tree_step slot_step lost] in *; destruct S as (h' & m' & E & _); cbn [exec] in E; unfold asking in E;
      destruct (IntoIter_vec m h); cbn [bind] in E; congruence.
  Qed.
  Lemma at_values h m t : tree_at h m t -> Values_vec m h = Ret (map snd (entries_of cmp t)).
  Proof.
    intros T. pose proof (step_tree cmp h m t BValues T) as S. unfold entries_of.
    destruct t; cbn [tree_step slot_step lost] in *; destruct S as (h' & m' & E & _); cbn [exec] in E; unfold asking in E;
      destruct (Values_vec m h); cbn [bind] in E; congruence.
  Qed.
  Lemma at_hollow h m t : tree_at h m t -> root m = None <-> hollow t = true.
  Proof.
    destruct t as [s|seps kids total]; cbn [tree_at hollow].
    - intros (_ & R). destruct (root m) as [r|]; [|destruct R as (-> & _); tauto].
      destruct R as (nd & _ & _ & NE). destruct (live s); [congruence|]. split; discriminate.
    - intros (r & -> & _). cbn. split; discriminate.
  Qed.

  Lemma idx_both h ms ts i : world h ms ts ->
    (exists m t, nth_error ms i = Some m /\ nth_error ts i = Some t /\ tree_at h m t /\ idx ms i = Ret m) \/
    (nth_error ms i = None /\ nth_error ts i = None /\ idx ms i = Panic).
  Proof.
    intros (L & who & _ & W). unfold idx. destruct (nth_error ms i) as [m|] eqn:EM.
    - destruct (nth_error ts i) as [t|] eqn:ET; [|apply nth_lt in EM; apply nth_error_None in ET; lia].
      left. exists m, t. destruct (W i m t EM ET) as (T & _). repeat split; auto.
    - right. apply nth_error_None in EM. assert (nth_error ts i = None) by (apply nth_error_None; lia). auto.
  Qed.
End World.

Section Maps.
  Context {K V : Type}.
  Variable cmp : K -> K -> ordering.
  Variable eq : V -> V -> bool.
  Variable dk : K -> list Z.
  Variable dv : V -> list Z.
  Lemma mstep_sim (h : heap K V) ms ts o : world h ms ts ->
    match mstep cmp eq dk dv ts o with
    | None => mexec cmp eq dk dv ms o h = Panic
    | Some (ts', a) => exists h' ms', mexec cmp eq dk dv ms o h = Ret ((ms', a), h') /\ world h' ms' ts'
    end.
  Proof.
    intros W. destruct o as [|i o|i j|i]; cbn [mstep mexec].
    - exists h, (ms ++ [BTreeMapNew]). split; [reflexivity|]. now apply world_more.
    - destruct (idx_both h ms ts i W) as [(m & t & EM & ET & T & EI)|(EM & ET & EI)]; rewrite ET; unfold mbind, lift; rewrite EI; cbn [bind]; [|reflexivity].
      pose proof (world_step cmp h ms ts i m t o W EM ET) as S. destruct (tree_step cmp t o) as [[t' a]|].
      + destruct S as (h' & m' & EX & W'). rewrite EX. cbn [bind]. exists h', (list_set ms i m'). split; [reflexivity|exact W'].
      + now rewrite S.
    - destruct (idx_both h ms ts i W) as [(m & t & EM & ET & T & EI)|(EM & ET & EI)]; rewrite ET; unfold mbind, lift; rewrite EI; cbn [bind]; [|reflexivity].
      destruct (idx_both h ms ts j W) as [(m2 & t2 & EM2 & ET2 & T2 & EI2)|(EM2 & ET2 & EI2)]; rewrite ET2, EI2; cbn [bind]; [|reflexivity].
      unfold asked. rewrite (Eq_eq cmp eq m m2 h _ (value_of cmp t2) (at_entries cmp _ _ _ T)) by (intros q; now apply at_get).
      rewrite (at_size cmp _ _ _ T), (at_size cmp _ _ _ T2). exists h, ms. split; [reflexivity|exact W].
    - destruct (idx_both h ms ts i W) as [(m & t & EM & ET & T & EI)|(EM & ET & EI)]; rewrite ET; unfold mbind, lift; rewrite EI; cbn [bind]; [|reflexivity].
      unfold asked. rewrite (Display_eq cmp dk dv m h _ (value_of cmp t) (at_keys cmp _ _ _ T)) by (intros q; now apply at_get).
      exists h, ms. split; [reflexivity|exact W].
  Qed.
  Lemma mrun_sim ops : forall (h : heap K V) ms ts, world h ms ts ->
    match mrun cmp eq dk dv ts ops with
    | None => mprogram cmp eq dk dv ms ops h = Panic
    | Some (ts', rs) => exists h' ms', mprogram cmp eq dk dv ms ops h = Ret ((ms', rs), h') /\ world h' ms' ts'
    end.
  Proof.
    induction ops as [|o ops IH]; intros h ms ts W; cbn [mrun mprogram]; [exists h, ms; auto|].
    pose proof (mstep_sim h ms ts o W) as S. destruct (mstep cmp eq dk dv ts o) as [[ts1 a]|]; unfold mbind; [|now rewrite S].
    destruct S as (h1 & ms1 & E & W1). rewrite E. cbn [bind fst snd]. specialize (IH h1 ms1 ts1 W1).
    destruct (mrun cmp eq dk dv ts1 ops) as [[ts2 rs]|]; cbn [option_map fst snd]; [|now rewrite IH].
    destruct IH as (h2 & ms2 & E2 & W2). rewrite E2. cbn [bind]. exists h2, ms2. split; [reflexivity|exact W2].
  Qed.
End Maps.

Section Sets.
  Context {K : Type}.
  Variable cmp : K -> K -> ordering.
  Variable dk : K -> list Z.
  Implicit Types (h : heap K unit) (s u : BTreeSet) (t v : tree K unit).
  Definition or_panic {A} (x : option A) : out A := match x with Some a => Ret a | None => Panic end.

  Lemma at_elements h s t : tree_at h s t -> sIntoIter_vec s h = or_panic (elements cmp t).
  Proof.
    intros T. unfold elements, sIntoIter_vec. pose proof (at_hollow h s t T) as H. pose proof (at_keys cmp h s t T) as E. unfold Keys_vec in E.
    destruct (root s) as [r|].
    - destruct (hollow t); [destruct H as (_ & H); specialize (H eq_refl); discriminate|]. exact E.
    - destruct H as (H & _). now rewrite H.
  Qed.
  Lemma all_loop h s t want l : tree_at h s t -> forall_loop cmp want s h l = Ret (forallb (fun x => Bool.eqb (has cmp t x) want) l).
  Proof.
    intros T. induction l as [|x l IH]; [reflexivity|]. cbn [forall_loop forallb]. unfold Contains. rewrite (at_has cmp _ _ _ x T). cbn [bind].
    destruct (Bool.eqb _ want); [exact IH|reflexivity].
  Qed.
  Lemma forallb_same {A} (f g : A -> bool) l : (forall x, f x = g x) -> forallb f l = forallb g l.
  Proof. intros E. induction l as [|x l IH]; [reflexivity|]. cbn [forallb]. now rewrite E, IH. Qed.
  Lemma has_all h s t s2 t2 : tree_at h s t -> tree_at h s2 t2 ->
    (l <- sIntoIter_vec s h ;; forall_loop cmp true s2 h l) = or_panic (option_map (forallb (has cmp t2)) (elements cmp t)).
  Proof.
    intros T T2. rewrite (at_elements h s t T). destruct (elements cmp t) as [l|]; cbn [or_panic bind option_map]; [|reflexivity].
    rewrite (all_loop h s2 t2 true l T2). f_equal. apply forallb_same. intros x. now destruct (has cmp t2 x).
  Qed.
  Lemma at_subset h s t s2 t2 : tree_at h s t -> tree_at h s2 t2 -> IsSubset cmp s s2 h = or_panic (subset cmp t t2).
  Proof.
    intros T T2. unfold IsSubset, subset, sLen. rewrite (at_size cmp _ _ _ T), (at_size cmp _ _ _ T2).
    destruct (size cmp t2 <? size cmp t)%Z; [reflexivity|]. now apply has_all.
  Qed.
  Lemma at_equal h s t s2 t2 : tree_at h s t -> tree_at h s2 t2 -> sEq cmp s s2 h = or_panic (equal cmp t t2).
  Proof.
    intros T T2. unfold sEq, equal, sLen. rewrite (at_size cmp _ _ _ T), (at_size cmp _ _ _ T2).
    destruct (size cmp t =? size cmp t2)%Z; cbn [negb]; [|reflexivity]. now apply has_all.
  Qed.
  Lemma at_disjoint h s t s2 t2 : tree_at h s t -> tree_at h s2 t2 -> IsDisjoint cmp s s2 h = or_panic (disjoint cmp t t2).
  Proof.
    intros T T2. unfold IsDisjoint, disjoint. rewrite (at_elements h s t T). destruct (elements cmp t) as [l|]; cbn [or_panic bind option_map]; [|reflexivity].
    rewrite (all_loop h s2 t2 false l T2). apply f_equal, forallb_same. intros x. now destruct (has cmp t2 x).
  Qed.

  (** *** A set under construction is the last variable *)
  Lemma last_nth {A} (l : list A) a : nth_error (l ++ [a]) (length l) = Some a.
  Proof. rewrite nth_error_app2 by lia. now rewrite Nat.sub_diag. Qed.
  Lemma last_set {A} (l : list A) a b : list_set (l ++ [a]) (length l) b = l ++ [b].
  Proof. induction l as [|x l IH]; [reflexivity|]. cbn [app length list_set]. now rewrite IH. Qed.
  Lemma world_length h (ss : list BTreeSet) ts : world h ss ts -> length ss = length ts.
  Proof. intros (L & _). exact L. Qed.
  Lemma world_at h (ss : list BTreeSet) ts u v i s t : world h (ss ++ [u]) (ts ++ [v]) -> nth_error ss i = Some s -> nth_error ts i = Some t -> tree_at h s t.
  Proof.
    intros (_ & who & _ & W) ES ET. refine (proj1 (W i s t _ _)); (rewrite nth_error_app1 by (eapply nth_lt; eauto); assumption).
  Qed.
  Lemma world_add h (ss : list BTreeSet) ts u v x : world h (ss ++ [u]) (ts ++ [v]) ->
    match add cmp v x with
    | None => sInsert cmp u x h = Panic
    | Some v' => exists h' u' b, sInsert cmp u x h = Ret ((u', b), h') /\ world h' (ss ++ [u']) (ts ++ [v'])
    end.
  Proof.
    intros W. assert (L : length ss = length ts) by (pose proof (world_length _ _ _ W) as L; rewrite !app_length in L; cbn in L; lia).
    pose proof (world_step cmp h _ _ (length ss) u v (BInsert x tt) W (last_nth _ _)) as S.
    rewrite L in S at 1. specialize (S (last_nth _ _)). unfold add, sInsert.
    destruct (tree_step cmp v (BInsert x tt)) as [[v' a]|]; cbn [option_map fst] in *.
    - destruct S as (h' & u' & E & W'). rewrite last_set in W'. rewrite L, last_set in W'. cbn [exec] in E. unfold mbind in *.
      destruct (Insert cmp u x tt h) as [[[u1 r] h1]| |]; try discriminate. unfold mret in E. injection E as <- <- <-. cbn [bind fst snd].
      exists h1, u1. eexists. split; [reflexivity|exact W'].
    - cbn [exec] in S. unfold mbind in *. destruct (Insert cmp u x tt h) as [[[u1 r] h1]| |]; try discriminate. reflexivity.
  Qed.
  Lemma world_loop (p : K -> heap K unit -> out bool) q l : forall h (ss : list BTreeSet) ts u v, world h (ss ++ [u]) (ts ++ [v]) ->
    (forall h' u' v' x, world h' (ss ++ [u']) (ts ++ [v']) -> p x h' = Ret (q x)) ->
    match add_those cmp q l v with
    | None => insert_loop cmp p l u h = Panic
    | Some v' => exists h' u', insert_loop cmp p l u h = Ret (u', h') /\ world h' (ss ++ [u']) (ts ++ [v'])
    end.
  Proof.
    induction l as [|x l IH]; intros h ss ts u v W P; cbn [add_those insert_loop]; [exists h, u; auto|].
    unfold mbind, reading. rewrite (P h u v x W). cbn [bind]. destruct (q x).
    - pose proof (world_add h ss ts u v x W) as S. destruct (add cmp v x) as [v1|]; [|now rewrite S].
      destruct S as (h1 & u1 & b & E & W1). rewrite E. cbn [bind fst mret]. exact (IH h1 ss ts u1 v1 W1 P).
    - cbn [bind mret]. exact (IH h ss ts u v W P).
  Qed.
  Lemma world_both p p' q q' h (ss : list BTreeSet) ts i j s t s2 t2 : world h ss ts ->
    nth_error ss i = Some s -> nth_error ts i = Some t -> nth_error ss j = Some s2 -> nth_error ts j = Some t2 ->
    (forall h' u' v' x, world h' (ss ++ [u']) (ts ++ [v']) -> p x h' = Ret (q x)) ->
    (forall h' u' v' x, world h' (ss ++ [u']) (ts ++ [v']) -> p' x h' = Ret (q' x)) ->
    match both cmp q q' t t2 with
    | None => (l <~ reading (sIntoIter_vec s) ;; u <~ insert_loop cmp p l BTreeSetNew ;; l' <~ reading (sIntoIter_vec s2) ;; insert_loop cmp p' l' u) h = Panic
    | Some v => exists h' u, (l <~ reading (sIntoIter_vec s) ;; u <~ insert_loop cmp p l BTreeSetNew ;;
                              l' <~ reading (sIntoIter_vec s2) ;; insert_loop cmp p' l' u) h = Ret (u, h') /\ world h' (ss ++ [u]) (ts ++ [v])
    end.
  Proof.
    intros W ES ET ES2 ET2 P P'. pose proof (world_more _ _ _ W) as W0. unfold both, mbind. unfold reading at 1. unfold reading at 2.
    pose proof (world_at _ _ _ _ _ _ _ _ W0 ES ET) as T. rewrite (at_elements h s t T). destruct (elements cmp t) as [l|]; cbn [or_panic bind]; [|reflexivity].
    pose proof (world_loop p q l h ss ts BTreeSetNew empty W0 P) as S. destruct (add_those cmp q l empty) as [v|]; [|now rewrite S].
    destruct S as (h1 & u1 & E1 & W1). rewrite E1. unfold reading. pose proof (world_at _ _ _ _ _ _ _ _ W1 ES2 ET2) as T2.
    rewrite (at_elements h1 s2 t2 T2). destruct (elements cmp t2) as [l'|]; cbn [or_panic bind]; [|reflexivity].
    exact (world_loop p' q' l' h1 ss ts u1 v W1 P').
  Qed.
  Lemma world_intersection h (ss : list BTreeSet) ts i j s t s2 t2 : world h ss ts ->
    nth_error ss i = Some s -> nth_error ts i = Some t -> nth_error ss j = Some s2 -> nth_error ts j = Some t2 ->
    match intersection cmp t t2 with
    | None => Intersection cmp s s2 h = Panic
    | Some v => exists h' u, Intersection cmp s s2 h = Ret (u, h') /\ world h' (ss ++ [u]) (ts ++ [v])
    end.
  Proof.
    intros W ES ET ES2 ET2. pose proof (world_more _ _ _ W) as W0. unfold intersection, Intersection, mbind, reading.
    pose proof (world_at _ _ _ _ _ _ _ _ W0 ES ET) as T. rewrite (at_elements h s t T). destruct (elements cmp t) as [l|]; cbn [or_panic bind]; [|reflexivity].
    apply (world_loop (fun x h => Contains cmp s2 x h) (has cmp t2) l h ss ts BTreeSetNew empty W0).
    intros h' u' v' x W'. unfold Contains. apply (at_has cmp). exact (world_at _ _ _ _ _ _ _ _ W' ES2 ET2).
  Qed.
  Lemma world_union h (ss : list BTreeSet) ts i j s t s2 t2 : world h ss ts ->
    nth_error ss i = Some s -> nth_error ts i = Some t -> nth_error ss j = Some s2 -> nth_error ts j = Some t2 ->
    match union cmp t t2 with
    | None => Union cmp s s2 h = Panic
    | Some v => exists h' u, Union cmp s s2 h = Ret (u, h') /\ world h' (ss ++ [u]) (ts ++ [v])
    end.
  Proof. intros W ES ET ES2 ET2. unfold union, Union. eapply world_both; eauto. Qed.
  Lemma world_symmetric h (ss : list BTreeSet) ts i j s t s2 t2 : world h ss ts ->
    nth_error ss i = Some s -> nth_error ts i = Some t -> nth_error ss j = Some s2 -> nth_error ts j = Some t2 ->
    match symmetric cmp t t2 with
    | None => SymmetricDifference cmp s s2 h = Panic
    | Some v => exists h' u, SymmetricDifference cmp s s2 h = Ret (u, h') /\ world h' (ss ++ [u]) (ts ++ [v])
    end.
  Proof.
    intros W ES ET ES2 ET2. unfold symmetric, SymmetricDifference. eapply world_both; eauto; intros h' u' v' x W'; cbn beta; unfold Contains.
    - now rewrite (at_has cmp _ _ _ x (world_at _ _ _ _ _ _ _ _ W' ES2 ET2)).
    - now rewrite (at_has cmp _ _ _ x (world_at _ _ _ _ _ _ _ _ W' ES ET)).
  Qed.

  Lemma value_answer t o t' a : (exists x, o = BInsert x tt \/ o = BRemove x) -> tree_step cmp t o = Some (t', a) -> exists w, a = Value w.
  Proof.
    intros (x & [-> | ->]); destruct t as [s|seps kids total]; cbn [tree_step slot_step lost].
    - destruct (seek cmp x (all_slots s) 0); [intros E; injection E as _ <-; eauto|]. destruct (length (live s) =? 11).
      + destruct (grow _ _ _ _); cbn [option_map]; [intros E; injection E as _ <-; eauto|discriminate].
      + intros E. injection E as _ <-. eauto.
    - destruct (find cmp seps kids x); [intros E; injection E as _ <-; eauto|].
      destruct (grow _ _ _ _); cbn [option_map]; [intros E; injection E as _ <-; eauto|discriminate].
    - destruct (seek cmp x (all_slots s) 0); cbn [is_some]; [destruct (slot_value _ _)|]; intros E; try discriminate; injection E as _ <-; eauto.
    - destruct (prune cmp seps kids x) as [y|]; [|discriminate]. destruct (find cmp seps kids x) as [q|]; [|intros E; injection E as _ <-; eauto].
      destruct (content (fst y) (snd y) q); [|discriminate]. intros E. injection E as _ <-. eauto.
  Qed.
  Lemma world_call h (ss : list BTreeSet) ts i s t o : world h ss ts -> nth_error ss i = Some s -> nth_error ts i = Some t ->
    match set_call cmp t o with
    | None => sexec cmp s o h = Panic
    | Some (t', a) => exists h' s', sexec cmp s o h = Ret ((s', a), h') /\ world h' (list_set ss i s') (list_set ts i t')
    end.
  Proof.
    intros W ES ET. rewrite (sexec_exec cmp s o h). pose proof (world_step cmp h ss ts i s t (as_map o) W ES ET) as S. unfold mbind.
    assert (E : set_call cmp t o = option_map (fun r => (fst r, as_set o (snd r))) (tree_step cmp t (as_map o))).
    { destruct o; cbn [set_call as_map as_set]; try reflexivity; [| |unfold has, size; destruct t; reflexivity..].
      - destruct (tree_step cmp t (BInsert x tt)) as [[t' a]|] eqn:E; [|reflexivity]. destruct (value_answer t _ t' a (ex_intro _ x (or_introl eq_refl)) E) as (w & ->). reflexivity.
      - destruct (tree_step cmp t (BRemove x)) as [[t' a]|] eqn:E; [|reflexivity]. destruct (value_answer t _ t' a (ex_intro _ x (or_intror eq_refl)) E) as (w & ->). reflexivity. }
    rewrite E. destruct (tree_step cmp t (as_map o)) as [[t' a]|]; cbn [option_map fst snd]; [|now rewrite S].
    destruct S as (h' & s' & EX & W'). rewrite EX. cbn [bind fst snd]. exists h', s'. split; [reflexivity|exact W'].
  Qed.

  Lemma set_idx h (ss : list BTreeSet) ts i : world h ss ts ->
    (exists s t, nth_error ss i = Some s /\ nth_error ts i = Some t /\ tree_at h s t /\ idx ss i = Ret s) \/
    (nth_error ss i = None /\ nth_error ts i = None /\ idx ss i = Panic).
  Proof. exact (idx_both h ss ts i). Qed.
  Lemma asked_sim {A} h (ss : list BTreeSet) ts (f : heap K unit -> out A) (g : A -> zanswer K) x : world h ss ts -> f h = or_panic x ->
    match option_map (fun a => (ts, g a)) x with
    | None => asked ss f g h = Panic
    | Some (ts', a) => exists h' ss', asked ss f g h = Ret ((ss', a), h') /\ world h' ss' ts'
    end.
  Proof. intros W E. unfold asked. rewrite E. destruct x; cbn [option_map or_panic bind]; [exists h, ss; auto|reflexivity]. Qed.
  Lemma made_sim h (ss : list BTreeSet) ts (f : M (heap K unit) BTreeSet) x :
    match x with
    | None => f h = Panic
    | Some v => exists h' u, f h = Ret (u, h') /\ world h' (ss ++ [u]) (ts ++ [v])
    end ->
    match option_map (fun t => (ts ++ [t], ZDone (K := K))) x with
    | None => (u <~ f ;; mret (ss ++ [u], ZDone (K := K))) h = Panic
    | Some (ts', a) => exists h' ss', (u <~ f ;; mret (ss ++ [u], ZDone (K := K))) h = Ret ((ss', a), h') /\ world h' ss' ts'
    end.
  Proof.
    intros S. unfold mbind. destruct x as [v|]; cbn [option_map]; [|now rewrite S].
    destruct S as (h' & u & E & W). rewrite E. cbn [bind]. exists h', (ss ++ [u]). split; [reflexivity|exact W].
  Qed.
  Lemma zstep_sim h (ss : list BTreeSet) ts o : world h ss ts ->
    match zstep cmp dk ts o with
    | None => zexec cmp dk ss o h = Panic
    | Some (ts', a) => exists h' ss', zexec cmp dk ss o h = Ret ((ss', a), h') /\ world h' ss' ts'
    end.
  Proof.
    intros W. assert (TWO : forall {A} i j (f : tree K unit -> tree K unit -> option A) (F : BTreeSet -> BTreeSet -> M (heap K unit) (list BTreeSet * zanswer K)) (G : A -> list (tree K unit) * zanswer K),
      (forall s t s2 t2, nth_error ss i = Some s -> nth_error ts i = Some t -> nth_error ss j = Some s2 -> nth_error ts j = Some t2 -> tree_at h s t -> tree_at h s2 t2 ->
        match option_map G (f t t2) with
        | None => F s s2 h = Panic
        | Some (ts', a) => exists h' ss', F s s2 h = Ret ((ss', a), h') /\ world h' ss' ts'
        end) ->
      match option_map G (on_two ts i j f) with
      | None => (s <~ lift (idx ss i) ;; s2 <~ lift (idx ss j) ;; F s s2) h = Panic
      | Some (ts', a) => exists h' ss', (s <~ lift (idx ss i) ;; s2 <~ lift (idx ss j) ;; F s s2) h = Ret ((ss', a), h') /\ world h' ss' ts'
      end).
    { intros A i j f F G H. unfold on_two, mbind, lift.
      destruct (set_idx _ _ _ i W) as [(s & t & ES & ET & T & EI)|(ES & ET & EI)]; rewrite ET, EI; cbn [bind option_map]; [|reflexivity].
      destruct (set_idx _ _ _ j W) as [(s2 & t2 & ES2 & ET2 & T2 & EI2)|(ES2 & ET2 & EI2)]; rewrite ET2, EI2; cbn [bind option_map]; [|reflexivity].
      exact (H s t s2 t2 ES ET ES2 ET2 T T2). }
    destruct o as [|i o|i|i j|i j|i j|i j|i|i j|i j|i j]; cbn [zstep zexec].
    - exists h, (ss ++ [BTreeSetNew]). split; [reflexivity|]. now apply world_more.
    - unfold on_one, mbind, lift. destruct (set_idx _ _ _ i W) as [(s & t & ES & ET & T & EI)|(ES & ET & EI)]; rewrite ET, EI; cbn [bind]; [|reflexivity].
      pose proof (world_call h ss ts i s t o W ES ET) as S. destruct (set_call cmp t o) as [[t' a]|]; cbn [option_map fst snd]; [|now rewrite S].
      destruct S as (h' & s' & EX & W'). rewrite EX. cbn [bind fst snd]. exists h', (list_set ss i s'). split; [reflexivity|exact W'].
    - unfold on_one, mbind, lift. destruct (set_idx _ _ _ i W) as [(s & t & ES & ET & T & EI)|(ES & ET & EI)]; rewrite ET, EI; cbn [bind]; [|reflexivity].
      apply asked_sim; [exact W|]. now apply at_elements.
    - apply TWO. intros. apply asked_sim; [exact W|]. now apply at_subset.
    - unfold IsSuperset. pose proof (TWO bool i j (fun t t2 => subset cmp t2 t) (fun s s2 => asked ss (IsSubset cmp s2 s) ZTruth) (fun b => (ts, ZTruth b))) as Q.
      assert (E : on_two ts j i (subset cmp) = on_two ts i j (fun t t2 => subset cmp t2 t)).
      { unfold on_two. destruct (nth_error ts i), (nth_error ts j); reflexivity. }
      rewrite E. apply Q. intros. apply asked_sim; [exact W|]. now apply at_subset.
    - apply TWO. intros. apply asked_sim; [exact W|]. now apply at_disjoint.
    - apply TWO. intros. apply asked_sim; [exact W|]. now apply at_equal.
    - unfold on_one, mbind, lift. destruct (set_idx _ _ _ i W) as [(s & t & ES & ET & T & EI)|(ES & ET & EI)]; rewrite ET, EI; cbn [bind]; [|reflexivity].
      pose proof (asked_sim h ss ts (sDisplay (fun k => Some (dk k)) s) ZText
        (option_map (fun l => zs "BTreeSet{" ++ comma_separated (map dk l) ++ zs "}") (elements cmp t)) W) as Q.
      assert (E : sDisplay (fun k => Some (dk k)) s h = or_panic (option_map (fun l => zs "BTreeSet{" ++ comma_separated (map dk l) ++ zs "}") (elements cmp t))).
      { unfold sDisplay. rewrite (at_elements h s t T). destruct (elements cmp t) as [l|]; cbn [or_panic bind option_map]; [|reflexivity].
        rewrite (display_fields_spec _ _ dk) by (intros; apply format_one). cbn [bind app]. now rewrite join_comma. }
      specialize (Q E). destruct (elements cmp t) as [l|]; exact Q.
    - apply TWO. intros. apply made_sim. eapply world_intersection; eauto.
    - apply TWO. intros. apply made_sim. eapply world_union; eauto.
    - apply TWO. intros. apply made_sim. eapply world_symmetric; eauto.
  Qed.
  Lemma zrun_sim ops : forall h (ss : list BTreeSet) ts, world h ss ts ->
    match zrun cmp dk ts ops with
    | None => zprogram cmp dk ss ops h = Panic
    | Some (ts', rs) => exists h' ss', zprogram cmp dk ss ops h = Ret ((ss', rs), h') /\ world h' ss' ts'
    end.
  Proof.
    induction ops as [|o ops IH]; intros h ss ts W; cbn [zrun zprogram]; [exists h, ss; auto|].
    pose proof (zstep_sim h ss ts o W) as S. destruct (zstep cmp dk ts o) as [[ts1 a]|]; unfold mbind; [|now rewrite S].
    destruct S as (h1 & ss1 & E & W1). rewrite E. cbn [bind fst snd]. specialize (IH h1 ss1 ts1 W1).
    destruct (zrun cmp dk ts1 ops) as [[ts2 rs]|]; cbn [option_map fst snd]; [|now rewrite IH].
    destruct IH as (h2 & ss2 & E2 & W2). rewrite E2. cbn [bind]. exists h2, ss2. split; [reflexivity|exact W2].
  Qed.
End Sets.

(** *** Clone of a set *)
Section Clone.
  Context {K : Type}.
  Variable cmp : K -> K -> ordering.
  Hypothesis lawful : total_preorder cmp.
  Definition only (x : K) : tree K unit := One (mkSlots [(x, tt)] (repeat None 10) 1%Z).
  Lemma add_first x : add cmp empty x = Some (only x). Proof. reflexivity. Qed.
  Lemma add_again x : add cmp (only x) x = Some (only x).
  Proof.
    unfold add, only. cbn [tree_step slot_step lost all_slots live rest map app seek fst]. now rewrite (cmp_refl cmp lawful).
  Qed.
  Lemma clone_loops c e l i s t r : forall (h : heap K unit) (ss : list BTreeSet) ts u v, world h (ss ++ [u]) (ts ++ [v]) ->
    nth_error ss i = Some s -> nth_error ts i = Some t -> elements cmp t = Some (e :: l) -> v = empty \/ v = only (c e) ->
    clone_rounds cmp r (Some c) s u h = Diverge.
  Proof.
    induction r as [|r IH]; intros h ss ts u v W ES ET EL V; [reflexivity|]. cbn [clone_rounds]. unfold mbind, reading, lift.
    rewrite (at_elements cmp h s t (world_at _ _ _ _ _ _ _ _ W ES ET)), EL. cbn [or_panic bind of_option].
    pose proof (world_add cmp h ss ts u v (c e) W) as A.
    assert (EA : add cmp v (c e) = Some (only (c e))) by (destruct V as [-> | ->]; [apply add_first|apply add_again]).
    rewrite EA in A. destruct A as (h' & u' & b & E & W'). rewrite E. cbn [fst]. eapply IH; eauto.
  Qed.
  Lemma clone_sim (h : heap K unit) (ss : list BTreeSet) ts i s t r : world h ss ts -> nth_error ss i = Some s -> nth_error ts i = Some t ->
    match elements cmp t with
    | None => forall c, clone_rounds cmp (S r) c s BTreeSetNew h = Panic
    | Some [] => forall c, clone_rounds cmp (S r) c s BTreeSetNew h = Ret (BTreeSetNew, h)
    | Some _ => clone_rounds cmp (S r) None s BTreeSetNew h = Panic /\ forall c, clone_rounds cmp r (Some c) s BTreeSetNew h = Diverge
    end.
  Proof.
    intros W ES ET. pose proof (world_more _ _ _ W) as W0. pose proof (at_elements cmp h s t (world_at _ _ _ _ _ _ _ _ W0 ES ET)) as E.
    destruct (elements cmp t) as [[|e l]|] eqn:EL; cbn [or_panic] in E.
    - intros c. cbn [clone_rounds]. unfold mbind, reading. rewrite E. reflexivity.
    - split; [|intros c; eapply clone_loops; eauto]. cbn [clone_rounds]. unfold mbind, reading. rewrite E. reflexivity.
    - intros c. cbn [clone_rounds]. unfold mbind, reading. rewrite E. reflexivity.
  Qed.
End Clone.
