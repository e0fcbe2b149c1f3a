(** BTreeGentleProofs.v -- listings of two-level trees, and the histories on which the map is right. *)
From Verif Require Import Base BaseLemmas Effect CmpSpec VecSpec HashModel BTreeModel BTreeSpec BTreeHistory BTreeProofs BTreeMapProofs BTreeSafeProofs BTreeSplitProofs BTreeGrowProofs BTreeLowProofs.
Local Open Scope nat_scope.

Section Gentle.
  Context {K V : Type}.
  Variable cmp : K -> K -> ordering.
  Hypothesis lawful : total_preorder cmp.
  Implicit Types (nd : node K V) (h : heap K V) (k : K) (v : V) (l : list (K * V)).

  (** *** Listings of an inner node *)
  Fixpoint weave {A} (g : K * V -> A) (subs : list (list A)) (S : list (option (K * V))) : list A :=
    match S, subs with
    | x :: S', s :: subs' => s ++ map g (somes [x]) ++ weave g subs' S'
    | _, _ => []
    end.
  Lemma weave_skip {A} (g : K * V -> A) subs S i s x : nth_error subs i = Some s -> nth_error S i = Some x ->
    weave g (skipn i subs) (skipn i S) = s ++ map g (somes [x]) ++ weave g (skipn (Datatypes.S i) subs) (skipn (Datatypes.S i) S).
  Proof. intros H1 H2. rewrite (skipn_cons _ _ _ H1), (skipn_cons _ _ _ H2). reflexivity. Qed.
  Definition child_is {A} (f : nat -> out (list A)) nd (subs : list (list A)) : Prop :=
    forall i s, nth_error subs i = Some s ->
      (exists c, nth_error (childs nd) i = Some (Some c) /\ f c = Ret s) \/ (nth_error (childs nd) i = Some None /\ s = []).

  Lemma to_vec_inner f h r nd S subs : nth_error h r = Some nd -> leaf nd = false -> srep nd S -> length S <= length subs ->
    child_is (to_vec f h) nd subs -> to_vec (Datatypes.S f) h r = Ret (weave (fun e => e) subs S).
  Proof.
    intros E L R LS CH. cbn [to_vec]. unfold idx at 1. rewrite E. cbn [of_option bind].
    replace (length (keys nd)) with (length S) by (destruct R as [-> _]; now rewrite map_length).
    rewrite L.
    match goal with |- ?g _ _ = _ => assert (G : forall m i, i + m = length S -> g m i = Ret (weave (fun e => e) (skipn i subs) (skipn i S))) end.
    2:{ now rewrite (G (length S) 0 eq_refl). }
    induction m as [|m IH]; intros i EQ.
    - rewrite (skipn_all2 S) by lia. now destruct (skipn i subs).
    - destruct (nth_error S i) as [x|] eqn:N; [|apply nth_error_None in N; lia].
      destruct (nth_error subs i) as [s|] eqn:NU; [|apply nth_error_None in NU; lia].
      rewrite (IH (Datatypes.S i)) by lia. rewrite (weave_skip _ _ _ _ _ _ NU N).
      rewrite (idx_keys _ _ _ _ R N).
      destruct (CH i s NU) as [(c & Ec & Fc)|(Ec & ->)]; unfold idx at 1; rewrite Ec; cbn [of_option bind]; [rewrite Fc; cbn [bind]|];
        destruct x as [[kx vx]|]; cbn [option_map bind]; try rewrite (idx_values _ _ _ _ R N); reflexivity.
  Qed.
  Lemma to_value_vec_inner f h r nd S subs : nth_error h r = Some nd -> leaf nd = false -> srep nd S -> length S <= length subs ->
    child_is (to_value_vec f h) nd subs -> to_value_vec (Datatypes.S f) h r = Ret (weave snd subs S).
  Proof.
    intros E L R LS CH. cbn [to_value_vec]. unfold idx at 1. rewrite E. cbn [of_option bind].
    replace (length (keys nd)) with (length S) by (destruct R as [-> _]; now rewrite map_length).
    rewrite L.
    match goal with |- ?g _ _ = _ => assert (G : forall m i, i + m = length S -> g m i = Ret (weave snd (skipn i subs) (skipn i S))) end.
    2:{ now rewrite (G (length S) 0 eq_refl). }
    induction m as [|m IH]; intros i EQ.
    - rewrite (skipn_all2 S) by lia. now destruct (skipn i subs).
    - destruct (nth_error S i) as [x|] eqn:N; [|apply nth_error_None in N; lia].
      destruct (nth_error subs i) as [s|] eqn:NU; [|apply nth_error_None in NU; lia].
      rewrite (IH (Datatypes.S i)) by lia. rewrite (weave_skip _ _ _ _ _ _ NU N).
      rewrite (idx_values _ _ _ _ R N).
      destruct (CH i s NU) as [(c & Ec & Fc)|(Ec & ->)]; unfold idx at 1; rewrite Ec; cbn [of_option bind]; [rewrite Fc; cbn [bind]|];
        destruct x as [[kx vx]|]; reflexivity.
  Qed.
  Lemma to_key_vec_inner f h r nd S subs : nth_error h r = Some nd -> leaf nd = false -> srep nd S -> n nd <= length S -> n nd <= length subs ->
    child_is (to_key_vec f h) nd subs -> to_key_vec (Datatypes.S f) h r = Ret (weave fst subs (firstn (n nd) S)).
  Proof.
    intros E L R LN LS CH. cbn [to_key_vec]. unfold idx at 1. rewrite E. cbn [of_option bind].
    replace (length (keys nd)) with (length S) by (destruct R as [-> _]; now rewrite map_length).
    rewrite Nat.min_r by auto. rewrite L.
    match goal with |- ?g _ _ = _ => assert (G : forall m i, i + m = n nd -> g m i = Ret (weave fst (skipn i subs) (skipn i (firstn (n nd) S)))) end.
    2:{ now rewrite (G (n nd) 0 eq_refl). }
    assert (LF : length (firstn (n nd) S) = n nd) by (rewrite firstn_length; lia).
    induction m as [|m IH]; intros i EQ.
    - rewrite (skipn_all2 (firstn _ _)) by lia. now destruct (skipn i subs).
    - destruct (nth_error S i) as [x|] eqn:N; [|apply nth_error_None in N; lia].
      destruct (nth_error subs i) as [s|] eqn:NU; [|apply nth_error_None in NU; lia].
      assert (N' : nth_error (firstn (n nd) S) i = Some x) by (rewrite nth_error_firstn; destruct (Nat.ltb_spec i (n nd)); [auto|lia]).
      rewrite (IH (Datatypes.S i)) by lia. rewrite (weave_skip _ _ _ _ _ _ NU N').
      rewrite (idx_keys _ _ _ _ R N).
      destruct (CH i s NU) as [(c & Ec & Fc)|(Ec & ->)]; unfold idx at 1; rewrite Ec; cbn [of_option bind]; [rewrite Fc; cbn [bind]|];
        destruct x as [[kx vx]|]; reflexivity.
  Qed.
  Lemma weave_nil {A} (g : K * V -> A) S m : length S <= m -> weave g (repeat [] m) S = map g (somes S).
  Proof.
    revert m; induction S as [|x S IH]; intros m LM; destruct m as [|m]; cbn in LM; try lia; try reflexivity.
    cbn [repeat weave app]. rewrite IH by lia. destruct x; reflexivity.
  Qed.
  Lemma weave_one {A} (g : K * V -> A) s S m : length S <= Datatypes.S m -> S <> [] -> weave g (s :: repeat [] m) S = s ++ map g (somes S).
  Proof. destruct S as [|x S]; intros LM NE; [congruence|]. cbn in LM. cbn [weave]. rewrite weave_nil by lia. destruct x; reflexivity. Qed.


  (** *** Reading a tree whose new keys went to the left *)
  Lemma child_low {A} (f : nat -> out (list A)) lo hi h m r y rn yn zs sl :
    low cmp h m lo hi r y rn yn zs -> f y = Ret sl -> (forall z, In z zs -> f z = Ret []) -> child_is f rn (sl :: repeat [] 10).
  Proof.
    intros W Fy Fz i s. rewrite (lw_childs _ _ _ _ _ _ _ _ _ _ W). destruct i as [|i]; cbn [nth_error].
    - intros [= <-]. left. eauto.
    - intros N. assert (s = []) by (eapply repeat_spec, nth_error_In; eauto). subst s.
      assert (LI : i < 10) by (rewrite <- (repeat_length (@nil A) 10); apply nth_error_Some; congruence).
      pose proof (lw_zs _ _ _ _ _ _ _ _ _ _ W). pose proof (lw_hi _ _ _ _ _ _ _ _ _ _ W).
      destruct (Nat.lt_ge_cases i (length zs)) as [C|C].
      + left. destruct (nth_error zs i) as [z|] eqn:NZ; [|apply nth_error_None in NZ; lia].
        exists z. split; [|apply Fz; eapply nth_error_In; eauto].
        rewrite nth_error_app1 by (rewrite map_length; auto). now rewrite nth_error_map, NZ.
      + right. split; auto. rewrite nth_error_app2 by (rewrite map_length; auto). rewrite map_length.
        apply nth_error_repeat. lia.
  Qed.
  Lemma somes_low (hi : list (K * V)) g : somes (map Some hi ++ gaps g) = hi.
  Proof. now rewrite somes_app, somes_map_Some, somes_gaps, app_nil_r. Qed.
  Lemma low_lists h m l : low_tree cmp h m l ->
    IntoIter_vec m h = Ret l /\ Keys_vec m h = Ret (map fst l) /\ Values_vec m h = Ret (map snd l).
  Proof.
    intros (lo & hi & r & y & rn & yn & zs & -> & W).
    destruct (low_fuel cmp _ _ _ _ _ _ _ _ _ W) as (f & FU).
    destruct (lw_rn _ _ _ _ _ _ _ _ _ _ W) as (L & D & N). destruct (lw_yn _ _ _ _ _ _ _ _ _ _ W) as (YL & YD & YN).
    pose proof (lw_rs _ _ _ _ _ _ _ _ _ _ W) as Rr. pose proof (lw_ys _ _ _ _ _ _ _ _ _ _ W) as Ry.
    pose proof (lw_hi _ _ _ _ _ _ _ _ _ _ W) as LHI. pose proof (lw_r _ _ _ _ _ _ _ _ _ _ W) as Er. pose proof (lw_y _ _ _ _ _ _ _ _ _ _ W) as Ey.
    assert (LS : length (map Some hi ++ gaps (11 - length hi)) = 11) by (unfold gaps; rewrite app_length, map_length, repeat_length; lia).
    assert (NE : map Some hi ++ gaps (11 - length hi) <> []) by (intros EN; rewrite EN in LS; discriminate).
    unfold IntoIter_vec, Keys_vec, Values_vec. rewrite (lw_root _ _ _ _ _ _ _ _ _ _ W), FU.
    split; [|split].
    - rewrite (to_vec_inner _ _ _ _ _ (lo :: repeat [] 10) Er L Rr); [|rewrite LS; cbn; lia|].
      + rewrite weave_one by (auto; lia). now rewrite map_id, somes_low.
      + eapply child_low; [exact W| |].
        * rewrite (to_vec_leaf _ _ _ _ _ Ey YL Ry). now rewrite somes_map_Some.
        * intros z I. destruct (lw_empty _ _ _ _ _ _ _ _ _ _ W z I) as (zn & Ez & Lz & _ & _ & Rz).
          rewrite (to_vec_leaf _ _ _ _ _ Ez Lz Rz). now rewrite somes_gaps.
    - rewrite (to_key_vec_inner _ _ _ _ _ (map fst lo :: repeat [] 10) Er L Rr); [|rewrite LS; lia|cbn; lia|].
      + rewrite N, firstn_app, map_length, Nat.sub_diag. cbn [firstn]. rewrite app_nil_r.
        rewrite firstn_all2 by (rewrite map_length; lia).
        rewrite weave_one; [|rewrite map_length; lia|destruct hi; [cbn in LHI; lia|discriminate]].
        now rewrite somes_map_Some, map_app.
      + eapply child_low; [exact W| |].
        * rewrite (to_key_vec_leaf _ _ _ _ _ Ey YL Ry); rewrite YN, ?map_length, ?(lw_lo _ _ _ _ _ _ _ _ _ _ W); [|lia].
          rewrite firstn_all2 by (rewrite map_length, (lw_lo _ _ _ _ _ _ _ _ _ _ W); lia). now rewrite somes_map_Some.
        * intros z I. destruct (lw_empty _ _ _ _ _ _ _ _ _ _ W z I) as (zn & Ez & Lz & _ & Nz & Rz).
          rewrite (to_key_vec_leaf _ _ _ _ _ Ez Lz Rz); rewrite Nz; [reflexivity|cbn; lia].
    - rewrite (to_value_vec_inner _ _ _ _ _ (map snd lo :: repeat [] 10) Er L Rr); [|rewrite LS; cbn; lia|].
      + rewrite weave_one by (auto; lia). now rewrite somes_low, map_app.
      + eapply child_low; [exact W| |].
        * rewrite (to_value_vec_leaf _ _ _ _ _ Ey YL Ry). now rewrite somes_map_Some.
        * intros z I. destruct (lw_empty _ _ _ _ _ _ _ _ _ _ W z I) as (zn & Ez & Lz & _ & _ & Rz).
          rewrite (to_value_vec_leaf _ _ _ _ _ Ez Lz Rz). now rewrite somes_gaps.
  Qed.
  Lemma low_asks h m l k : low_tree cmp h m l ->
    Get cmp m k h = Ret (get cmp k l) /\ ContainsKey cmp m k h = Ret (is_some (get cmp k l)).
  Proof.
    intros (lo & hi & r & y & rn & yn & zs & -> & W).
    destruct (low_fuel cmp _ _ _ _ _ _ _ _ _ W) as (f & FU).
    assert (SO := lw_sorted _ _ _ _ _ _ _ _ _ _ W).
    assert (FOUND : forall nd S i e a, search cmp (fuel h) h r k = Ret (Some (a, i)) -> nth_error h a = Some nd -> srep nd S -> nth_error S i = Some (Some e) ->
      get cmp k (lo ++ hi) = Some (snd e) -> Get cmp m k h = Ret (get cmp k (lo ++ hi)) /\ ContainsKey cmp m k h = Ret (is_some (get cmp k (lo ++ hi)))).
    { intros nd S i e a SE Ea R NS G. unfold Get, ContainsKey, value_at. rewrite (lw_root _ _ _ _ _ _ _ _ _ _ W), SE. cbn [bind].
      unfold idx at 1. rewrite Ea. cbn [of_option bind]. rewrite (idx_values _ _ _ _ R NS). rewrite G. split; reflexivity. }
    destruct (low_search cmp lawful f _ _ _ _ _ _ _ _ _ k W) as [(a & [k0 v0] & b & E & C & SE)|[(a & [k0 v0] & b & E & C & SE)|(NO & SE)]].
    - destruct (found_in cmp lawful (lo ++ hi) (lo ++ a) k0 v0 b k v0 SO) as (G' & _); auto. { rewrite E. now rewrite app_assoc. }
      pose proof (lw_rs _ _ _ _ _ _ _ _ _ _ W) as R. rewrite E in R.
      eapply (FOUND rn _ (length a) (k0, v0) r); [rewrite FU; exact SE|apply W|exact R|apply nth_split|exact G'].
    - destruct (found_in cmp lawful (lo ++ hi) a k0 v0 (b ++ hi) k v0 SO) as (G' & _); auto. { rewrite E. now rewrite <- app_assoc. }
      pose proof (lw_ys _ _ _ _ _ _ _ _ _ _ W) as R. rewrite E, <- (app_nil_r (map Some _)) in R.
      eapply (FOUND yn _ (length a) (k0, v0) y); [rewrite FU; exact SE|apply W|exact R|apply nth_split|exact G'].
    - rewrite (not_in _ _ _ NO). unfold Get, ContainsKey. rewrite (lw_root _ _ _ _ _ _ _ _ _ _ W), FU, SE. split; reflexivity.
  Qed.

  (** *** From one node to two levels *)
  Lemma ok_get h m s l k : rep h m s -> ok cmp s l -> get cmp k l = None -> seek cmp k (all_slots s) 0 = None.
  Proof.
    intros _ O G. rewrite (ok_all _ _ _ O). destruct O as (_ & _ & _ & SO & _).
    destruct l as [|e l']; [reflexivity|]. set (l := e :: l') in *.
    destruct (key_cases cmp lawful k (snd e) l (11 - length l) SO) as [(a & k0 & v0 & b & H)|(a & b & H)]; decompose [and] H; congruence.
  Qed.
  Lemma grow_low h m s l k v e : rep h m s -> ok cmp s l -> get cmp k l = None -> length l = 11 -> nth_error l 10 = Some e -> cmp k (fst e) = Less ->
    exists h' m', Insert cmp m k v h = Ret ((m', None), h') /\ low_tree cmp h' m' (put cmp k v l).
  Proof.
    intros R O G LL N10 C. pose proof O as (EL & ER & EC & SO & _).
    destruct (exists_last (l := l)) as (front & x & E0); [intros ->; discriminate|].
    assert (LF : length front = 10) by (rewrite E0, app_length in LL; cbn in LL; lia).
    assert (x = e).
    { rewrite E0, nth_error_app2, LF in N10 by lia. cbn in N10. congruence. }
    subst x.
    assert (exists r c, m = mkMap (Some r) c) as (r & c & EM).
    { destruct m as [[r|] c]; [eauto|]. destruct R as (_ & RR). cbn [root] in RR. destruct RR as (RR & _). rewrite RR in EL. subst l. discriminate. }
    subst m. pose proof R as (RC & nd & End & LN & _). cbn [root len] in *.
    assert (LT : r < length h) by (eapply nth_lt; eauto).
    destruct (root_split cmp h r c s k v front e) as (h' & rn' & y' & z' & EI & Er & Ey & Ez & (L & D & N & Rr & CH) & (YL & YD) & (ZL & ZD) & REST); auto.
    { congruence. } { eapply ok_get; eauto. }
    assert (NL : is (cmp (fst e) k) Less = false) by (rewrite (cmp_flip cmp lawful), C; reflexivity).
    rewrite NL in REST. destruct REST as (YN & Ry & ZN & Rz).
    assert (PUT : put cmp k v l = place cmp (k, v) front ++ [e]).
    { rewrite E0. rewrite put_app_less by (intros x [<-|[]]; auto). f_equal. apply (put_place cmp lawful).
      - rewrite E0 in SO. apply sorted_app in SO. tauto.
      - apply not_in. intros x I. apply (get_None _ _ _ G). rewrite E0. apply in_app_iff; auto. }
    pose proof (put_sorted cmp lawful k v l SO) as SO'. rewrite PUT in *.
    eexists _, _. split; [exact EI|].
    exists (place cmp (k, v) front), [e], (length h), r, rn', y', [Datatypes.S (length h)]. split; [reflexivity|].
    constructor; auto; try (cbn [root length]; auto; lia).
    - cbn [len]. rewrite RC, EC, LL, app_length, place_length, LF. reflexivity.
    - rewrite place_length. lia.
    - intros z [<-|[]]. exists z'. auto.
  Qed.

  Definition tree h m l : Prop := (exists s, rep h m s /\ ok cmp s l) \/ low_tree cmp h m l.
  Lemma low_length h m l : low_tree cmp h m l -> 12 <= length l <= 21 /\ len m = Z.of_nat (length l) /\ sorted cmp l.
  Proof.
    intros (lo & hi & r & y & rn & yn & zs & -> & W). pose proof (lw_lo _ _ _ _ _ _ _ _ _ _ W). pose proof (lw_hi _ _ _ _ _ _ _ _ _ _ W).
    split; [rewrite app_length; lia|]. split; apply W.
  Qed.
  Lemma put_length k v l : sorted cmp l -> length (put cmp k v l) = match get cmp k l with Some _ => length l | None => Datatypes.S (length l) end.
  Proof.
    intros SO. destruct (key_cases cmp lawful k v l 0 SO) as [(a & k0 & v0 & b & E & _ & _ & G & P & _)|(a & b & E & _ & G & P & _)]; rewrite P, G, E, !app_length; cbn; lia.
  Qed.
  Lemma tree_step h m l o : tree h m l -> allowed cmp l o ->
    exists h' m', exec cmp m o h = Ret ((m', snd (map_step cmp l o)), h') /\ tree h' m' (fst (map_step cmp l o)).
  Proof.
    intros [(s & R & O)|LT] AD.
    - assert (SO : sorted cmp l) by apply O. assert (LL : length l <= 11) by apply O.
      assert (CASE : length (fst (map_step cmp l o)) <= 11 \/ (exists k v, o = BInsert k v /\ get cmp k l = None /\ length l = 11)).
      { destruct o; cbn [map_step fst]; auto.
        - rewrite (put_length k v l SO). destruct (get cmp k l) eqn:G; auto. destruct (Nat.eq_dec (length l) 11); [right; eauto|left; lia].
        - destruct AD.
        - left. cbn. lia. }
      destruct CASE as [SM|(k & v & -> & G & L11)].
      + destruct (step_map cmp lawful s l o O) as (s' & ST & O'); auto. { intros k ->. exact AD. }
        destruct (step_sim cmp lawful h m s o s' _ R ST) as (h' & m' & EX & R' & _). exists h', m'. split; auto. left. eauto.
      + cbn [allowed] in AD. destruct (AD G) as (_ & e & N10 & C); [lia|].
        destruct (grow_low h m s l k v e) as (h' & m' & EI & LT); auto.
        exists h', m'. cbn [map_step fst snd exec]. rewrite (mbind_Ret _ _ _ _ _ EI). rewrite G. split; [reflexivity|right; exact LT].
    - destruct (low_length _ _ _ LT) as (LL & LEN & SO). destruct (low_lists _ _ _ LT) as (I1 & I2 & I3).
      destruct o; cbn [map_step fst snd exec].
      + destruct (get cmp k l) as [w|] eqn:G.
        * destruct (low_insert_found cmp lawful h m l k v w LT G) as (h' & EI & LT').
          exists h', m. rewrite (mbind_Ret _ _ _ _ _ EI). split; [reflexivity|right; exact LT'].
        * cbn [allowed] in AD. destruct (AD G) as (L20 & e & N10 & C); [lia|].
          destruct (low_insert_new cmp lawful h m l k v e LT G L20 N10 C) as (h' & EI & LT').
          exists h'. eexists. rewrite (mbind_Ret _ _ _ _ _ EI). split; [reflexivity|right; exact LT'].
      + destruct AD.
      + exists h, m. unfold asking. rewrite (proj1 (low_asks _ _ _ k LT)). split; [reflexivity|right; exact LT].
      + exists h, m. unfold asking. rewrite (proj2 (low_asks _ _ _ k LT)). split; [reflexivity|right; exact LT].
      + exists h, m. unfold Len. rewrite LEN. split; [reflexivity|right; exact LT].
      + exists h, m. unfold IsEmpty. rewrite LEN. split; [|right; exact LT].
        destruct l as [|e l']; [cbn in LL; lia|]. reflexivity.
      + exists h, (Clear m). split; [reflexivity|]. left. exists no_slots. split; [apply rep_new|apply ok_new].
      + exists h, m. unfold asking. rewrite I1. split; [reflexivity|right; exact LT].
      + exists h, m. unfold asking. rewrite I2. split; [reflexivity|right; exact LT].
      + exists h, m. unfold asking. rewrite I3. split; [reflexivity|right; exact LT].
  Qed.
  Theorem tree_run ops : forall h m l, tree h m l -> gentle cmp l ops ->
    exists h' m', run cmp m ops h = Ret ((m', snd (map_run cmp l ops)), h') /\ tree h' m' (fst (map_run cmp l ops)).
  Proof.
    induction ops as [|o ops IH]; intros h m l T G.
    - exists h, m. split; [reflexivity|exact T].
    - destruct G as (AD & G). destruct (tree_step h m l o T AD) as (h1 & m1 & E1 & T1).
      destruct (IH h1 m1 _ T1 G) as (h2 & m2 & E2 & T2). exists h2, m2.
      cbn [run map_run]. rewrite (mbind_Ret _ _ _ _ _ E1). cbn [fst snd]. rewrite (mbind_Ret _ _ _ _ _ E2).
      destruct (map_step cmp l o) as (l1, a1). cbn [fst snd] in *. destruct (map_run cmp l1 ops) as (l2, a2). split; [reflexivity|exact T2].
  Qed.
  Lemma tree_new h : tree h BTreeMapNew [].
  Proof. left. exists no_slots. split; [apply rep_new|apply ok_new]. Qed.
End Gentle.
