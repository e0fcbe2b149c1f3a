(** BTreeTreeRunProofs.v -- every history of a B-tree map is a run of the machine of BTreeTreeSpec. *)
From Verif Require Import Base BaseLemmas Effect CmpSpec VecSpec HashModel BTreeModel BTreeSpec BTreeHistory BTreeProofs BTreeMapProofs BTreeSafeProofs BTreeSplitProofs BTreeGrowProofs BTreeLowProofs BTreeGentleProofs BTreeTreeSpec BTreeTreeProofs BTreePruneProofs.
Local Open Scope nat_scope.

Section Run.
  Context {K V : Type}.
  Variable cmp : K -> K -> ordering.
  Implicit Types (nd : node K V) (h : heap K V) (k : K) (v : V) (S : list (option (K * V))).

  (** *** Listings *)
  Lemma weave_entries {A} (g : K * V -> A) : forall kids S g0, length kids = Datatypes.S (length S) ->
    weave g (map (fun c => map g (somes (cells c))) kids ++ repeat [] g0) (S ++ gaps (Datatypes.S g0)) = map g (entries S kids).
  Proof.
    induction kids as [|c kids IH]; intros S g0 LK; [discriminate|]. cbn [map app]. destruct S as [|x S]; cbn [length] in LK.
    - destruct kids; [|discriminate]. cbn [app map entries gaps repeat weave somes]. rewrite <- app_nil_r. f_equal. clear.
      unfold gaps. induction g0; [reflexivity|]. exact IHg0.
    - cbn [app weave entries]. rewrite IH by lia. now rewrite !map_app.
  Qed.
  Lemma weave_keys : forall kids S, length kids = Datatypes.S (length S) -> forall r,
    weave fst (map (fun c => map fst (somes (firstn (used c) (cells c)))) kids ++ r) S = key_list S kids.
  Proof.
    induction kids as [|c kids IH]; intros S LK r; [discriminate|]. cbn [map app]. destruct S as [|x S]; cbn [length] in LK; [reflexivity|].
    cbn [weave key_list]. rewrite IH by lia. now rewrite map_app, <- app_assoc.
  Qed.
  Lemma two_child h r rn S addrs kids {A} (f : nat -> out (list A)) (g : kid K V -> list A) : nth_error h r = Some rn -> root_node rn S addrs -> kids_at h addrs kids ->
    (forall a nd c, nth_error h a = Some nd -> kid_node nd c -> f a = Ret (g c)) ->
    child_is f rn (map g kids ++ repeat [] (10 - length S)).
  Proof.
    intros E RN KA F i s N. assert (RN' := RN). destruct RN' as (_ & _ & _ & LS & _ & C & LA & _). assert (LK := proj1 KA).
    destruct (Nat.lt_ge_cases i (length kids)) as [LT|GE].
    - rewrite nth_error_app1 in N by (rewrite map_length; lia). rewrite nth_error_map in N.
      destruct (nth_error kids i) as [c|] eqn:NK; [|discriminate]. injection N as <-.
      destruct (nth_error addrs i) as [a|] eqn:NA; [|apply nth_error_None in NA; lia]. destruct (proj2 KA _ _ NA) as (nd & Ea & KN).
      rewrite (nth_error_nth _ _ no_kid NK) in KN. left. exists a. rewrite C, nth_error_app1 by (rewrite map_length; lia). rewrite nth_error_map, NA.
      split; [reflexivity|]. eapply F; eauto.
    - rewrite nth_error_app2 in N by (rewrite map_length; lia). rewrite map_length in N. assert (LT := nth_lt _ _ _ N). rewrite repeat_length in LT.
      right. split; [|apply nth_error_In in N; apply repeat_spec in N; auto].
      rewrite C, nth_error_app2 by (rewrite map_length; lia). rewrite map_length. rewrite nth_error_repeat by lia. reflexivity.
  Qed.
  Lemma two_lists f h r S kids : two h r S kids ->
    to_vec (Datatypes.S (Datatypes.S f)) h r = Ret (entries S kids) /\
    to_key_vec (Datatypes.S (Datatypes.S f)) h r = Ret (key_list S kids) /\
    to_value_vec (Datatypes.S (Datatypes.S f)) h r = Ret (map snd (entries S kids)).
  Proof.
    intros (addrs & rn & E & RN & KA). assert (RN' := RN). destruct RN' as (L & D & N & LS & R & C & LA & ND). assert (LK := proj1 KA). rewrite LA in LK.
    assert (LG : length (S ++ gaps (11 - length S)) = 11) by (unfold gaps; rewrite app_length, repeat_length; lia).
    assert (EG : 11 - length S = Datatypes.S (10 - length S)) by lia.
    split; [|split].
    - rewrite (to_vec_inner _ _ _ _ _ (map (fun c => map (fun e => e) (somes (cells c))) kids ++ repeat [] (10 - length S)) E L R).
      + rewrite EG, weave_entries by auto. now rewrite map_id.
      + rewrite LG, app_length, map_length, repeat_length. lia.
      + eapply two_child; eauto. intros a nd c Ea (La & _ & _ & Ra & _). rewrite map_id. eapply to_vec_leaf; eauto.
    - rewrite (to_key_vec_inner _ _ _ _ _ (map (fun c => map fst (somes (firstn (used c) (cells c)))) kids ++ repeat [] (10 - length S)) E L R).
      + rewrite N, firstn_app, Nat.sub_diag, firstn_O, app_nil_r, firstn_all. now rewrite weave_keys.
      + lia.
      + rewrite app_length, map_length. lia.
      + eapply (two_child _ _ _ _ _ _ _ (fun c => map fst (somes (firstn (used c) (cells c))))); eauto. intros a nd c Ea (La & _ & Na & Ra & LC & U). rewrite <- Na. eapply to_key_vec_leaf; eauto. lia.
    - rewrite (to_value_vec_inner _ _ _ _ _ (map (fun c => map snd (somes (cells c))) kids ++ repeat [] (10 - length S)) E L R).
      + rewrite EG, weave_entries by auto. reflexivity.
      + rewrite LG, app_length, map_length, repeat_length. lia.
      + eapply (two_child _ _ _ _ _ _ _ (fun c => map snd (somes (cells c)))); eauto. intros a nd c Ea (La & _ & _ & Ra & _). eapply to_value_vec_leaf; eauto.
  Qed.

  (** *** The first split *)
  Lemma settle_map (e : K * V) l : settle cmp e (map Some l) = map Some (place cmp e l).
  Proof.
    unfold settle, place. induction l as [|x l IH] using rev_ind; [reflexivity|].
    rewrite map_app, rev_app_distr, rev_unit, app_length. cbn [map rev app length]. cbn [greater_from_end place_rev].
    rewrite map_length in IH |- *.
    assert (STOP : firstn (length l + 1 - 0) (map Some l ++ [Some x]) ++ Some e :: skipn (length l + 1 - 0) (map Some l ++ [Some x]) = map Some (rev (e :: x :: rev l))).
    { rewrite firstn_all2, skipn_all2 by (rewrite app_length, map_length; cbn; lia). cbn [rev]. rewrite rev_involutive, !map_app. reflexivity. }
    destruct (cmp (fst x) (fst e)); [exact STOP|exact STOP|]. assert (G := gfe_le cmp (fst e) (rev (map Some l))). rewrite rev_length, map_length in G.
    cbn [rev]. rewrite map_app, <- IH. set (g := greater_from_end _ _ _) in *.
    replace (length l + 1 - Datatypes.S g) with (length l - g) by lia.
    rewrite firstn_app, skipn_app. rewrite map_length. replace (length l - g - length l) with 0 by lia. cbn [firstn skipn]. rewrite app_nil_r, <- app_assoc. reflexivity.
  Qed.
  Lemma first_split h m (s : slots K V) k v : rep h m s -> seek cmp k (all_slots s) 0 = None -> length (live s) = 11 ->
    match grow cmp [] [mkKid (map Some (live s)) 11] (k, v) with
    | None => False
    | Some x => exists h' r', Insert cmp m k v h = Ret ((mkMap (Some r') (wrap64 (count s + 1)), None), h') /\ two h' r' (fst x) (snd x) /\
                  match root m with Some r => exists nd, nth_error h' r = Some nd /\ kid_node nd (nth 0 (snd x) no_kid) | None => False end
    end.
  Proof.
    intros R SK LV. destruct m as [[r|] ln].
    2:{ destruct R as (_ & EV & _). cbn in EV. rewrite EV in LV. discriminate. }
    assert (exists front mx, live s = front ++ [mx]) as (front & mx & EF).
    { destruct (exists_last (l := live s)) as (f & x & ->); [intros Z; rewrite Z in LV; discriminate|eauto]. }
    assert (LF : length front = 10) by (rewrite EF, app_length in LV; cbn in LV; lia).
    assert (HC : ln = count s) by apply R. subst ln.
    destruct (root_split cmp h r (count s) s k v front mx R EF LF SK) as (h' & root' & y' & z' & EI & X1 & X2 & X3 & (Q1 & Q2 & Q3 & Q4 & Q5) & (Y1 & Y2) & (Z1 & Z2) & FIN).
    assert (LT : r < length h) by (destruct R as (_ & nd & E & _); eapply nth_lt; eauto).
    unfold grow. cbn [length Nat.eqb rev greater_from_end Nat.sub firstn skipn app nth cells fst].
    assert (UP : nth 10 (map Some (live s)) None = Some mx).
    { rewrite EF, map_app, app_nth2; rewrite map_length, LF; [reflexivity|lia]. }
    assert (FS : firstn 10 (map Some (live s)) = map Some front).
    { rewrite EF, map_app, firstn_app, map_length, LF, firstn_all2 by (rewrite map_length; lia). cbn. apply app_nil_r. }
    rewrite UP. cbn [fst snd]. exists h', (length h). split; [exact EI|]. cbn [root]. rewrite app_nil_r.
    enough (TW : two_at h' (length h) [r; Datatypes.S (length h)] [Some mx] (if match cmp (fst mx) k with Less => true | _ => false end
      then [mkKid (map Some (live s)) 10; filled cmp (k, v) (mkKid (repeat None 11) 10)] else [filled cmp (k, v) (mkKid (map Some (live s)) 10); mkKid (repeat None 11) 10])).
    { split; [eexists; exact TW|]. destruct TW as (rn & _ & _ & _ & KA). exact (KA 0 r eq_refl). }
    exists root'. split; [exact X1|]. split.
    - unfold root_node. cbn [length map app]. repeat (split; [assumption || lia || reflexivity|]).
      constructor; [|constructor; [tauto|constructor]]. cbn. lia.
    - assert (KK : forall c d, kid_node y' c -> kid_node z' d -> kids_at h' [r; Datatypes.S (length h)] [c; d]).
      { intros c d KC KD. split; [reflexivity|]. intros [|[|i]] a H; cbn in H; [injection H as <-; exists y'; auto|injection H as <-; exists z'; auto|destruct i; discriminate]. }
      assert (EC : is (cmp (fst mx) k) Less = match cmp (fst mx) k with Less => true | _ => false end) by now destruct (cmp (fst mx) k).
      rewrite EC in FIN. destruct (match cmp (fst mx) k with Less => true | _ => false end); destruct FIN as (F1 & F2 & F3 & F4); apply KK; unfold kid_node, filled; cbn [cells used].
      + rewrite EF. repeat (split; [assumption|]). rewrite map_length, app_length. cbn. lia.
      + split; [assumption|]. split; [assumption|]. split; [assumption|]. split; [exact F4|]. split; [reflexivity|auto].
      + rewrite FS, settle_map. repeat (split; [assumption|]). rewrite map_length, place_length. lia.
      + split; [assumption|]. split; [assumption|]. split; [assumption|]. split; [exact F4|]. split; [reflexivity|auto].
  Qed.

  (** *** Steps *)
  Definition tree_at h (m : BTreeMap) (t : tree K V) : Prop :=
    match t with
    | One s => rep h m s
    | Two seps kids total => exists r, m = mkMap (Some r) total /\ two h r seps kids
    end.
  Lemma two_fuel h r S kids : two h r S kids -> exists f, fuel h = Datatypes.S (Datatypes.S f).
  Proof. intros (addrs & rn & E & _). apply nth_lt in E. unfold fuel. destruct (length h) as [|f]; [lia|]. eauto. Qed.
  Lemma value_none h r rn S addrs kids p : nth_error h r = Some rn -> root_node rn S addrs -> kids_at h addrs kids ->
    match p with Sep _ => True | Cell i _ => i < length addrs end -> content S kids p = None ->
    value_at h (fst (spot_addr r addrs p)) (snd (spot_addr r addrs p)) = Panic.
  Proof.
    intros E RN KA B CO. assert (GEN : forall nd S' j, srep nd S' -> nth j S' None = None -> (x <- idx (values nd) j ;; of_option x) = Panic).
    { intros nd S' j [_ RV] NN. unfold idx. rewrite RV, nth_error_map. rewrite <- nth_nth_error in NN. destruct (nth_error S' j) as [[x|]|]; [discriminate|reflexivity|reflexivity]. }
    destruct p as [i|i j]; cbn [content spot_addr fst snd] in *; unfold value_at, idx at 1.
    - rewrite E. cbn [of_option bind]. eapply GEN; [apply RN|]. now rewrite nth_gaps.
    - destruct (nth_error addrs i) as [a|] eqn:NA; [|apply nth_error_None in NA; lia]. rewrite (nth_error_nth _ _ 0 NA).
      destruct (proj2 KA _ _ NA) as (nd & Ea & (_ & _ & _ & Ra & _)). rewrite Ea. cbn [of_option bind]. eapply GEN; eauto.
  Qed.
  Lemma find_bound S kids k i j : find cmp S kids k = Some (Cell i j) -> i <= length S.
  Proof.
    unfold find. assert (L := skip_le cmp k S). destruct (nth _ S None) as [e|]; [destruct (cmp k (fst e))|]; try discriminate; destruct (seek cmp k _ 0); try discriminate; cbn; congruence.
  Qed.
  Lemma step_tree h m t o : tree_at h m t ->
    match tree_step cmp t o with
    | None => exec cmp m o h = Panic
    | Some (t', a) => exists h' m', exec cmp m o h = Ret ((m', a), h') /\ tree_at h' m' t'
    end.
  Proof.
    destruct t as [s|S kids total]; cbn [tree_at].
    - intros R. cbn [tree_step]. destruct (slot_step cmp s o) as [[s' a]|] eqn:ST.
      + assert (X := step_any cmp h m s o s' a R ST). destruct (lost cmp s o a); [exact X|]. destruct X as (h' & m' & EX & R' & _). exists h', m'. auto.
      + destruct o; cbn [slot_step] in ST; try discriminate; try (destruct (seek cmp k (all_slots s) 0); discriminate).
        destruct (seek cmp k (all_slots s) 0) eqn:SK; [discriminate|]. destruct (Nat.eqb_spec (length (live s)) 11) as [LV|]; [|discriminate].
        assert (FS := first_split h m s k v R SK LV). destruct (grow _ _ _ _) as [x|]; [|destruct FS]. cbn [option_map].
        destruct FS as (h' & r' & EI & T & _). exists h'. eexists. cbn [exec]. rewrite (mbind_Ret _ _ _ _ _ EI). split; [reflexivity|]. exists r'. auto.
    - intros (r & -> & T). destruct (two_fuel _ _ _ _ T) as (f & FU). assert (T0 := T). destruct T as (addrs & rn & E & RN & KA).
      assert (SE : forall k, search cmp (fuel h) h r k = Ret (option_map (spot_addr r addrs) (find cmp S kids k))).
      { intros k. rewrite FU. eapply search_two; eauto. }
      assert (SM : forall k, (fun h0 : heap K V => x <- search cmp (fuel h0) h0 r k ;; Ret (x, h0)) h = Ret (option_map (spot_addr r addrs) (find cmp S kids k), h)).
      { intros k. cbv beta. now rewrite SE. }
      assert (SAME : forall a, exists (h' : heap K V) (m' : BTreeMap), Ret (mkMap (Some r) total, a, h) = Ret (m', a : banswer K V, h') /\ exists r0, m' = mkMap (Some r0) total /\ two h' r0 S kids).
      { intros a. exists h. eexists. split; [reflexivity|]. eauto. }
      destruct o; cbn [tree_step exec].
      + (* Insert *)
        match goal with |- context [mbind ?m0 ?f0 h] => remember (mbind m0 f0 h) as X eqn:EX end.
        unfold Insert in EX. cbn [root] in EX. unfold mbind at 1 in EX. rewrite (mbind_Ret _ _ _ _ _ (SM k)) in EX. destruct (find cmp S kids k) as [p|] eqn:FI; cbn [option_map] in EX |- *.
        * destruct (find_valid _ _ _ _ _ FI) as (e & CO). destruct (spot_at _ _ _ _ _ _ _ _ E RN KA CO) as (nd & S' & E' & R' & N').
          assert (W := write_spot _ _ _ _ _ _ _ _ v _ E RN KA CO E'). rewrite CO. cbn [option_map] in EX |- *.
          destruct (spot_addr r addrs p) as [a i]. cbn [fst snd] in *. cbv iota beta in EX. rewrite (mbind_Ret _ _ _ _ _ (rd_Ret _ _ _ E')) in EX.
          erewrite mbind_Ret in EX by (apply lift_Ret; exact (idx_values _ _ _ _ R' N')). cbn [option_map] in EX |- *.
          assert (LI : i < length (values nd)) by (destruct R' as [_ ->]; rewrite map_length; eapply nth_lt; eauto).
          erewrite mbind_Ret in EX by (apply lift_Ret; apply upd_Ret; exact LI). erewrite mbind_Ret in EX by (apply wr_Ret; eapply nth_lt; eauto).
          erewrite mbind_Ret in EX by reflexivity. eexists _, _. split; [exact EX|]. exists r. split; [reflexivity|]. exact W.
        * cbv iota beta in EX. rewrite (mbind_Ret _ _ _ _ _ (rd_Ret _ _ _ E)) in EX. assert (N : n rn = length S) by apply RN. assert (LS : 1 <= length S <= 10) by apply RN.
          rewrite N in EX. destruct (Nat.eqb_spec (length S) cap) as [EQ|_]; [change cap with 11 in EQ; lia|].
          assert (IT := insert_two cmp f h r S kids k v T0). rewrite <- FU in IT. destruct (grow cmp S kids (k, v)) as [x|]; cbn [option_map] in EX |- *.
          -- destruct IT as (h' & EI & T'). erewrite mbind_Ret in EX by exact EI. eexists _, _. split; [exact EX|]. exists r. auto.
          -- unfold mbind in EX. rewrite IT in EX. exact EX.
      + (* Remove *)
        match goal with |- context [mbind ?m0 ?f0 h] => remember (mbind m0 f0 h) as X eqn:EX end.
        unfold Remove in EX. cbn [root] in EX. unfold mbind at 1 in EX. rewrite (mbind_Ret _ _ _ _ _ (SM k)) in EX.
        assert (RT := remove_two cmp f h r addrs S kids k (ex_intro _ rn (conj E (conj RN KA)))). rewrite <- FU in RT.
        destruct (prune cmp S kids k) as [x|]; [|unfold mbind in EX; rewrite RT in EX; exact EX].
        destruct RT as (h' & ER & (rn' & E' & RN' & KA')). erewrite mbind_Ret in EX by exact ER. rewrite (mbind_Ret _ _ _ _ _ (rd_Ret _ _ _ E')) in EX.
        assert (N : n rn' = length (fst x)) by apply RN'. assert (LS : 1 <= length (fst x) <= 10) by apply RN'. rewrite N in EX.
        destruct (length (fst x)) as [|q] eqn:LX; [lia|]. erewrite mbind_Ret in EX by reflexivity. rewrite <- LX in *.
        assert (T' : two h' r (fst x) (snd x)) by (exists addrs, rn'; auto).
        destruct (find cmp S kids k) as [p|] eqn:FI; cbn [option_map] in EX |- *.
        * assert (B : match p with Sep _ => True | Cell i _ => i < length addrs end).
          { destruct p; [exact I|]. assert (LA : length addrs = Datatypes.S (length S)) by apply RN. rewrite LA. apply find_bound in FI. lia. }
          destruct (content (fst x) (snd x) p) as [e|] eqn:CO.
          -- assert (VS := value_spot _ _ _ _ _ _ _ E' RN' KA' _ CO). destruct (spot_addr r addrs p) as [a i]. cbn [fst snd] in VS. cbv iota beta in EX.
             unfold mbind in EX. rewrite VS in EX. cbn [bind] in EX. eexists _, _. split; [exact EX|]. exists r. auto.
          -- assert (VS := value_none _ _ _ _ _ _ _ E' RN' KA' B CO). destruct (spot_addr r addrs p) as [a i]. cbn [fst snd] in VS. cbv iota beta in EX.
             unfold mbind in EX. rewrite VS in EX. exact EX.
        * eexists _, _. split; [exact EX|]. exists r. auto.
      + unfold asking, Get. cbn [root]. rewrite SE. cbn [bind]. destruct (find cmp S kids k) as [p|] eqn:FI; cbn [option_map bind]; [|apply SAME].
        destruct (find_valid _ _ _ _ _ FI) as (e & CO). assert (VS := value_spot _ _ _ _ _ _ _ E RN KA _ CO). rewrite CO.
        destruct (spot_addr r addrs p) as [a i]. cbn [fst snd] in VS. rewrite VS. cbn [bind option_map]. apply SAME.
      + unfold asking, ContainsKey. cbn [root]. rewrite SE. cbn [bind]. destruct (find cmp S kids k); apply SAME.
      + apply SAME.
      + apply SAME.
      + exists h. eexists. split; [reflexivity|]. apply rep_new.
      + unfold asking, IntoIter_vec. cbn [root]. rewrite FU, (proj1 (two_lists f _ _ _ _ T0)). apply SAME.
      + unfold asking, Keys_vec. cbn [root]. rewrite FU, (proj1 (proj2 (two_lists f _ _ _ _ T0))). apply SAME.
      + unfold asking, Values_vec. cbn [root]. rewrite FU, (proj2 (proj2 (two_lists f _ _ _ _ T0))). apply SAME.
  Qed.
  Theorem run_tree : forall ops h m t, tree_at h m t ->
    match tree_run cmp t ops with
    | None => run cmp m ops h = Panic
    | Some (t', rs) => exists h' m', run cmp m ops h = Ret ((m', rs), h') /\ tree_at h' m' t'
    end.
  Proof.
    induction ops as [|o ops IH]; intros h m t T; cbn [tree_run run].
    - exists h, m. auto.
    - assert (ST := step_tree h m t o T). destruct (tree_step cmp t o) as [[t1 a]|]; [|unfold mbind; now rewrite ST].
      destruct ST as (h1 & m1 & E1 & T1). assert (R := IH h1 m1 t1 T1). destruct (tree_run cmp t1 ops) as [[t2 rs]|].
      + destruct R as (h2 & m2 & E2 & T2). exists h2, m2. split; [|auto]. erewrite mbind_Ret by exact E1. cbn [fst snd]. erewrite mbind_Ret by exact E2. reflexivity.
      + erewrite mbind_Ret by exact E1. cbn [fst snd]. unfold mbind. now rewrite R.
  Qed.
End Run.
