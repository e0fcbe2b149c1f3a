(** BTreeProofs.v -- the single-node B-tree is the slot machine of BTreeSpec. *)
From Verif Require Import Base BaseLemmas Effect CmpSpec VecSpec HashModel BTreeModel BTreeSpec BTreeHistory.
Local Open Scope nat_scope.

Lemma mbind_Ret {S A B} (m : M S A) (k : A -> M S B) s a s' :
  m s = Ret (a, s') -> mbind m k s = k a s'.
Proof. intros E. unfold mbind. now rewrite E. Qed.
Lemma mbind_Panic {S A B} (m : M S A) (k : A -> M S B) s : m s = Panic -> mbind m k s = Panic.
Proof. intros E. unfold mbind. now rewrite E. Qed.

Section Leaf.
  Context {K V : Type}.
  Variable cmp : K -> K -> ordering.
  Implicit Types (nd : node K V) (h : heap K V) (S : list (option (K * V))).

  (** The content of a node's slots. *)
  Definition srep nd S : Prop := keys nd = map (option_map fst) S /\ values nd = map (option_map snd) S.
  Definition same nd nd' : Prop := leaf nd' = leaf nd /\ deg nd' = deg nd /\ n nd' = n nd /\ childs nd' = childs nd.
  Lemma same_refl nd : same nd nd. Proof. now repeat split. Qed.
  Lemma same_trans a b c : same a b -> same b c -> same a c.
  Proof. unfold same. intuition congruence. Qed.

  Lemma map_list_set {A B} (f : A -> B) l i x : map f (list_set l i x) = list_set (map f l) i (f x).
  Proof. revert i; induction l; destruct i; cbn; auto. f_equal. apply IHl. Qed.

  Lemma set_kv_rep nd S i e : srep nd S -> i < length S ->
    exists nd', set_kv nd i (option_map fst e) (option_map snd e) = Ret nd' /\ srep nd' (list_set S i e) /\ same nd nd'.
  Proof.
    intros [Hk Hv] L. unfold set_kv.
    rewrite upd_Ret by (rewrite Hk, map_length; auto). cbn [bind].
    rewrite upd_Ret by (rewrite Hv, map_length; auto). cbn [bind].
    eexists. split; [reflexivity|]. split; [|now repeat split].
    split; cbn [keys values]; rewrite map_list_set; congruence.
  Qed.
  Lemma idx_keys nd S i e : srep nd S -> nth_error S i = Some e -> idx (keys nd) i = Ret (option_map fst e).
  Proof. intros [Hk _] E. unfold idx. rewrite Hk, nth_error_map, E. reflexivity. Qed.
  Lemma idx_values nd S i e : srep nd S -> nth_error S i = Some e -> idx (values nd) i = Ret (option_map snd e).
  Proof. intros [_ Hk] E. unfold idx. rewrite Hk, nth_error_map, E. reflexivity. Qed.
  Lemma copy_kv_rep src S1 i dst S2 j e : srep src S1 -> srep dst S2 -> nth_error S1 i = Some e -> j < length S2 ->
    exists dst', copy_kv src i dst j = Ret dst' /\ srep dst' (list_set S2 j e) /\ same dst dst'.
  Proof.
    intros H1 H2 E L. unfold copy_kv.
    rewrite (idx_keys _ _ _ _ H1 E). cbn [bind]. rewrite (idx_values _ _ _ _ H1 E). cbn [bind].
    now apply set_kv_rep.
  Qed.
  Lemma is_Greater o : is o Greater = true <-> o = Greater.
  Proof. destruct o; cbn; split; congruence. Qed.
  Lemma is_Less o : is o Less = true <-> o = Less.
  Proof. destruct o; cbn; split; congruence. Qed.
  Lemma is_Equal o : is o Equal = true <-> o = Equal.
  Proof. destruct o; cbn; split; congruence. Qed.

  (** *** Search *)
  Lemma scan_seek k S i :
    match seek cmp k S i with
    | Some j => scan cmp k (map (option_map fst) S) i = j /\ i <= j /\
                exists e, nth_error S (j - i) = Some (Some e) /\ cmp k (fst e) = Equal
    | None => let j := scan cmp k (map (option_map fst) S) i in
              i <= j /\ match nth_error S (j - i) with Some (Some e) => cmp k (fst e) <> Equal | _ => True end
    end.
  Proof.
    revert i. induction S as [|[e|] S IH]; intros i; cbn [seek map option_map scan].
    - split; [lia|]. rewrite Nat.sub_diag. exact I.
    - destruct (cmp k (fst e)) eqn:C; cbn [is].
      + split; [lia|]. rewrite Nat.sub_diag. cbn. congruence.
      + split; [auto|]. split; [lia|]. exists e. rewrite Nat.sub_diag. auto.
      + specialize (IH (Datatypes.S i)). destruct (seek cmp k S (Datatypes.S i)) as [j|].
        * destruct IH as (A & B & e' & N & C'). split; [auto|]. split; [lia|]. exists e'. split; [|auto].
          replace (j - i) with (Datatypes.S (j - Datatypes.S i)) by lia. exact N.
        * cbn zeta in *. destruct IH as (B & N). split; [lia|].
          set (j := scan _ _ _ _) in *. replace (j - i) with (Datatypes.S (j - Datatypes.S i)) by lia. exact N.
    - split; [lia|]. rewrite Nat.sub_diag. exact I.
  Qed.
  Lemma search_leaf f h a nd S k : nth_error h a = Some nd -> leaf nd = true -> srep nd S ->
    search cmp (Datatypes.S f) h a k = Ret (option_map (fun i => (a, i)) (seek cmp k S 0)).
  Proof.
    intros E L [Hk Hv]. cbn [search]. unfold idx at 1. rewrite E. cbn [of_option bind].
    pose proof (scan_seek k S 0) as H. rewrite Hk.
    destruct (seek cmp k S 0) as [j|].
    - destruct H as (A & _ & e & N & C). rewrite A, nth_error_map.
      rewrite Nat.sub_0_r in N. rewrite N. cbn. now rewrite C.
    - cbn zeta in H. destruct H as (_ & N). rewrite Nat.sub_0_r in N. rewrite nth_error_map.
      destruct (nth_error S _) as [[e|]|]; cbn; rewrite ?L; auto.
      destruct (cmp k (fst e)); cbn; rewrite ?L; congruence.
  Qed.
  Lemma seek_Some k S i j : seek cmp k S i = Some j -> i <= j /\ exists e, nth_error S (j - i) = Some (Some e) /\ cmp k (fst e) = Equal.
  Proof. intros E. pose proof (scan_seek k S i) as H. rewrite E in H. tauto. Qed.
  Lemma seek_Some0 k S j : seek cmp k S 0 = Some j -> exists e, nth_error S j = Some (Some e) /\ cmp k (fst e) = Equal.
  Proof. intros E. destruct (seek_Some _ _ _ _ E) as (_ & H). now rewrite Nat.sub_0_r in H. Qed.

  (** *** Inserting in a leaf *)
  Lemma shift_greater_rep k v l : forall nd x tl_, srep nd (map Some l ++ x :: tl_) ->
    exists nd' a y b,
      shift_greater cmp k (length l) nd = Ret (nd', length a) /\ srep nd' (map Some a ++ y :: map Some b ++ tl_) /\
      same nd nd' /\ l = a ++ b /\ place cmp (k, v) l = a ++ (k, v) :: b.
  Proof.
    induction l as [|e l IH] using rev_ind; intros nd x tl_ H.
    - exists nd, [], x, []. cbn. repeat split; auto; apply H.
    - rewrite app_length. cbn [length]. rewrite Nat.add_1_r. cbn [shift_greater].
      rewrite map_app in H. cbn [map] in H. rewrite <- app_assoc in H. cbn [app] in H.
      assert (N : nth_error (map Some l ++ Some e :: x :: tl_) (length l) = Some (Some e)).
      { rewrite nth_error_app2 by (rewrite map_length; lia). now rewrite map_length, Nat.sub_diag. }
      rewrite (idx_keys _ _ _ _ H N). cbn [bind option_map].
      unfold place. rewrite rev_unit. cbn [place_rev].
      change (fst (k, v)) with k.
      destruct (cmp (fst e) k) eqn:C; cbn [is].
      1, 2: exists nd, (l ++ [e]), x, []; split; [rewrite app_length; cbn; repeat f_equal; lia|];
            (split; [rewrite map_app; cbn; rewrite <- app_assoc; exact H|]);
            (split; [apply same_refl|]); (split; [now rewrite app_nil_r|]); cbn; rewrite rev_involutive; reflexivity.
      edestruct (copy_kv_rep _ _ (length l) _ _ (Datatypes.S (length l)) _ H H N) as (nd1 & E1 & R1 & S1).
      { rewrite app_length, map_length. cbn. lia. }
      rewrite E1. cbn [bind].
      assert (R : srep nd1 (map Some l ++ Some e :: Some e :: tl_)).
      { rewrite list_set_app2 in R1 by (rewrite map_length; lia).
        rewrite map_length in R1. replace (Datatypes.S (length l) - length l) with 1 in R1 by lia. exact R1. }
      destruct (IH _ _ _ R) as (nd' & a & y & b & E & R' & S' & -> & P).
      exists nd', a, y, (b ++ [e]). split; [exact E|].
      split; [rewrite map_app; cbn; rewrite <- app_assoc; exact R'|].
      split; [eapply same_trans; eauto|]. split; [now rewrite app_assoc|].
      cbn [rev]. fold (place cmp (k, v) (a ++ b)). rewrite P.
      rewrite <- app_assoc. reflexivity.
  Qed.

  (** *** The representation *)
  Definition leaf_node nd (s : slots K V) : Prop :=
    leaf nd = true /\ deg nd = 0 /\ n nd = length (live s) /\ childs nd = repeat None 12 /\
    length (all_slots s) = 11 /\ srep nd (all_slots s).
  Definition rep h (m : BTreeMap) (s : slots K V) : Prop :=
    len m = count s /\
    match root m with
    | None => live s = [] /\ rest s = repeat None 11
    | Some r => exists nd, nth_error h r = Some nd /\ leaf_node nd s /\ live s <> []
    end.

  Lemma all_len (s : slots K V) : length (all_slots s) = length (live s) + length (rest s).
  Proof. unfold all_slots. now rewrite app_length, map_length. Qed.
  Lemma all_live (s : slots K V) i : i < length (live s) -> nth_error (all_slots s) i = nth_error (map Some (live s)) i.
  Proof. intros H. unfold all_slots. apply nth_error_app1. now rewrite map_length. Qed.

  Lemma all_revalue (s : slots K V) i e v : nth_error (all_slots s) i = Some (Some e) ->
    all_slots (revalue s i v) = list_set (all_slots s) i (Some (fst e, v)).
  Proof.
    unfold all_slots, revalue. intros N. destruct (Nat.ltb_spec i (length (live s))) as [L|L]; cbn [live rest].
    - rewrite nth_error_app1, nth_error_map in N by now rewrite map_length.
      destruct (nth_error (live s) i) as [e'|]; cbn in N; [|discriminate].
      injection N as ->. rewrite map_list_set, list_set_app1 by now rewrite map_length. reflexivity.
    - rewrite nth_error_app2 in N by now rewrite map_length. rewrite map_length in N. rewrite N.
      rewrite list_set_app2 by now rewrite map_length. now rewrite map_length.
  Qed.
  Lemma live_revalue_length (s : slots K V) i v : length (live (revalue s i v)) = length (live s).
  Proof.
    unfold revalue. destruct (Nat.ltb _ _); cbn [live]; [|reflexivity].
    destruct (nth_error (live s) i); auto. apply list_set_length.
  Qed.
  Lemma count_revalue (s : slots K V) i v : count (revalue s i v) = count s.
  Proof. unfold revalue. now destruct (Nat.ltb _ _). Qed.

  Lemma place_length (e : K * V) (l : list (K * V)) : length (place cmp e l) = Datatypes.S (length l).
  Proof.
    unfold place. rewrite rev_length. rewrite <- (rev_length l). induction (rev l) as [|x r IH]; cbn; auto.
    destruct (cmp (fst x) (fst e)); cbn; auto.
  Qed.

  (** *** Reading a leaf *)
  Lemma somes_app {A} (l1 l2 : list (option A)) : somes (l1 ++ l2) = somes l1 ++ somes l2.
  Proof. induction l1 as [|[a|] l1 IH]; cbn; auto. now rewrite IH. Qed.
  Lemma somes_map_Some {A} (l : list A) : somes (map Some l) = l.
  Proof. induction l; cbn; congruence. Qed.
  Lemma skipn_cons {A} (l : list A) i x : nth_error l i = Some x -> skipn i l = x :: skipn (Datatypes.S i) l.
  Proof. revert i; induction l; destruct i; cbn; intros H; try discriminate; [congruence|]. now apply IHl. Qed.

  Lemma to_vec_leaf f h a nd S : nth_error h a = Some nd -> leaf nd = true -> srep nd S ->
    to_vec (Datatypes.S f) h a = Ret (somes S).
  Proof.
    intros E L R. cbn [to_vec]. unfold idx at 1. rewrite E. cbn [of_option bind].
    replace (length (keys nd)) with (length S) by (destruct R as [-> _]; now rewrite map_length).
    rewrite L. cbn [bind].
    match goal with |- ?g _ _ = _ => assert (G : forall m i, i + m = length S -> g m i = Ret (somes (skipn i S))) end.
    { induction m as [|m IH]; intros i Hi.
      - rewrite skipn_all2 by lia. reflexivity.
      - destruct (nth_error S i) as [e|] eqn:N; [|apply nth_error_None in N; lia].
        rewrite (idx_keys _ _ _ _ R N). cbn [bind].
        rewrite (idx_values _ _ _ _ R N). rewrite (IH (Datatypes.S i)) by lia.
        rewrite (skipn_cons _ _ _ N). destruct e as [[k v]|]; reflexivity. }
    now rewrite G.
  Qed.
  Lemma to_value_vec_leaf f h a nd S : nth_error h a = Some nd -> leaf nd = true -> srep nd S ->
    to_value_vec (Datatypes.S f) h a = Ret (map snd (somes S)).
  Proof.
    intros E L R. cbn [to_value_vec]. unfold idx at 1. rewrite E. cbn [of_option bind].
    replace (length (keys nd)) with (length S) by (destruct R as [-> _]; now rewrite map_length).
    rewrite L. cbn [bind].
    match goal with |- ?g _ _ = _ => assert (G : forall m i, i + m = length S -> g m i = Ret (map snd (somes (skipn i S)))) end.
    { induction m as [|m IH]; intros i Hi.
      - rewrite skipn_all2 by lia. reflexivity.
      - destruct (nth_error S i) as [e|] eqn:N; [|apply nth_error_None in N; lia].
        rewrite (idx_values _ _ _ _ R N). cbn [bind]. rewrite (IH (Datatypes.S i)) by lia.
        rewrite (skipn_cons _ _ _ N). destruct e as [[k v]|]; reflexivity. }
    now rewrite G.
  Qed.
  Lemma to_key_vec_leaf f h a nd S : nth_error h a = Some nd -> leaf nd = true -> srep nd S -> n nd <= length S ->
    to_key_vec (Datatypes.S f) h a = Ret (map fst (somes (firstn (n nd) S))).
  Proof.
    intros E L R Hn. cbn [to_key_vec]. unfold idx at 1. rewrite E. cbn [of_option bind].
    replace (length (keys nd)) with (length S) by (destruct R as [-> _]; now rewrite map_length).
    rewrite Nat.min_r by auto.
    rewrite L. cbn [bind].
    match goal with |- ?g _ _ = _ => assert (G : forall m i, i + m = n nd -> g m i = Ret (map fst (somes (skipn i (firstn (n nd) S))))) end.
    { induction m as [|m IH]; intros i Hi.
      - rewrite skipn_all2 by (rewrite firstn_length; lia). reflexivity.
      - destruct (nth_error S i) as [e|] eqn:N; [|apply nth_error_None in N; lia].
        rewrite (idx_keys _ _ _ _ R N). cbn [bind]. rewrite (IH (Datatypes.S i)) by lia.
        assert (N' : nth_error (firstn (n nd) S) i = Some e).
        { rewrite nth_error_firstn. destruct (Nat.ltb_spec i (n nd)); [auto|lia]. }
        rewrite (skipn_cons _ _ _ N'). destruct e as [[k v]|]; reflexivity. }
    now rewrite G.
  Qed.

  (** *** Removing from a leaf *)
  Lemma find_key_rep nd S k l : forall a t, srep nd (map Some (a ++ l) ++ t) ->
    match live_index cmp k l (length a) with
    | Some j => find_key cmp k (length l) (length a) nd = Ret j /\ exists b e c, l = b ++ e :: c /\ j = length a + length b /\ cmp (fst e) k = Equal
    | None => exists j, find_key cmp k (length l) (length a) nd = Ret j /\
                        (j = length (a ++ l) \/ exists e, nth_error (a ++ l) j = Some e /\ cmp (fst e) k <> Equal)
    end.
  Proof.
    induction l as [|e l IH]; intros a t R; cbn [live_index length find_key].
    - exists (length a). split; auto. left. now rewrite app_nil_r.
    - assert (N : nth_error (map Some (a ++ e :: l) ++ t) (length a) = Some (Some e)).
      { rewrite nth_error_app1 by (rewrite map_length, app_length; cbn; lia).
        rewrite nth_error_map, nth_error_app2 by lia. now rewrite Nat.sub_diag. }
      rewrite (idx_keys _ _ _ _ R N). cbn [bind option_map].
      destruct (cmp (fst e) k) eqn:C; cbn [is].
      + specialize (IH (a ++ [e]) t). rewrite app_length in IH. cbn [length] in IH.
        rewrite Nat.add_1_r in IH. rewrite <- app_assoc in IH. specialize (IH R).
        destruct (live_index _ _ _ _).
        * destruct IH as (F & b & e' & c & -> & -> & C'). split; [exact F|].
          exists (e :: b), e', c. cbn. repeat split; auto; lia.
        * exact IH.
      + split; [reflexivity|]. exists [], e, l. cbn. repeat split; auto.
      + exists (length a). split; auto. right. exists e. split; [|congruence].
        rewrite nth_error_app2 by lia. now rewrite Nat.sub_diag.
  Qed.
  Lemma close_gap_rep b : forall nd a x t, srep nd (map Some a ++ x :: map Some b ++ t) ->
    exists nd', close_gap (length b) (length a + 1) nd = Ret nd' /\ same nd nd' /\
      srep nd' (map Some a ++ map Some b ++ (match b with [] => x | _ => None end) :: t).
  Proof.
    induction b as [|e b IH]; intros nd a x t R; cbn [length close_gap].
    - exists nd. split; [reflexivity|]. split; [apply same_refl|exact R].
    - rewrite Nat.add_1_r. cbn [less_one bind].
      cbn [map app] in R.
      assert (N : nth_error (map Some a ++ x :: Some e :: map Some b ++ t) (Datatypes.S (length a)) = Some (Some e)).
      { rewrite nth_error_app2 by (rewrite map_length; lia). rewrite map_length.
        now replace (Datatypes.S (length a) - length a) with 1 by lia. }
      edestruct (copy_kv_rep _ _ _ _ _ (length a) _ R R N) as (nd1 & E1 & R1 & S1).
      { rewrite app_length, map_length. cbn. lia. }
      rewrite E1. cbn [bind].
      edestruct (set_kv_rep _ _ (Datatypes.S (length a)) None R1) as (nd2 & E2 & R2 & S2).
      { rewrite list_set_length, app_length, map_length. cbn. lia. }
      cbn [option_map] in E2. rewrite E2. cbn [bind].
      rewrite (list_set_app2 (map Some a)) in R2 by (rewrite map_length; lia).
      rewrite map_length, Nat.sub_diag in R2. cbn [list_set] in R2.
      rewrite list_set_app2 in R2 by (rewrite map_length; lia).
      rewrite map_length in R2. replace (Datatypes.S (length a) - length a) with 1 in R2 by lia. cbn [list_set] in R2.
      destruct (IH nd2 (a ++ [e]) None t) as (nd' & E' & S' & R').
      { rewrite map_app. cbn [map]. rewrite <- app_assoc. exact R2. }
      exists nd'. rewrite app_length in E'. cbn [length] in E'.
      replace (Datatypes.S (Datatypes.S (length a))) with (length a + 1 + 1) by lia.
      split; [exact E'|]. split; [eapply same_trans; [exact S1|]; eapply same_trans; eauto|].
      rewrite map_app in R'. cbn [map] in R'. rewrite <- app_assoc in R'. cbn [app map].
      destruct b; exact R'.
  Qed.

  (** *** Finding with a lawful order *)
  Hypothesis lawful : total_preorder cmp.
  Lemma Equal_sym a b : cmp a b = Equal -> cmp b a = Equal.
  Proof. intros E. rewrite (tp_flip _ lawful). now rewrite E. Qed.
  Lemma Greater_Less a b : cmp a b = Greater <-> cmp b a = Less.
  Proof. rewrite (tp_flip _ lawful b a). destruct (cmp b a); cbn; split; congruence. Qed.

  (** The search sees live entries as the removal does. *)
  Lemma seek_live k (l : list (K * V)) t i :
    match live_index cmp k l i with
    | Some j => seek cmp k (map Some l ++ t) i = Some j
    | None => forall j, seek cmp k (map Some l ++ t) i = Some j -> i + length l <= j
    end.
  Proof.
    revert i; induction l as [|e l IH]; intros i; cbn [live_index map app seek length].
    - intros j E. apply seek_Some in E. lia.
    - specialize (IH (Datatypes.S i)). pose proof (tp_flip _ lawful (fst e) k) as F.
      destruct (cmp (fst e) k); cbn in F; rewrite F.
      + destruct (live_index _ _ _ _); auto. intros j E. apply IH in E. lia.
      + reflexivity.
      + discriminate.
  Qed.

  Definition frame h (m : BTreeMap) h' (m' : BTreeMap) : Prop :=
    length h <= length h' /\
    (forall a, root m <> Some a -> a < length h -> nth_error h' a = nth_error h a) /\
    (forall r, root m' = Some r -> root m = Some r \/ length h <= r).
  Lemma frame_refl h m : frame h m h m.
  Proof. repeat split; auto. Qed.
  Lemma frame_set h r x (m' : BTreeMap) c : nth_error h r <> None -> (root m' = Some r \/ root m' = None) ->
    frame h (mkMap (Some r) c) (list_set h r x) m'.
  Proof.
    intros N R. split; [now rewrite list_set_length|]. split.
    - cbn. intros a Ha _. apply nth_error_list_set_neq. congruence.
    - intros r' E. cbn. destruct R; left; congruence.
  Qed.
  Lemma frame_alloc h x c c' : frame h (mkMap None c) (h ++ [x]) (mkMap (Some (length h)) c').
  Proof.
    split; [rewrite app_length; lia|]. split.
    - intros a _ L. now apply nth_error_app1.
    - cbn. intros r E. right. injection E as <-. auto.
  Qed.

  Lemma rd_Ret h a nd : nth_error h a = Some nd -> rd a h = Ret (nd, h).
  Proof. intros E. unfold rd, idx. now rewrite E. Qed.
  Lemma wr_Ret h a nd : a < length h -> wr a nd h = Ret (tt, list_set h a nd).
  Proof. intros L. unfold wr. now rewrite upd_Ret. Qed.
  Lemma nth_lt {A} (l : list A) i x : nth_error l i = Some x -> i < length l.
  Proof. intros E. apply nth_error_Some. congruence. Qed.

  Lemma srep_same nd nd' S : srep nd S -> keys nd' = keys nd -> values nd' = values nd -> srep nd' S.
  Proof. unfold srep. intros [A B] -> ->. auto. Qed.

  Lemma insert_leaf f h r nd (s : slots K V) k v : nth_error h r = Some nd -> leaf_node nd s -> length (live s) <> 11 ->
    exists nd', insert_non_full cmp (Datatypes.S f) r k v h = Ret (tt, list_set h r nd') /\
      forall c, leaf_node nd' (mkSlots (place cmp (k, v) (live s)) (tl (rest s)) c).
  Proof.
    intros E (L & D & N & C & A & R) NF. cbn [insert_non_full].
    rewrite (mbind_Ret _ _ _ _ _ (rd_Ret _ _ _ E)). rewrite L.
    pose proof (all_len s) as AL. rewrite A in AL.
    destruct (rest s) as [|x t] eqn:ER; [cbn in AL; lia|].
    unfold all_slots in R. rewrite ER in R.
    destruct (shift_greater_rep k v (live s) nd x t R) as (nd1 & a & y & b & E1 & R1 & S1 & EL & P).
    rewrite N. erewrite mbind_Ret; [|unfold lift; rewrite E1; reflexivity]. cbn [fst snd].
    edestruct (set_kv_rep nd1 _ (length a) (Some (k, v)) R1) as (nd2 & E2 & R2 & S2).
    { rewrite app_length, map_length. cbn. lia. }
    cbn [option_map fst snd] in E2. erewrite mbind_Ret; [|unfold lift; rewrite E2; reflexivity].
    rewrite wr_Ret by (eapply nth_lt; eauto).
    eexists. split; [reflexivity|]. intros c. unfold leaf_node. cbn [leaf deg n childs set_n live rest all_slots tl].
    destruct S1 as (S1a & S1b & S1c & S1d). destruct S2 as (S2a & S2b & S2c & S2d).
    split; [congruence|]. split; [congruence|]. split; [rewrite place_length; lia|]. split; [congruence|].
    split.
    - unfold all_slots. cbn [live rest]. rewrite app_length, map_length, place_length. cbn in AL. lia.
    - eapply srep_same; [|reflexivity|reflexivity]. unfold all_slots. cbn [live rest]. rewrite P.
      rewrite map_app. cbn [map]. rewrite <- app_assoc. cbn [app].
      rewrite list_set_app2 in R2 by (rewrite map_length; lia). rewrite map_length, Nat.sub_diag in R2. exact R2.
  Qed.
  Lemma seek_empty k : seek cmp k (@all_slots K V no_slots) 0 = None.
  Proof. reflexivity. Qed.

  Lemma remove_leaf f h r nd (s : slots K V) k : nth_error h r = Some nd -> leaf_node nd s ->
    let s' := match live_index cmp k (live s) 0 with Some i => take_out s i | None => s end in
    exists nd', remove_ cmp (Datatypes.S f) r k h = Ret (tt, list_set h r nd') /\ leaf_node nd' s'.
  Proof.
    intros E (L & D & N & C & A & R). cbn zeta. cbn [remove_].
    rewrite (mbind_Ret _ _ _ _ _ (rd_Ret _ _ _ E)).
    pose proof (find_key_rep nd (all_slots s) k (live s) [] (rest s) R) as F. cbn [length app] in F.
    rewrite N. unfold lift at 1.
    destruct (live_index cmp k (live s) 0) as [j|].
    - destruct F as (F & b & e & c & EL & EJ & CE). cbn in EJ. subst j.
      erewrite mbind_Ret; [|rewrite F; reflexivity].
      assert (NL : nth_error (live s) (length b) = Some e).
      { rewrite EL, nth_error_app2 by lia. now rewrite Nat.sub_diag. }
      assert (LT : length b < length (live s)) by (eapply nth_lt; eauto).
      assert (NA : nth_error (all_slots s) (length b) = Some (Some e)).
      { rewrite all_live by auto. now rewrite nth_error_map, NL. }
      rewrite (proj2 (Nat.ltb_lt _ _) LT). rewrite (idx_keys _ _ _ _ R NA).
      erewrite mbind_Ret; [|reflexivity]. cbn [option_map]. rewrite CE. cbn [is]. rewrite L.
      unfold remove_from_leaf. rewrite (mbind_Ret _ _ _ _ _ (rd_Ret _ _ _ E)). rewrite N.
      assert (R' : srep nd (map Some b ++ Some e :: map Some c ++ rest s)).
      { unfold all_slots in R. rewrite EL, map_app in R. cbn [map] in R. rewrite <- app_assoc in R. exact R. }
      destruct (close_gap_rep c nd b (Some e) (rest s) R') as (nd1 & E1 & (Sa & Sb & Sc & Sd) & R1).
      assert (LL : length (live s) = length b + Datatypes.S (length c)) by (rewrite EL, app_length; reflexivity).
      replace (length (live s) - (length b + 1)) with (length c) by lia.
      erewrite mbind_Ret; [|unfold lift; rewrite E1; reflexivity].
      rewrite Sc, N, LL. rewrite Nat.add_succ_r. erewrite mbind_Ret; [|reflexivity].
      rewrite wr_Ret by (eapply nth_lt; eauto). eexists. split; [reflexivity|].
      assert (TO : all_slots (take_out s (length b)) = map Some b ++ map Some c ++ (match c with [] => Some e | _ => None end) :: rest s).
      { unfold take_out, all_slots. cbn [live rest]. rewrite EL.
        rewrite firstn_app, firstn_all, Nat.sub_diag. cbn [firstn]. rewrite app_nil_r.
        rewrite skipn_app, (skipn_all2 b) by lia. replace (Datatypes.S (length b) - length b) with 1 by lia. cbn [app skipn].
        rewrite (map_app Some b c), <- app_assoc. do 3 f_equal.
        rewrite map_app. cbn [map]. rewrite app_nth2 by (rewrite map_length; lia). rewrite map_length, Nat.sub_diag. cbn [nth].
        rewrite app_length. cbn [length]. destruct c; cbn [length].
        - rewrite (proj2 (Nat.eqb_eq _ _)); [reflexivity|lia].
        - rewrite (proj2 (Nat.eqb_neq _ _)); [reflexivity|lia]. }
      assert (TL : length (live (take_out s (length b))) = length b + length c).
      { unfold take_out. cbn [live]. rewrite app_length, firstn_length, skipn_length. lia. }
      split; [cbn; congruence|]. split; [cbn; congruence|]. split; [cbn [n set_n]; lia|]. split; [cbn [childs set_n]; congruence|].
      rewrite TO. split.
      + rewrite !app_length, !map_length. cbn [length]. rewrite all_len in A. lia.
      + eapply srep_same; [exact R1|reflexivity|reflexivity].
    - destruct F as (j & F & J). erewrite mbind_Ret; [|rewrite F; reflexivity].
      exists nd. rewrite list_set_same by auto.
      split; [|repeat split; auto; apply R].
      destruct (Nat.ltb_spec j (length (live s))) as [LT|GE].
      + destruct J as [J|(e & NE & CE)]; [lia|].
        assert (NA : nth_error (all_slots s) j = Some (Some e)).
        { rewrite all_live by auto. now rewrite nth_error_map, NE. }
        rewrite (idx_keys _ _ _ _ R NA). erewrite mbind_Ret; [|reflexivity]. cbn [option_map].
        destruct (cmp (fst e) k); cbn [is]; try congruence; rewrite L; reflexivity.
      + erewrite mbind_Ret; [|reflexivity]. rewrite L. reflexivity.
  Qed.

  Lemma rep_None_slots h m (s : slots K V) : rep h m s -> root m = None -> s = mkSlots [] (repeat None 11) (count s).
  Proof. intros (C & R) E. rewrite E in R. destruct R as (A & B). destruct s; cbn in *; congruence. Qed.
  Lemma seek_slot_value k S i : seek cmp k S 0 = Some i ->
    exists e, nth_error S i = Some (Some e) /\ slot_value S i = Some (snd e).
  Proof. intros E. destruct (seek_Some0 _ _ _ E) as (e & N & _). exists e. split; auto. unfold slot_value. now rewrite N. Qed.
  (** After the removal the slot found before still holds something. *)
  Lemma take_out_slot (s : slots K V) i e : nth_error (live s) i = Some e -> exists e', nth_error (all_slots (take_out s i)) i = Some (Some e').
  Proof.
    intros N. assert (L := nth_lt _ _ _ N). unfold all_slots, take_out. cbn [live rest].
    destruct (Nat.eqb_spec (S i) (length (live s))) as [E|NE].
    - exists e. rewrite nth_error_app2 by (rewrite map_length, app_length, firstn_length, skipn_length; lia).
      rewrite map_length, app_length, firstn_length, skipn_length.
      replace (i - (Nat.min i (length (live s)) + (length (live s) - S i))) with 0 by lia. cbn [nth_error].
      f_equal. apply nth_error_nth. now rewrite nth_error_map, N.
    - destruct (nth_error (live s) (S i)) as [e'|] eqn:N'; [|apply nth_error_None in N'; lia].
      exists e'. rewrite nth_error_app1 by (rewrite map_length, app_length, firstn_length, skipn_length; lia).
      rewrite nth_error_map, nth_error_app2 by (rewrite firstn_length; lia).
      rewrite firstn_length, nth_error_skipn. replace (S i + (i - Nat.min i (length (live s)))) with (S i) by lia.
      now rewrite N'.
  Qed.
  Lemma live_index_lt k (l : list (K * V)) : forall i j, live_index cmp k l i = Some j -> i <= j < i + length l.
  Proof.
    induction l as [|e l IH]; cbn; intros i j; [discriminate|].
    destruct (cmp (fst e) k); intros H; try discriminate.
    - apply IH in H. lia.
    - injection H as <-. lia.
  Qed.

  Lemma exec_res (x : M (heap K V) (BTreeMap * option V)) h m' o h' : x h = Ret ((m', o), h') ->
    (r <~ x ;; mret (fst r, @Value K V (snd r))) h = Ret ((m', Value o), h').
  Proof. intros E. unfold mbind. now rewrite E. Qed.

  Theorem step_any h m (s : slots K V) o s' a : rep h m s -> slot_step cmp s o = Some (s', a) ->
    if lost cmp s o a then exec cmp m o h = Panic
    else exists h' m', exec cmp m o h = Ret ((m', a), h') /\ rep h' m' s' /\ frame h m h' m'.
  Proof.
    intros R ST. assert (RC := R). destruct R as (HC & HR). destruct m as [rt ln]. cbn [root len] in *. subst ln.
    assert (FR := frame_refl h (mkMap rt (count s))).
    destruct rt as [r|].
    - destruct HR as (nd & E & LN & NE). assert (LN' := LN). destruct LN' as (L & D & N & C & A & SR).
      assert (SE : forall k, search cmp (fuel h) h r k = Ret (option_map (fun i => (r, i)) (seek cmp k (all_slots s) 0))).
      { intros k. unfold fuel. eapply search_leaf; eauto. }
      destruct o; cbn [slot_step] in ST; cbn [exec].
      + (* Insert *)
        unfold Insert. cbn [root].
        destruct (seek cmp k (all_slots s) 0) as [i|] eqn:SK.
        * injection ST as <- <-. destruct (seek_slot_value _ _ _ SK) as (e & NA & SV). rewrite SV.
          eexists _, (mkMap (Some r) (count s)). split.
          { apply exec_res.
            erewrite mbind_Ret; [|rewrite SE, SK; reflexivity]. cbn [option_map].
            rewrite (mbind_Ret _ _ _ _ _ (rd_Ret _ _ _ E)).
            erewrite mbind_Ret; [|unfold lift; rewrite (idx_values _ _ _ _ SR NA); reflexivity].
            erewrite mbind_Ret; [|unfold lift; rewrite upd_Ret; [reflexivity|]].
            2:{ destruct SR as [_ ->]. rewrite map_length. eapply nth_lt; eauto. }
            erewrite mbind_Ret; [|apply wr_Ret; eapply nth_lt; eauto].
            cbn [option_map]. erewrite mbind_Ret; [|reflexivity]. reflexivity. }
          split.
          { split; [now rewrite count_revalue|]. cbn [root]. eexists. split; [apply nth_error_list_set_eq; eapply nth_lt; eauto|].
            split.
            - unfold leaf_node. cbn [leaf deg n childs]. rewrite live_revalue_length.
              repeat (split; [now auto|]). rewrite (all_revalue _ _ _ _ NA), list_set_length. split; [auto|].
              destruct SR as [SK1 SV1]. split; cbn [keys values]; rewrite map_list_set; cbn [option_map fst snd].
              + rewrite SK1. symmetry. apply list_set_same. now rewrite nth_error_map, NA.
              + now rewrite SV1.
            - intros Z. apply NE. apply length_zero_iff_nil. rewrite <- (live_revalue_length s i v), Z. reflexivity. }
          { apply frame_set; [congruence|auto]. }
        * destruct (Nat.eqb_spec (length (live s)) 11) as [|NF]; [discriminate|]. injection ST as <- <-.
          destruct (insert_leaf (length h) h r nd s k v E LN NF) as (nd' & EI & LI).
          eexists _, (mkMap (Some r) _). split.
          { apply exec_res.
            erewrite mbind_Ret; [|rewrite SE, SK; reflexivity]. cbn [option_map].
            rewrite (mbind_Ret _ _ _ _ _ (rd_Ret _ _ _ E)).
            rewrite N. change cap with 11. rewrite (proj2 (Nat.eqb_neq _ _) NF).
            erewrite mbind_Ret; [|exact EI]. reflexivity. }
          split.
          { split; [cbn [len count]; destruct (live s); [contradiction|reflexivity]|].
            cbn [root]. eexists. split; [apply nth_error_list_set_eq; eapply nth_lt; eauto|].
            split; [apply LI|]. cbn [live]. intros Z. apply (f_equal (@length _)) in Z. rewrite place_length in Z. discriminate. }
          { apply frame_set; [congruence|auto]. }
      + (* Remove *)
        unfold Remove. cbn [root].
        destruct (remove_leaf (length h) h r nd s k E LN) as (nd' & ER & LR). cbn zeta in LR.
        assert (LTr : r < length h) by (eapply nth_lt; eauto).
        set (s1 := match live_index cmp k (live s) 0 with Some i => take_out s i | None => s end) in *.
        assert (CN : count s1 = count s) by (unfold s1; destruct (live_index _ _ _ _); reflexivity).
        assert (R' : n nd' = length (live s1)) by apply LR.
        assert (NX : nth_error (list_set h r nd') r = Some nd') by (apply nth_error_list_set_eq; auto).
        assert (FIN : forall c, exists r', match n nd' with
            | O => if leaf nd' then Ret None else idx (childs nd') 0
            | _ => Ret (Some r) end = Ret r' /\
            rep (list_set h r nd') (mkMap r' c) (mkSlots (live (emptied s1)) (rest (emptied s1)) c) /\
            frame h (mkMap (Some r) (count s)) (list_set h r nd') (mkMap r' c)).
        { intros c. destruct (live s1) as [|e0 l0] eqn:EL.
          - exists None. rewrite R'. cbn [length]. rewrite (proj1 LR). split; [reflexivity|]. split; [|apply frame_set; cbn; [congruence|auto]].
            split; [reflexivity|]. cbn [root live rest]. unfold emptied. rewrite EL. auto.
          - exists (Some r). rewrite R'. cbn [length]. split; [reflexivity|]. split; [|apply frame_set; cbn; [congruence|auto]].
            split; [reflexivity|]. cbn [root live]. exists nd'. split; [exact NX|].
            unfold emptied. rewrite EL. rewrite EL. split; [|discriminate].
            rewrite <- EL. destruct s1; exact LR. }
        destruct (seek cmp k (all_slots s) 0) as [i|] eqn:SK.
        * injection ST as <- <-.
          destruct (FIN (wrap64 (count s - 1))) as (r' & E1 & R1 & F1).
          assert (LI : i < length (all_slots s1)).
          { rewrite (proj1 (proj2 (proj2 (proj2 (proj2 LR))))). destruct (seek_slot_value _ _ _ SK) as (e & NA & _). rewrite <- A. eapply nth_lt; eauto. }
          destruct (nth_error (all_slots s1) i) as [w|] eqn:NE'; [|apply nth_error_None in NE'; lia].
          assert (VI := idx_values _ _ _ _ (proj2 (proj2 (proj2 (proj2 (proj2 LR))))) NE').
          unfold slot_value. rewrite NE'. destruct w as [e'|]; cbn [lost]; rewrite ?SK; cbn [is_some].
          { eexists _, (mkMap r' _). split; [|split; [exact R1|exact F1]].
            apply exec_res.
            erewrite mbind_Ret; [|rewrite SE, SK; reflexivity]. cbn [option_map].
            erewrite mbind_Ret; [|exact ER].
            rewrite (mbind_Ret _ _ _ _ _ (rd_Ret _ _ _ NX)).
            erewrite mbind_Ret; [|unfold lift; rewrite E1; reflexivity].
            erewrite mbind_Ret; [|unfold value_at, idx at 1; rewrite NX; cbn [of_option bind]; rewrite VI; reflexivity].
            reflexivity. }
          { unfold mbind at 1.
            erewrite mbind_Ret; [|rewrite SE, SK; reflexivity]. cbn [option_map].
            erewrite mbind_Ret; [|exact ER].
            rewrite (mbind_Ret _ _ _ _ _ (rd_Ret _ _ _ NX)).
            erewrite mbind_Ret; [|unfold lift; rewrite E1; reflexivity].
            unfold mbind, value_at, idx at 1. rewrite NX. cbn [of_option bind]. rewrite VI. reflexivity. }
        * injection ST as <- <-.
          cbn [lost]. rewrite SK. cbn [is_some]. destruct (FIN (count s)) as (r' & E1 & R1 & F1).
          eexists _, (mkMap r' _). split; [|split; [|exact F1]].
          { apply exec_res.
            erewrite mbind_Ret; [|rewrite SE, SK; reflexivity]. cbn [option_map].
            erewrite mbind_Ret; [|exact ER].
            rewrite (mbind_Ret _ _ _ _ _ (rd_Ret _ _ _ NX)).
            erewrite mbind_Ret; [|unfold lift; rewrite E1; reflexivity]. reflexivity. }
          { replace (emptied s1) with (mkSlots (live (emptied s1)) (rest (emptied s1)) (count s)); [exact R1|].
            rewrite <- CN. unfold emptied. destruct s1 as [[|] ? ?]; reflexivity. }
      + injection ST as <- <-. exists h, (mkMap (Some r) (count s)). split; [|split; auto].
        unfold asking, Get. cbn [root]. rewrite SE.
        destruct (seek cmp k (all_slots s) 0) as [i|] eqn:SK; [|reflexivity].
        destruct (seek_slot_value _ _ _ SK) as (e & NA & SV). rewrite SV. cbn [option_map bind].
        unfold value_at, idx at 1. rewrite E. cbn [of_option bind]. rewrite (idx_values _ _ _ _ SR NA). reflexivity.
      + injection ST as <- <-. exists h, (mkMap (Some r) (count s)). split; [|split; auto].
        unfold asking, ContainsKey. cbn [root]. rewrite SE.
        destruct (seek cmp k (all_slots s) 0) as [i|] eqn:SK; reflexivity.
      + injection ST as <- <-. exists h, (mkMap (Some r) (count s)). auto.
      + injection ST as <- <-. exists h, (mkMap (Some r) (count s)). auto.
      + injection ST as <- <-. exists h, (mkMap None 0). split; [reflexivity|]. split; [repeat split|].
        split; [auto|]. split; [auto|]. discriminate.
      + injection ST as <- <-. exists h, (mkMap (Some r) (count s)). split; [|split; auto].
        unfold asking, IntoIter_vec. cbn [root]. unfold fuel. now rewrite (to_vec_leaf _ _ _ _ _ E L SR).
      + injection ST as <- <-. exists h, (mkMap (Some r) (count s)). split; [|split; auto].
        unfold asking, Keys_vec. cbn [root]. unfold fuel.
        rewrite (to_key_vec_leaf _ _ _ _ _ E L SR) by (rewrite N, all_len; lia). rewrite N. unfold all_slots.
        replace (length (live s)) with (length (map (@Some (K * V)) (live s))) by apply map_length.
        rewrite firstn_app, firstn_all, Nat.sub_diag. cbn [firstn]. rewrite app_nil_r, somes_map_Some. reflexivity.
      + injection ST as <- <-. exists h, (mkMap (Some r) (count s)). split; [|split; auto].
        unfold asking, Values_vec. cbn [root]. unfold fuel. now rewrite (to_value_vec_leaf _ _ _ _ _ E L SR).
    - assert (ES := rep_None_slots _ _ _ RC eq_refl).
      destruct o; cbn [slot_step] in ST; cbn [exec].
      + rewrite ES in ST. cbn in ST. injection ST as <- <-.
        eexists _, _. split; [reflexivity|]. split; [|apply frame_alloc].
        split; [reflexivity|]. cbn [root]. eexists. split; [rewrite nth_error_app2 by lia; rewrite Nat.sub_diag; reflexivity|].
        split; [|discriminate]. repeat split.
      + rewrite ES in ST. cbn in ST. injection ST as <- <-.
        replace (lost cmp s (BRemove k) (Value None)) with false by (rewrite ES; reflexivity).
        exists h, (mkMap None (count s)). split; [reflexivity|]. split; [repeat split|auto].
      + rewrite ES in ST. cbn in ST. injection ST as <- <-. exists h, (mkMap None (count s)). repeat split; auto; apply FR.
      + rewrite ES in ST. cbn in ST. injection ST as <- <-. exists h, (mkMap None (count s)). repeat split; auto; apply FR.
      + rewrite ES in ST. cbn in ST. injection ST as <- <-. exists h, (mkMap None (count s)). repeat split; auto; apply FR.
      + rewrite ES in ST. cbn in ST. injection ST as <- <-. exists h, (mkMap None (count s)). repeat split; auto; apply FR.
      + injection ST as <- <-. exists h, (mkMap None 0). repeat split; auto; apply FR.
      + rewrite ES in ST. cbn in ST. injection ST as <- <-. exists h, (mkMap None (count s)). repeat split; auto; apply FR.
      + rewrite ES in ST. cbn in ST. injection ST as <- <-. exists h, (mkMap None (count s)). repeat split; auto; apply FR.
      + rewrite ES in ST. cbn in ST. injection ST as <- <-. exists h, (mkMap None (count s)). repeat split; auto; apply FR.
  Qed.

  (** With a lawful order nothing is lost. *)
  Lemma never_lost (s : slots K V) o s' a : slot_step cmp s o = Some (s', a) -> lost cmp s o a = false.
  Proof.
    destruct o as [| k | | | | | | | |]; try reflexivity. cbn [slot_step]. destruct (seek cmp k (all_slots s) 0) as [i|] eqn:SK.
    - set (s1 := match live_index cmp k (live s) 0 with Some i => take_out s i | None => s end).
      assert (exists e', nth_error (all_slots s1) i = Some (Some e')) as (e' & NE').
      { unfold s1. pose proof (seek_live k (live s) (rest s) 0) as SL. fold (all_slots s) in SL.
        destruct (live_index cmp k (live s) 0) as [j|] eqn:LI.
        - rewrite SL in SK. injection SK as ->. apply live_index_lt in LI.
          destruct (nth_error (live s) i) as [e|] eqn:NI; [|apply nth_error_None in NI; lia].
          eapply take_out_slot; eauto.
        - destruct (seek_slot_value _ _ _ SK) as (e & NA & _). eauto. }
      intros E. injection E as _ <-. unfold slot_value. rewrite NE'. reflexivity.
    - intros E. injection E as _ <-. cbn [lost]. now rewrite SK.
  Qed.
  Theorem step_sim h m (s : slots K V) o s' a : rep h m s -> slot_step cmp s o = Some (s', a) ->
    exists h' m', exec cmp m o h = Ret ((m', a), h') /\ rep h' m' s' /\ frame h m h' m'.
  Proof. intros R ST. assert (X := step_any h m s o s' a R ST). now rewrite (never_lost _ _ _ _ ST) in X. Qed.

  Lemma frame_trans h0 m0 h1 m1 h2 m2 : frame h0 m0 h1 m1 -> frame h1 m1 h2 m2 -> frame h0 m0 h2 m2.
  Proof.
    intros (A1 & B1 & C1) (A2 & B2 & C2). split; [lia|]. split.
    - intros a Na La. rewrite B2; [now apply B1| |lia]. intros E. destruct (C1 _ E); [congruence|lia].
    - intros r E. destruct (C2 _ E) as [E1|]; [auto|right; lia].
  Qed.
  Theorem run_sim ops : forall h m (s : slots K V) s' rs, rep h m s -> slot_run cmp s ops = Some (s', rs) ->
    exists h' m', run cmp m ops h = Ret ((m', rs), h') /\ rep h' m' s' /\ frame h m h' m'.
  Proof.
    induction ops as [|o ops IH]; cbn [slot_run run]; intros h m s s' rs R H.
    - injection H as <- <-. exists h, m. split; [reflexivity|]. split; [auto|apply frame_refl].
    - destruct (slot_step cmp s o) as [[s1 a]|] eqn:E1; [|discriminate].
      destruct (slot_run cmp s1 ops) as [[s2 rs']|] eqn:E2; [|discriminate]. injection H as <- <-.
      destruct (step_sim _ _ _ _ _ _ R E1) as (h1 & m1 & X1 & R1 & F1).
      destruct (IH _ _ _ _ _ R1 E2) as (h2 & m2 & X2 & R2 & F2).
      exists h2, m2. split; [|split; [auto|eapply frame_trans; eauto]].
      erewrite mbind_Ret; [|exact X1]. cbn [fst snd]. erewrite mbind_Ret; [|exact X2]. reflexivity.
  Qed.
  Lemma rep_new h : rep h BTreeMapNew no_slots.
  Proof. repeat split. Qed.
End Leaf.
