(** BTreeGrowProofs.v -- the first split of the root, and how many keys fit. *)
From Verif Require Import Base BaseLemmas Effect CmpSpec VecSpec HashModel BTreeModel BTreeSpec BTreeHistory BTreeProofs BTreeMapProofs BTreeSafeProofs BTreeSplitProofs.
Local Open Scope nat_scope.

Section Grow.
  Context {K V : Type}.
  Variable cmp : K -> K -> ordering.
  Hypothesis lawful : total_preorder cmp.
  Implicit Types (nd : node K V) (h : heap K V) (s : slots K V) (k : K) (v : V).

  (** *** The twelfth key splits the root *)
  Lemma root_split h r c s k v front mx :
    rep h (mkMap (Some r) c) s -> live s = front ++ [mx] -> length front = 10 -> seek cmp k (all_slots s) 0 = None ->
    exists h' root' y' z',
      Insert cmp (mkMap (Some r) c) k v h = Ret ((mkMap (Some (length h)) (u64 (c + 1)), None), h') /\
      nth_error h' (length h) = Some root' /\ nth_error h' r = Some y' /\ nth_error h' (S (length h)) = Some z' /\
      (leaf root' = false /\ deg root' = 11 /\ n root' = 1 /\ srep root' (Some mx :: gaps 10) /\
       childs root' = Some r :: Some (S (length h)) :: repeat None 10) /\
      (leaf y' = true /\ deg y' = 0) /\ (leaf z' = true /\ deg z' = 0) /\
      if is (cmp (fst mx) k) Less
      then n y' = 10 /\ srep y' (map Some (front ++ [mx])) /\ n z' = 11 /\ srep z' (gaps 10 ++ [Some (k, v)])
      else n y' = 11 /\ srep y' (map Some (place cmp (k, v) front)) /\ n z' = 10 /\ srep z' (gaps 11).
  Proof.
    intros (HC & HR) EL LF SK. cbn [root len] in *. destruct HR as (nd & E & (L & D & N & CH & A & SR) & NE).
    assert (LL : length (live s) = 11) by (rewrite EL, app_length; cbn; lia).
    assert (AS : all_slots s = map Some (front ++ [mx])).
    { rewrite all_len in A. unfold all_slots. rewrite EL in *. destruct (rest s); [now rewrite app_nil_r|cbn in A; lia]. }
    rewrite AS in SR.
    assert (LT : r < length h) by (eapply nth_lt; eauto).
    unfold Insert. cbn [root].
    erewrite mbind_Ret; [|unfold fuel; rewrite (search_leaf cmp _ _ _ _ _ k E L SR), <- AS, SK; reflexivity]. cbn [option_map].
    rewrite (mbind_Ret _ _ _ _ _ (rd_Ret _ _ _ E)). rewrite N, LL. change (11 =? cap) with true. cbv iota zeta.
    erewrite mbind_Ret by reflexivity. erewrite mbind_Ret by reflexivity.
    set (nr := set_childs (new_node false cap) (list_set (childs (new_node false cap)) 0 (Some r))).
    destruct (splitChild_spec (h ++ [nr]) (length h) nr r nd [] [None] None (gaps 9) [Some r] [] None (repeat None 10)
                (map Some (front ++ [mx])) (Some mx)) as (root' & ESP & Q1 & Q2 & Q3 & Q4 & Q5); auto; try lia.
    { rewrite nth_error_app2, Nat.sub_diag by lia. reflexivity. }
    { rewrite nth_error_app1 by lia. auto. }
    { split; reflexivity. } { discriminate. }
    { rewrite map_app, nth_error_app2; rewrite map_length; [|lia]. rewrite LF. reflexivity. }
    cbn [length] in ESP. erewrite mbind_Ret by exact ESP.
    set (h1 := list_set (list_set (h ++ [nr]) r (set_n nd 10) ++ [fresh_half]) (length h) root') in *.
    assert (LH1 : length h1 = S (S (length h))) by (unfold h1; rewrite list_set_length, app_length, list_set_length, app_length; cbn; lia).
    assert (X1 : nth_error h1 (length h) = Some root').
    { unfold h1. apply nth_error_list_set_eq. rewrite app_length, list_set_length, app_length. cbn. lia. }
    assert (X2 : nth_error h1 r = Some (set_n nd 10)).
    { unfold h1. rewrite nth_error_list_set_neq by lia. rewrite nth_error_app1 by (rewrite list_set_length, app_length; lia).
      apply nth_error_list_set_eq. rewrite app_length. lia. }
    assert (X3 : nth_error h1 (S (length h)) = Some fresh_half).
    { unfold h1. rewrite nth_error_list_set_neq by lia. rewrite nth_error_app2; rewrite list_set_length, app_length; cbn [length]; [|lia].
      replace (S (length h) - (length h + 1)) with 0 by lia. reflexivity. }
    rewrite (mbind_Ret _ _ _ _ _ (rd_Ret _ _ _ X1)).
    cbn [app] in Q4. erewrite mbind_Ret by (apply lift_Ret; apply (idx_keys _ _ 0 (Some mx) Q4); reflexivity).
    cbn [option_map]. erewrite mbind_Ret by reflexivity.
    assert (Q5' : childs root' = Some r :: Some (S (length h)) :: repeat None 10).
    { rewrite Q5, app_length. cbn [app length]. rewrite Nat.add_1_r. reflexivity. }
    destruct (is (cmp (fst mx) k) Less) eqn:C.
    - erewrite mbind_Ret by (apply lift_Ret; unfold child, idx; rewrite Q5'; reflexivity).
      destruct (insert_gap cmp (length h1) h1 (S (length h)) fresh_half k v X3) as (z' & EZ & Z1 & Z2 & Z3 & Z4 & Z5); try reflexivity.
      { split; reflexivity. }
      exists (list_set h1 (S (length h)) z'), root', (set_n nd 10), z'.
      split; [erewrite mbind_Ret by exact EZ; cbn [len]; reflexivity|].
      split; [rewrite nth_error_list_set_neq by lia; auto|]. split; [rewrite nth_error_list_set_neq by lia; auto|].
      split; [apply nth_error_list_set_eq; lia|]. split; [cbn in Q1; auto|]. split; [auto|]. split; [auto|]. repeat split; auto; apply SR || apply Z5.
    - erewrite mbind_Ret by (apply lift_Ret; unfold child, idx; rewrite Q5'; reflexivity).
      destruct (insert_half cmp (length h1) h1 r (set_n nd 10) front (Some mx) [] k v X2) as (y' & EY & Y1 & Y2 & Y3 & Y4 & Y5); auto.
      { rewrite map_app in SR. exact SR. }
      exists (list_set h1 r y'), root', y', fresh_half.
      split; [erewrite mbind_Ret by exact EY; cbn [len]; reflexivity|].
      split; [rewrite nth_error_list_set_neq by lia; auto|]. split; [apply nth_error_list_set_eq; lia|].
      split; [rewrite nth_error_list_set_neq by lia; auto|]. split; [cbn in Q1; auto|]. cbn [set_n deg n] in Y2, Y3.
      rewrite app_nil_r in Y5. split; [split; congruence|]. split; [auto|]. repeat split; auto; apply Y5.
  Qed.

  (** *** How many keys fit *)
  (** c new keys were inserted. *)
  Definition grown (c : nat) h (m : BTreeMap) : Prop :=
    (c <= 11 /\ exists s, rep h m s /\ length (live s) = c) \/
    (12 <= c <= 21 /\ exists r, root m = Some r /\ tall h r (c - 11)).

  Lemma tall_length h r m : tall h r m -> exists f, length h = S f.
  Proof. intros (rn & _ & E & _). apply nth_lt in E. destruct (length h); [lia|eauto]. Qed.

  (** An update of the value of a found key does not change the shape. *)
  Lemma tall_update h r m a nd vs : tall h r m -> nth_error h a = Some nd ->
    (exists S, srep (mkNode (leaf nd) (deg nd) (keys nd) vs (n nd) (childs nd)) S /\ length S = 11) ->
    tall (list_set h a (mkNode (leaf nd) (deg nd) (keys nd) vs (n nd) (childs nd))) r m.
  Proof.
    intros (rn & SS & E & L & D & N & R & LS & LC & C1 & C2) Ea (S' & R' & LS').
    assert (LT := nth_lt _ _ _ Ea).
    assert (CH : forall i c, nth_error (childs rn) i = Some (Some c) -> leaf_at (list_set h a (mkNode (leaf nd) (deg nd) (keys nd) vs (n nd) (childs nd))) c).
    { intros j c NC. apply leaf_at_set; [eauto|]. intros <-. destruct (C2 _ _ NC) as (x & Ex & (Lx & Dx & _)).
      assert (x = nd) by congruence. subst x. split; [auto|]. split; [auto|]. eauto. }
    destruct (Nat.eq_dec a r) as [->|NE].
    - assert (rn = nd) by congruence. subst rn. eexists _, S'. rewrite nth_error_list_set_eq by auto.
      split; [reflexivity|]. cbn [leaf deg n childs]. auto 10.
    - exists rn, SS. rewrite nth_error_list_set_neq by auto. auto 10.
  Qed.

  (** Every node that a tall tree reaches keeps keys and values together. *)
  Lemma search_tall_found f h r m k a i : tall h r m -> search cmp (S (S f)) h r k = Ret (Some (a, i)) ->
    exists nd S e, nth_error h a = Some nd /\ srep nd S /\ length S = 11 /\ nth_error S i = Some (Some e).
  Proof.
    intros T H. pose proof (search_found cmp _ _ _ _ _ _ H) as (nd & k' & E & NK & _).
    assert (exists S, srep nd S /\ length S = 11) as (S & R & LS).
    { destruct T as (rn & SS & Er & L & D & N & R & LS & LC & C1 & C2).
      remember (Datatypes.S f) as f1. cbn [search] in H. unfold idx at 1 in H. rewrite Er in H. cbn [of_option bind] in H. cbv zeta in H.
      set (j := scan cmp k (keys rn) 0) in *.
      assert (REC : (if leaf rn then Ret None else c <- idx (childs rn) j ;; match c with Some c' => search cmp f1 h c' k | None => Ret None end) = Ret (Some (a, i)) ->
         exists S, srep nd S /\ length S = 11).
      { rewrite L. unfold idx. destruct (nth_error (childs rn) j) as [[c|]|] eqn:NC; cbn [of_option bind]; try discriminate.
        destruct (C2 _ _ NC) as (x & Ex & (Lx & Dx & Sx & Rx & LSx)). subst f1. rewrite (search_leaf cmp _ _ _ _ _ _ Ex Lx Rx).
        destruct (seek _ _ _ _); cbn; [|discriminate]. intros Q. injection Q as <- <-. assert (x = nd) by congruence. subst. eauto. }
      destruct (nth_error (keys rn) j) as [[k0|]|]; auto.
      destruct (is _ _); auto. injection H as <- <-. assert (rn = nd) by congruence. subst. eauto. }
    destruct R as [Rk Rv]. rewrite Rk, nth_error_map in NK. destruct (nth_error S i) as [[e|]|] eqn:NS; cbn in NK; try discriminate.
    exists nd, S, e. repeat split; auto.
  Qed.

  Theorem insert_grown c h m k v : grown c h m ->
    (exists h' m' w, Insert cmp m k v h = Ret ((m', Some w), h') /\ grown c h' m' /\ ContainsKey cmp m k h = Ret true) \/
    (ContainsKey cmp m k h = Ret false /\
     ((c < 21 /\ exists h' m', Insert cmp m k v h = Ret ((m', None), h') /\ grown (S c) h' m') \/
      (c = 21 /\ Insert cmp m k v h = Panic))).
  Proof.
    intros [(LE & s & R & LV)|(LE & r & ER & T)].
    - assert (CK : ContainsKey cmp m k h = Ret (is_some (seek cmp k (all_slots s) 0))).
      { destruct (step_sim cmp lawful h m s (BContainsKey k) _ _ R eq_refl) as (h' & m' & X & _).
        cbn [exec] in X. unfold asking in X. destruct (ContainsKey cmp m k h) as [b| |]; cbn in X; congruence. }
      destruct (seek cmp k (all_slots s) 0) as [i|] eqn:SK; cbn in CK.
      + left. destruct (step_sim cmp lawful h m s (BInsert k v) (revalue s i v) (Value (slot_value (all_slots s) i)) R) as (h' & m' & X & R' & _).
        { cbn. now rewrite SK. }
        destruct (seek_slot_value _ _ _ _ SK) as (e & _ & SV). rewrite SV in X.
        exists h', m', (snd e). cbn [exec] in X. unfold mbind in X. destruct (Insert cmp m k v h) as [[[m1 o] h1]| |]; cbn in X; try discriminate.
        injection X as -> -> ->. split; [reflexivity|]. split; [|auto]. left. split; [auto|]. exists (revalue s i v). split; [auto|].
        now rewrite live_revalue_length.
      + right. split; [auto|]. left. split; [lia|]. destruct (Nat.eq_dec c 11) as [->|NE].
        * destruct m as [[r|] ln].
          2:{ destruct R as (_ & EV & _). cbn in EV. rewrite EV in LV. discriminate. }
          assert (exists front mx, live s = front ++ [mx]) as (front & mx & EF).
          { destruct (exists_last (l := live s)) as (f & x & ->); [intros Z; rewrite Z in LV; discriminate|eauto]. }
          assert (LF : length front = 10) by (rewrite EF, app_length in LV; cbn in LV; lia).
          destruct (root_split h r ln s k v front mx R EF LF SK) as (h' & root' & y' & z' & EI & X1 & X2 & X3 & (Q1 & Q2 & Q3 & Q4 & Q5) & (Y1 & Y2) & (Z1 & Z2) & FIN).
          eexists _, _. split; [exact EI|]. right. split; [lia|]. exists (length h). split; [reflexivity|].
          assert (LY : leaf_at h' r).
          { exists y'. split; [auto|]. split; [auto|]. split; [auto|]. destruct (is _ _); destruct FIN as (_ & F2 & _); eexists; (split; [exact F2|]).
            - rewrite map_length, app_length. cbn. lia.
            - rewrite map_length, place_length. lia. }
          assert (LZ : leaf_at h' (S (length h))).
          { exists z'. split; [auto|]. split; [auto|]. split; [auto|]. destruct (is _ _); destruct FIN as (_ & _ & _ & F2); eexists; (split; [exact F2|]); reflexivity. }
          exists root', (Some mx :: gaps 10). repeat (split; [now auto|]). split; [now rewrite Q5|].
          rewrite Q5. split.
          -- intros [|[|]] Hi; cbn; eauto. lia.
          -- intros [|[|i]] c0 H0; cbn in H0; try (injection H0 as <-; assumption).
             exfalso. assert (In (Some c0) (repeat None 10)) by (eapply nth_error_In; exact H0). apply repeat_spec in H. discriminate.
        * destruct (step_sim cmp lawful h m s (BInsert k v) (mkSlots (place cmp (k, v) (live s)) (tl (rest s)) (match live s with [] => 1%Z | _ => wrap64 (count s + 1) end)) (Value None) R) as (h' & m' & X & R' & _).
          { cbn. rewrite SK. rewrite (proj2 (Nat.eqb_neq _ _)); [reflexivity|lia]. }
          exists h', m'. cbn [exec] in X. unfold mbind in X. destruct (Insert cmp m k v h) as [[[m1 o] h1]| |]; cbn in X; try discriminate.
          injection X as -> -> ->. split; [reflexivity|]. left. split; [lia|]. eexists. split; [exact R'|]. cbn [live]. rewrite place_length. lia.
    - destruct (tall_length _ _ _ T) as (f & LH).
      assert (FU : fuel h = S (S f)) by (unfold fuel; now rewrite LH).
      destruct (search_tall cmp f h r (c - 11) k T) as (x & EX).
      unfold Insert, ContainsKey. rewrite ER. rewrite FU, EX. cbn [bind].
      destruct x as [[a i]|].
      + left. destruct (search_tall_found f h r (c - 11) k a i T EX) as (nd & S & e & E & R & LS & NS).
        assert (LI : i < length (values nd)) by (destruct R as [_ ->]; rewrite map_length; eapply nth_lt; eauto).
        eexists _, m, (snd e). split; [|split; [|reflexivity]].
        * erewrite mbind_Ret; [|rewrite FU, EX; reflexivity]. cbv iota beta.
          rewrite (mbind_Ret _ _ _ _ _ (rd_Ret _ _ _ E)).
          erewrite mbind_Ret by (apply lift_Ret; apply (idx_values _ _ _ _ R NS)).
          erewrite mbind_Ret by (apply lift_Ret; apply upd_Ret; exact LI).
          erewrite mbind_Ret by (apply wr_Ret; eapply nth_lt; eauto).
          cbn [option_map]. erewrite mbind_Ret by reflexivity. reflexivity.
        * right. split; [auto|]. exists r. split; [auto|]. eapply tall_update; eauto.
          exists (list_set S i (Some (fst e, v))). split; [|now rewrite list_set_length].
             destruct R as [Rk Rv]. split; cbn [keys values]; rewrite map_list_set; cbn [option_map fst snd]; [|congruence].
             rewrite Rk. symmetry. apply list_set_same. now rewrite nth_error_map, NS.
      + right. split; [reflexivity|].
        assert (T' := T). destruct T' as (rn & SS & E & L & D & N & R & LS & LC & C1 & C2).
        assert (NC : (n rn =? cap) = false) by (apply Nat.eqb_neq; unfold cap, B; lia).
        destruct (Nat.eq_dec c 21) as [->|NE].
        * right. split; [auto|]. erewrite mbind_Ret; [|rewrite FU, EX; reflexivity]. cbv iota beta.
          rewrite (mbind_Ret _ _ _ _ _ (rd_Ret _ _ _ E)). rewrite NC. apply mbind_Panic. unfold fuel. now apply insert_tall_full.
        * left. split; [lia|]. destruct (insert_tall cmp f h r (c - 11) k v T) as (h' & EI & T'); [lia|].
          exists h', (mkMap (Some r) (u64 (len m + 1))). split.
          -- erewrite mbind_Ret; [|rewrite FU, EX; reflexivity]. cbv iota beta.
             rewrite (mbind_Ret _ _ _ _ _ (rd_Ret _ _ _ E)). rewrite NC. erewrite mbind_Ret; [|rewrite FU; exact EI]. reflexivity.
          -- right. split; [lia|]. exists r. split; [reflexivity|]. now replace (S c - 11) with (S (c - 11)) by lia.
  Qed.

  (** *** Sequences of insertions *)
  Definition inserts (kvs : list (K * V)) : list (bop K V) := map (fun e => BInsert (fst e) (snd e)) kvs.
  Definition known (reps : list K) (k : K) (_ : V) : Prop := exists r, In r reps /\ cmp k r = Equal.
  Lemma known_equal reps k k' v : cmp k k' = Equal -> known reps k v <-> known reps k' v.
  Proof.
    intros E. unfold known. split; intros (r & I & C); exists r; split; auto.
    - now rewrite <- (Equal_cmp cmp lawful _ _ r E).
    - now rewrite (Equal_cmp cmp lawful _ _ r E).
  Qed.
  Lemma all_good_mono (P Q : K -> V -> Prop) h : (forall k v, P k v -> Q k v) -> all_good P h -> all_good Q h.
  Proof. intros PQ G a nd E. destruct (G a nd E) as (S & R & H). exists S. auto. Qed.
  Lemma contains_good (P : K -> V -> Prop) m k h : (forall k k' v, cmp k k' = Equal -> P k v <-> P k' v) -> all_good P h -> ContainsKey cmp m k h = Ret true -> exists v, P k v.
  Proof.
    intros PE G H. unfold ContainsKey in H. destruct (root m) as [r|]; [|discriminate].
    pose proof (search_good cmp P (fuel h) h r k G) as Y.
    destruct (search cmp (fuel h) h r k) as [[[a i]|]| |]; cbn in *; try discriminate.
    destruct Y as (nd & e & _ & _ & _ & C & HP). exists (snd e). now apply (PE _ _ _ C).
  Qed.
  Lemma inserts_run kvs : forall h m c reps, grown c h m -> length reps = c -> all_good (known reps) h ->
    (exists h' m' rs c' reps', run cmp m (inserts kvs) h = Ret ((m', rs), h') /\ grown c' h' m' /\ c' <= c + length kvs /\
       length reps' = c' /\ (forall r, In r reps -> In r reps') /\
       (forall k v, In (k, v) kvs -> exists r, In r reps' /\ cmp k r = Equal)) \/
    (run cmp m (inserts kvs) h = Panic /\ 21 < c + length kvs).
  Proof.
    induction kvs as [|[k v] kvs IH]; intros h m c reps G LR AG.
    - left. exists h, m, [], c, reps. cbn. repeat split; auto; try lia.
    - cbn [inserts map run exec fst snd length]. fold (inserts kvs).
      assert (EX : forall m' o h', Insert cmp m k v h = Ret ((m', o), h') ->
         (r <~ Insert cmp m k v ;; mret (fst r, @Value K V (snd r))) h = Ret ((m', Value o), h')) by (intros; now apply exec_res).
      destruct (insert_grown c h m k v G) as [(h1 & m1 & w & E1 & G1 & CK)|(CK & [(LC & h1 & m1 & E1 & G1)|(-> & EP)])].
      + assert (KN : known reps k v).
        { destruct (contains_good (known reps) m k h (known_equal reps) AG CK) as (w' & KN). exact KN. }
        assert (AG1 : all_good (known reps) h1).
        { pose proof (triple_Insert cmp (known reps) (known_equal reps) m k v KN h AG) as T. rewrite E1 in T. apply T. }
        destruct (IH h1 m1 c reps G1 LR AG1) as [(h' & m' & rs & c' & reps' & E' & G' & LC' & LR' & IN & AL)|(EP & LC')].
        * left. exists h', m', (Value (Some w) :: rs), c', reps'. split.
          { erewrite mbind_Ret by (apply EX; exact E1). cbn [fst snd]. erewrite mbind_Ret by exact E'. reflexivity. }
          repeat split; auto; try lia. intros k0 v0 [E0|I0]; [|eauto]. injection E0 as <- <-. destruct KN as (r & I & C). eauto.
        * right. split; [|lia]. erewrite mbind_Ret by (apply EX; exact E1). cbn [fst snd]. now apply mbind_Panic.
      + assert (KN : known (k :: reps) k v) by (exists k; split; [cbn; auto|apply cmp_refl; auto]).
        assert (AG1 : all_good (known (k :: reps)) h1).
        { assert (AG0 : all_good (known (k :: reps)) h).
          { eapply all_good_mono; [|exact AG]. intros k0 v0 (r & I & C). exists r. cbn; auto. }
          pose proof (triple_Insert cmp (known (k :: reps)) (known_equal (k :: reps)) m k v KN h AG0) as T. rewrite E1 in T. apply T. }
        destruct (IH h1 m1 (S c) (k :: reps) G1) as [(h' & m' & rs & c' & reps' & E' & G' & LC' & LR' & IN & AL)|(EP & LC')]; auto.
        { cbn. lia. }
        * left. exists h', m', (Value None :: rs), c', reps'. split.
          { erewrite mbind_Ret by (apply EX; exact E1). cbn [fst snd]. erewrite mbind_Ret by exact E'. reflexivity. }
          repeat split; auto; try lia. { intros r I. apply IN. cbn; auto. }
          intros k0 v0 [E0|I0]; [|eauto]. injection E0 as <- <-. exists k. split; [apply IN; cbn; auto|apply cmp_refl; auto].
        * right. split; [|lia]. erewrite mbind_Ret by (apply EX; exact E1). cbn [fst snd]. now apply mbind_Panic.
      + right. split; [|lia]. apply mbind_Panic, mbind_Panic. exact EP.
  Qed.

  (** Pairwise different keys that are all represented need as many representatives. *)
  Lemma pigeon (ks reps : list K) : ForallOrdPairs (fun a b => cmp a b <> Equal) ks ->
    (forall k, In k ks -> exists r, In r reps /\ cmp k r = Equal) -> length ks <= length reps.
  Proof.
    revert reps. induction ks as [|k ks IH]; intros reps D H; cbn; [lia|].
    inversion_clear D as [|? ? D1 D2]. destruct (H k) as (r & I & C); [cbn; auto|].
    apply in_split in I. destruct I as (r1 & r2 & ->). rewrite app_length. cbn.
    enough (length ks <= length (r1 ++ r2)) by (rewrite app_length in *; lia).
    apply IH; auto. intros k' I'. destruct (H k') as (r' & J & C'); [cbn; auto|]. exists r'. split; [|auto].
    apply in_app_iff in J. apply in_app_iff. destruct J as [J|[J|J]]; auto. subst r'. exfalso.
    rewrite Forall_forall in D1. apply (D1 _ I'). rewrite (Equal_cmp_r cmp lawful _ _ k C'). auto.
  Qed.
  Lemma grown_new h : grown 0 h BTreeMapNew.
  Proof. left. split; [lia|]. exists no_slots. split; [apply rep_new|reflexivity]. Qed.
  Lemma grown_bound c h m : grown c h m -> c <= 21.
  Proof. intros [(H & _)|(H & _)]; lia. Qed.

  Theorem insert_up_to_21 kvs : length kvs <= 21 -> exists r, run cmp BTreeMapNew (inserts kvs) [] = Ret r.
  Proof.
    intros L. destruct (inserts_run kvs [] BTreeMapNew 0 []) as [(h' & m' & rs & c' & reps' & E & _)|(_ & LE)]; eauto.
    - apply grown_new.
    - intros a nd E. destruct a; discriminate.
    - cbn in LE. lia.
  Qed.
  Theorem insert_22 kvs ks : (forall k, In k ks -> In k (map fst kvs)) -> ForallOrdPairs (fun a b => cmp a b <> Equal) ks -> 22 <= length ks ->
    run cmp BTreeMapNew (inserts kvs) [] = Panic.
  Proof.
    intros IN D L. destruct (inserts_run kvs [] BTreeMapNew 0 []) as [(h' & m' & rs & c' & reps' & E & G & _ & LR & _ & AL)|(E & _)]; auto.
    - apply grown_new.
    - intros a nd E. destruct a; discriminate.
    - exfalso. apply grown_bound in G. assert (length ks <= length reps'); [|lia]. apply pigeon; auto.
      intros k I. apply IN in I. apply in_map_iff in I. destruct I as ([k' v] & <- & I). eauto.
  Qed.
End Grow.
