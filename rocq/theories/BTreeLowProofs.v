(** BTreeLowProofs.v -- trees whose new keys go to the left: right up to 21 keys. *)
From Verif Require Import Base BaseLemmas Effect CmpSpec VecSpec HashModel BTreeModel BTreeSpec BTreeHistory BTreeProofs BTreeMapProofs BTreeSafeProofs BTreeSplitProofs BTreeGrowProofs.
Local Open Scope nat_scope.

Section Low.
  Context {K V : Type}.
  Variable cmp : K -> K -> ordering.
  Hypothesis lawful : total_preorder cmp.
  Implicit Types (nd : node K V) (h : heap K V) (s : slots K V) (k : K) (v : V) (l : list (K * V)).

  (** *** More about ordered lists *)
  Lemma found_in l a k0 v0 b k v : sorted cmp l -> l = a ++ (k0, v0) :: b -> cmp k k0 = Equal ->
    get cmp k l = Some v0 /\ put cmp k v l = a ++ (k0, v) :: b.
  Proof.
    intros SO -> C. apply sorted_app in SO. destruct SO as (SA & SB & SAB).
    assert (A : forall x, In x a -> cmp k (fst x) = Greater).
    { intros x I. rewrite (Equal_cmp cmp lawful _ _ (fst x) C). apply (Greater_Less cmp lawful). apply (SAB x (k0, v0)); cbn; auto. }
    rewrite get_app_greater, put_app_greater by auto. cbn. rewrite C. auto.
  Qed.
  Lemma not_in l k : (forall e, In e l -> cmp k (fst e) <> Equal) -> get cmp k l = None.
  Proof.
    induction l as [|[k0 v0] l IH]; intros H; cbn; auto.
    pose proof (H (k0, v0) (or_introl eq_refl)) as H0. cbn in H0. destruct (cmp k k0); try congruence; apply IH; intros e I; apply H; cbn; auto.
  Qed.
  Lemma get_None l k : get cmp k l = None -> forall e, In e l -> cmp k (fst e) <> Equal.
  Proof.
    induction l as [|[k0 v0] l IH]; cbn; intros H e; [tauto|]. intros [<-|I]; cbn.
    - destruct (cmp k k0); congruence.
    - apply IH; auto. destruct (cmp k k0); congruence.
  Qed.
  Lemma put_app_less k v a b : (forall x, In x b -> cmp k (fst x) = Less) -> put cmp k v (a ++ b) = put cmp k v a ++ b.
  Proof.
    intros H. induction a as [|[k0 v0] a IH]; cbn.
    - destruct b as [|[k1 v1] b]; auto. cbn. now rewrite (H (k1, v1) (or_introl eq_refl) : cmp k k1 = _).
    - destruct (cmp k k0); auto. cbn. now rewrite IH.
  Qed.
  Lemma put_place k v l : sorted cmp l -> get cmp k l = None -> put cmp k v l = place cmp (k, v) l.
  Proof.
    intros SO G. destruct (key_cases cmp lawful k v l 0 SO) as [(a & k0 & v0 & b & H)|(a & b & H)]; decompose [and] H; congruence.
  Qed.
  Lemma seek_sorted l k : sorted cmp l ->
    (exists a e b, l = a ++ e :: b /\ cmp k (fst e) = Equal /\ seek cmp k (map Some l) 0 = Some (length a)) \/
    ((forall e, In e l -> cmp k (fst e) <> Equal) /\ seek cmp k (map Some l) 0 = None).
  Proof.
    intros SO. destruct l as [|e0 l0]; [right; split; auto; intros e []|]. set (l := e0 :: l0) in *.
    destruct (key_cases cmp lawful k (snd e0) l 0 SO) as [(a & k0 & v0 & b & H)|(a & b & H)]; decompose [and] H.
    - left. exists a, (k0, v0), b. cbn in H1. rewrite app_nil_r in H1. auto.
    - right. cbn in H2. rewrite app_nil_r in H2. split; [|auto]. now apply get_None.
  Qed.

  (** *** The tree *)
  Definition empty_leaf h z : Prop := exists zn, nth_error h z = Some zn /\ leaf zn = true /\ deg zn = 0 /\ n zn = 10 /\ srep zn (gaps 11).
  Record low h (m : BTreeMap) (lo hi : list (K * V)) (r y : nat) (rn yn : node K V) (zs : list nat) : Prop := {
    lw_len : len m = Z.of_nat (length (lo ++ hi));
    lw_root : root m = Some r;
    lw_lo : length lo = 11;
    lw_hi : 1 <= length hi <= 10;
    lw_sorted : sorted cmp (lo ++ hi);
    lw_r : nth_error h r = Some rn;
    lw_rn : leaf rn = false /\ deg rn = 11 /\ n rn = length hi;
    lw_rs : srep rn (map Some hi ++ gaps (11 - length hi));
    lw_childs : childs rn = Some y :: map Some zs ++ repeat None (11 - length zs);
    lw_zs : length zs = length hi;
    lw_y : nth_error h y = Some yn;
    lw_yn : leaf yn = true /\ deg yn = 0 /\ n yn = 11;
    lw_ys : srep yn (map Some lo);
    lw_empty : forall z, In z zs -> empty_leaf h z }.

  Lemma scan_app k (a : list (K * V)) t i : (forall x, In x a -> cmp k (fst x) = Greater) ->
    scan cmp k (map (option_map fst) (map Some a ++ t)) i = scan cmp k (map (option_map fst) t) (i + length a).
  Proof.
    revert i; induction a as [|e a IH]; intros i H; cbn [map app scan length option_map]; [now rewrite Nat.add_0_r|].
    rewrite (H e (or_introl eq_refl)). cbn [is]. rewrite IH by (intros x I; apply H; cbn; auto). f_equal. lia.
  Qed.
  Lemma low_search f h m lo hi r y rn yn zs k : low h m lo hi r y rn yn zs ->
    (exists a e b, hi = a ++ e :: b /\ cmp k (fst e) = Equal /\ search cmp (S (S f)) h r k = Ret (Some (r, length a))) \/
    (exists a e b, lo = a ++ e :: b /\ cmp k (fst e) = Equal /\ search cmp (S (S f)) h r k = Ret (Some (y, length a))) \/
    ((forall e, In e (lo ++ hi) -> cmp k (fst e) <> Equal) /\ search cmp (S (S f)) h r k = Ret None).
  Proof.
    intros W. destruct (lw_rn _ _ _ _ _ _ _ _ _ W) as (L & D & N). pose proof (lw_rs _ _ _ _ _ _ _ _ _ W) as R.
    destruct (lw_yn _ _ _ _ _ _ _ _ _ W) as (YL & _ & _). pose proof (lw_ys _ _ _ _ _ _ _ _ _ W) as YR.
    pose proof (lw_sorted _ _ _ _ _ _ _ _ _ W) as SO. apply sorted_app in SO. destruct SO as (SLO & SHI & SLH).
    pose proof (lw_hi _ _ _ _ _ _ _ _ _ W) as LHI. pose proof (lw_zs _ _ _ _ _ _ _ _ _ W) as LZ.
    remember (S f) as f1. cbn [search]. assert (EI : idx h r = Ret rn) by (unfold idx; now rewrite (lw_r _ _ _ _ _ _ _ _ _ W)). rewrite EI. cbn [bind]. cbv zeta. rewrite L.
    destruct (split_at cmp lawful k hi SHI) as (a & b & EH & A & B).
    assert (ES : map Some hi ++ gaps (11 - length hi) = map Some a ++ map Some b ++ gaps (11 - length hi)).
    { rewrite EH at 1. now rewrite map_app, <- app_assoc. }
    assert (SC : scan cmp k (keys rn) 0 = length a).
    { destruct R as [-> _]. rewrite ES, scan_app by auto. cbn [Nat.add].
      destruct b as [|e b]; cbn [map app option_map].
      - destruct (11 - length hi) as [|g] eqn:G; [lia|]. reflexivity.
      - destruct B as (B1 & _). cbn [scan]. destruct (cmp k (fst e)); try reflexivity. congruence. }
    rewrite SC.
    assert (NK : nth_error (keys rn) (length a) = Some (option_map fst (hd_error b))).
    { destruct R as [-> _]. rewrite nth_error_map, ES, nth_error_app2 by (rewrite map_length; lia).
      rewrite map_length, Nat.sub_diag. destruct b as [|e b]; cbn [map app hd_error]; [|reflexivity].
      destruct (11 - length hi) as [|g] eqn:G; [lia|]. reflexivity. }
    rewrite NK.
    assert (DOWN : (forall e, In e hi -> cmp k (fst e) <> Equal) ->
      (exists a0 e b0, lo = a0 ++ e :: b0 /\ cmp k (fst e) = Equal /\ (c <- idx (childs rn) (length a) ;; match c with Some c' => search cmp f1 h c' k | None => Ret None end) = Ret (Some (y, length a0))) \/
      ((forall e, In e (lo ++ hi) -> cmp k (fst e) <> Equal) /\ (c <- idx (childs rn) (length a) ;; match c with Some c' => search cmp f1 h c' k | None => Ret None end) = Ret None)).
    { intros NH. unfold idx. rewrite (lw_childs _ _ _ _ _ _ _ _ _ W). subst f1.
      destruct a as [|e0 a']; cbn [length nth_error].
      - cbn [of_option bind]. rewrite (search_leaf cmp _ _ _ _ _ _ (lw_y _ _ _ _ _ _ _ _ _ W) YL YR).
        destruct (seek_sorted lo k SLO) as [(a0 & e & b0 & E & C & SK)|(NL & SK)]; rewrite SK.
        + left. exists a0, e, b0. auto.
        + right. split; [|reflexivity]. intros e I. apply in_app_iff in I. destruct I; auto.
      - right. split.
        + intros e I. apply in_app_iff in I. destruct I as [I|I]; [|auto].
          (* k is above e0, hence above everything in lo *)
          assert (I0 : In e0 hi) by (rewrite EH; cbn; auto).
          pose proof (SLH e e0 I I0) as H1. pose proof (A e0 (or_introl eq_refl)) as H2. apply (Greater_Less cmp lawful) in H2.
          pose proof (Less_trans cmp lawful _ _ _ H1 H2) as H3. intros Q. rewrite (cmp_flip cmp lawful), Q in H3. discriminate.
        + assert (LA : length a' < length zs) by (rewrite LZ, EH; cbn; rewrite app_length; lia).
          rewrite nth_error_app1 by (rewrite map_length; lia). rewrite nth_error_map.
          destruct (nth_error zs (length a')) as [z|] eqn:NZ; [|apply nth_error_None in NZ; lia]. cbn [option_map of_option bind].
          destruct (lw_empty _ _ _ _ _ _ _ _ _ W z (nth_error_In _ _ NZ)) as (zn & Ez & Lz & _ & _ & Rz).
          rewrite (search_leaf cmp _ _ _ _ _ _ Ez Lz Rz). reflexivity. }
    destruct b as [|e b]; cbn [hd_error option_map].
    - right. apply DOWN. intros e I. rewrite EH, app_nil_r in I. rewrite A by auto. discriminate.
    - destruct B as (B1 & B2). destruct (cmp k (fst e)) eqn:C; [| |congruence]; cbn [is].
      + right. apply DOWN. intros e' I. rewrite EH in I. apply in_app_iff in I. destruct I as [I|[<-|I]]; [rewrite A by auto|congruence|rewrite B2 by auto]; discriminate.
      + left. exists a, e, b. rewrite EH. auto.
  Qed.

  (** *** Updating a value *)
  Definition newval nd i v : node K V := mkNode (leaf nd) (deg nd) (keys nd) (list_set (values nd) i (Some v)) (n nd) (childs nd).
  Lemma update_slot nd S i e v : srep nd S -> nth_error S i = Some (Some e) ->
    srep (newval nd i v) (list_set S i (Some (fst e, v))).
  Proof.
    intros [Rk Rv] NS. split; cbn [newval keys values]; rewrite map_list_set; cbn [option_map fst snd]; [|congruence].
    rewrite Rk. symmetry. apply list_set_same. now rewrite nth_error_map, NS.
  Qed.
  Lemma Insert_found h m r k v a i nd S e : root m = Some r -> search cmp (fuel h) h r k = Ret (Some (a, i)) ->
    nth_error h a = Some nd -> srep nd S -> nth_error S i = Some (Some e) ->
    Insert cmp m k v h = Ret ((m, Some (snd e)),
       list_set h a (newval nd i v)).
  Proof.
    intros ER EX E R NS. unfold Insert. rewrite ER.
    assert (LI : i < length (values nd)) by (destruct R as [_ ->]; rewrite map_length; eapply nth_lt; eauto).
    erewrite mbind_Ret; [|rewrite EX; reflexivity]. cbv iota beta.
    rewrite (mbind_Ret _ _ _ _ _ (rd_Ret _ _ _ E)).
    erewrite mbind_Ret by (apply lift_Ret; apply (idx_values _ _ _ _ R NS)).
    erewrite mbind_Ret by (apply lift_Ret; apply upd_Ret; exact LI).
    erewrite mbind_Ret by (apply wr_Ret; eapply nth_lt; eauto).
    cbn [option_map]. erewrite mbind_Ret by reflexivity. reflexivity.
  Qed.
  Lemma split_slots (a : list (K * V)) e b t : map Some (a ++ e :: b) ++ t = map Some a ++ Some e :: map Some b ++ t.
  Proof. now rewrite map_app, <- app_assoc. Qed.
  Lemma nth_split (a : list (K * V)) e b t : nth_error (map Some (a ++ e :: b) ++ t) (length a) = Some (Some e).
  Proof. rewrite split_slots, nth_error_app2 by (rewrite map_length; lia). now rewrite map_length, Nat.sub_diag. Qed.
  Lemma set_split (a : list (K * V)) e b t x : list_set (map Some (a ++ e :: b) ++ t) (length a) (Some x) = map Some (a ++ x :: b) ++ t.
  Proof.
    rewrite !split_slots, list_set_app2 by (rewrite map_length; lia). now rewrite map_length, Nat.sub_diag.
  Qed.

  Lemma low_fuel h m lo hi r y rn yn zs : low h m lo hi r y rn yn zs -> exists f, fuel h = S (S f).
  Proof. intros W. unfold fuel. pose proof (nth_lt _ _ _ (lw_r _ _ _ _ _ _ _ _ _ W)). destruct (length h); [lia|eauto]. Qed.
  Lemma low_y_r h m lo hi r y rn yn zs : low h m lo hi r y rn yn zs -> y <> r.
  Proof.
    intros W ->. pose proof (lw_r _ _ _ _ _ _ _ _ _ W) as E1. pose proof (lw_y _ _ _ _ _ _ _ _ _ W) as E2.
    pose proof (lw_rn _ _ _ _ _ _ _ _ _ W). pose proof (lw_yn _ _ _ _ _ _ _ _ _ W). assert (rn = yn) by congruence. subst. intuition congruence.
  Qed.
  Lemma low_z_r h m lo hi r y rn yn zs z : low h m lo hi r y rn yn zs -> In z zs -> z <> r /\ z <> y.
  Proof.
    intros W I. destruct (lw_empty _ _ _ _ _ _ _ _ _ W z I) as (zn & Ez & Lz & _ & _ & Rz). split; intros ->.
    - rewrite (lw_r _ _ _ _ _ _ _ _ _ W) in Ez. pose proof (lw_rn _ _ _ _ _ _ _ _ _ W). intuition congruence.
    - rewrite (lw_y _ _ _ _ _ _ _ _ _ W) in Ez. injection Ez as <-.
      destruct (lw_ys _ _ _ _ _ _ _ _ _ W) as [Y _]. destruct Rz as [Z _]. rewrite Y in Z.
      pose proof (lw_lo _ _ _ _ _ _ _ _ _ W). destruct lo; discriminate.
  Qed.

  (** Some tree of this kind holds l. *)
  Definition low_tree h m l : Prop := exists lo hi r y rn yn zs, l = lo ++ hi /\ low h m lo hi r y rn yn zs.

  Lemma low_insert_found h m l k v w : low_tree h m l -> get cmp k l = Some w ->
    exists h', Insert cmp m k v h = Ret ((m, Some w), h') /\ low_tree h' m (put cmp k v l).
  Proof.
    intros (lo & hi & r & y & rn & yn & zs & -> & W) G.
    destruct (low_fuel _ _ _ _ _ _ _ _ _ W) as (f & FU).
    pose proof (low_y_r _ _ _ _ _ _ _ _ _ W) as NYR.
    assert (SO := lw_sorted _ _ _ _ _ _ _ _ _ W).
    destruct (low_search f _ _ _ _ _ _ _ _ _ k W) as [(a & [k0 v0] & b & E & C & SE)|[(a & [k0 v0] & b & E & C & SE)|(NO & _)]].
    - destruct (found_in (lo ++ hi) (lo ++ a) k0 v0 b k v SO) as (G' & P); auto. { rewrite E. now rewrite app_assoc. }
      assert (w = v0) by congruence. subst w.
      pose proof (lw_rs _ _ _ _ _ _ _ _ _ W) as R. rewrite E in R.
      eexists. split.
      { eapply (Insert_found h m r k v r (length a) rn _ (k0, v0)); [apply W|rewrite FU; exact SE|apply W|exact R|apply nth_split]. }
      pose proof (update_slot rn _ (length a) (k0, v0) v R (nth_split _ _ _ _)) as R'. rewrite set_split in R'. cbn [fst] in R'.
      rewrite P. exists lo, (a ++ (k0, v) :: b), r, y, (newval rn (length a) v), yn, zs. split; [now rewrite <- app_assoc|].
      assert (LE : length (a ++ (k0, v) :: b) = length hi) by (rewrite E, !app_length; reflexivity).
      pose proof (put_sorted cmp lawful k v (lo ++ hi) SO) as SO'. rewrite P, <- app_assoc in SO'.
      constructor; try apply W; auto.
      + rewrite (lw_len _ _ _ _ _ _ _ _ _ W), (app_length lo hi), (app_length lo), LE. reflexivity.
      + rewrite LE. apply W.
      + apply nth_error_list_set_eq. eapply nth_lt. apply W.
      + cbn [newval leaf deg n]. rewrite LE. apply W.
      + rewrite E in LE. rewrite LE. exact R'.
      + rewrite LE. apply W.
      + rewrite nth_error_list_set_neq by auto. apply W.
      + intros z I. destruct (low_z_r _ _ _ _ _ _ _ _ _ z W I) as (N1 & N2).
        destruct (lw_empty _ _ _ _ _ _ _ _ _ W z I) as (zn & Ez & Hz). exists zn. rewrite nth_error_list_set_neq by auto. auto.
    - destruct (found_in (lo ++ hi) a k0 v0 (b ++ hi) k v SO) as (G' & P); auto. { rewrite E. now rewrite <- app_assoc. }
      assert (w = v0) by congruence. subst w.
      pose proof (lw_ys _ _ _ _ _ _ _ _ _ W) as R. rewrite E, <- (app_nil_r (map Some _)) in R.
      eexists. split.
      { eapply (Insert_found h m r k v y (length a) yn _ (k0, v0)); [apply W|rewrite FU; exact SE|apply W|exact R|apply nth_split]. }
      pose proof (update_slot yn _ (length a) (k0, v0) v R (nth_split _ _ _ _)) as R'. rewrite set_split, app_nil_r in R'. cbn [fst] in R'.
      rewrite P. exists (a ++ (k0, v) :: b), hi, r, y, rn, (newval yn (length a) v), zs. split; [now rewrite <- app_assoc|].
      assert (LE : length (a ++ (k0, v) :: b) = length lo) by (rewrite E, !app_length; reflexivity).
      pose proof (put_sorted cmp lawful k v (lo ++ hi) SO) as SO'. rewrite P in SO'.
      constructor; try apply W; auto.
      + rewrite (lw_len _ _ _ _ _ _ _ _ _ W), (app_length lo), (app_length (a ++ (k0, v) :: b)), LE. reflexivity.
      + rewrite LE. apply W.
      + rewrite <- app_assoc. exact SO'.
      + rewrite nth_error_list_set_neq by auto. apply W.
      + apply nth_error_list_set_eq. eapply nth_lt. apply W.
      + intros z I. destruct (low_z_r _ _ _ _ _ _ _ _ _ z W I) as (N1 & N2).
        destruct (lw_empty _ _ _ _ _ _ _ _ _ W z I) as (zn & Ez & Hz). exists zn. rewrite nth_error_list_set_neq by auto. auto.
    - rewrite (not_in _ _ NO) in G. discriminate.
  Qed.

  (** *** A new key on the left *)
  Lemma find_child_zero k (hi : list (K * V)) nd t : srep nd (map Some hi ++ t) -> (forall x, In x hi -> cmp (fst x) k = Greater) ->
    forall j, j <= length hi -> find_child cmp k j nd = Ret 0.
  Proof.
    intros R H. induction j as [|i IH]; intros J; [reflexivity|]. cbn [find_child].
    destruct (nth_error hi i) as [e|] eqn:N; [|apply nth_error_None in N; lia].
    assert (NS : nth_error (map Some hi ++ t) i = Some (Some e)).
    { rewrite nth_error_app1 by (rewrite map_length; lia). now rewrite nth_error_map, N. }
    rewrite (idx_keys _ _ _ _ R NS). cbn [bind option_map]. rewrite (H e) by (eapply nth_error_In; eauto). cbn [is]. apply IH. lia.
  Qed.
  Lemma low_insert_new h m l k v e : low_tree h m l -> get cmp k l = None -> length l <= 20 ->
    nth_error l 10 = Some e -> cmp k (fst e) = Less ->
    exists h', Insert cmp m k v h = Ret ((mkMap (root m) (u64 (len m + 1)), None), h') /\
               low_tree h' (mkMap (root m) (u64 (len m + 1))) (put cmp k v l).
  Proof.
    intros (lo & hi & r & y & rn & yn & zs & -> & W) G LL N10 C.
    destruct (low_fuel _ _ _ _ _ _ _ _ _ W) as (f & FU).
    pose proof (low_y_r _ _ _ _ _ _ _ _ _ W) as NYR.
    assert (SO := lw_sorted _ _ _ _ _ _ _ _ _ W). assert (LLO := lw_lo _ _ _ _ _ _ _ _ _ W). assert (LHI := lw_hi _ _ _ _ _ _ _ _ _ W).
    assert (LZ := lw_zs _ _ _ _ _ _ _ _ _ W). rewrite app_length in LL.
    destruct (lw_rn _ _ _ _ _ _ _ _ _ W) as (L & D & N). destruct (lw_yn _ _ _ _ _ _ _ _ _ W) as (YL & YD & YN).
    assert (exists front, lo = front ++ [e]) as (front & EF).
    { destruct (exists_last (l := lo)) as (f0 & x & E0); [intros ->; discriminate|]. exists f0. rewrite E0 in *.
      rewrite app_length in LLO. cbn in LLO. rewrite <- app_assoc, nth_error_app2 in N10 by lia.
      replace (10 - length f0) with 0 in N10 by lia. cbn in N10. congruence. }
    assert (LF : length front = 10) by (rewrite EF, app_length in LLO; cbn in LLO; lia).
    assert (BIG : forall x, In x (e :: hi) -> cmp k (fst x) = Less).
    { intros x [<-|I]; [auto|]. eapply (Less_trans cmp lawful); [exact C|]. apply sorted_app in SO. destruct SO as (_ & _ & H). apply H; auto. rewrite EF. apply in_app_iff. cbn; auto. }
    assert (NF : forall x, In x (lo ++ hi) -> cmp k (fst x) <> Equal) by now apply get_None.
    assert (SE : search cmp (fuel h) h r k = Ret None).
    { rewrite FU. destruct (low_search f _ _ _ _ _ _ _ _ _ k W) as [(a & e0 & b & E & C0 & SE)|[(a & e0 & b & E & C0 & SE)|(NO & SE)]]; auto; exfalso.
      - apply (NF e0); auto. rewrite E. apply in_app_iff. right. apply in_app_iff. cbn; auto.
      - apply (NF e0); auto. rewrite E. apply in_app_iff. left. apply in_app_iff. cbn; auto. }
    assert (Er := lw_r _ _ _ _ _ _ _ _ _ W). assert (Ey := lw_y _ _ _ _ _ _ _ _ _ W). assert (Rr := lw_rs _ _ _ _ _ _ _ _ _ W). assert (Ry := lw_ys _ _ _ _ _ _ _ _ _ W).
    assert (GS : gaps (K := K) (V := V) (11 - length hi) = [None] ++ None :: gaps (9 - length hi)).
    { replace (11 - length hi) with (S (S (9 - length hi))) by lia. reflexivity. }
    assert (CS : repeat (@None nat) (11 - length zs) = None :: repeat None (10 - length zs)).
    { replace (11 - length zs) with (S (10 - length zs)) by lia. reflexivity. }
    destruct (splitChild_spec h r rn y yn [] (map Some hi ++ [None]) None (gaps (9 - length hi)) [Some y] (map Some zs) None (repeat None (10 - length zs))
                (map Some lo) (Some e)) as (rn' & ESP & Q1 & Q2 & Q3 & Q4 & Q5); auto; try lia.
    { rewrite app_length, map_length. cbn. lia. }
    { rewrite GS in Rr. cbn [app]. rewrite <- app_assoc. exact Rr. }
    { destruct hi; discriminate. }
    { rewrite (lw_childs _ _ _ _ _ _ _ _ _ W), CS. reflexivity. }
    { cbn [length]. rewrite map_length. lia. }
    { rewrite EF, map_app, nth_error_app2; rewrite map_length; [|lia]. rewrite LF. reflexivity. }
    cbn [length] in ESP. cbn [app] in Q4, Q5.
    set (h1 := list_set (list_set h y (set_n yn 10) ++ [fresh_half]) r rn') in *.
    assert (LTr : r < length h) by (eapply nth_lt; eauto). assert (LTy : y < length h) by (eapply nth_lt; eauto).
    assert (Er1 : nth_error h1 r = Some rn').
    { unfold h1. apply nth_error_list_set_eq. rewrite app_length, list_set_length. lia. }
    assert (Ey1 : nth_error h1 y = Some (set_n yn 10)).
    { unfold h1. rewrite nth_error_list_set_neq by auto. rewrite nth_error_app1 by (rewrite list_set_length; lia). now apply nth_error_list_set_eq. }
    assert (En1 : nth_error h1 (length h) = Some fresh_half).
    { unfold h1. rewrite nth_error_list_set_neq by lia. rewrite nth_error_app2 by (rewrite list_set_length; lia). rewrite list_set_length, Nat.sub_diag. reflexivity. }
    assert (KEEP : forall a, a < length h -> a <> r -> a <> y -> nth_error h1 a = nth_error h a).
    { intros a La N1 N2. unfold h1. rewrite nth_error_list_set_neq by auto. rewrite nth_error_app1 by (rewrite list_set_length; lia). now rewrite nth_error_list_set_neq by auto. }
    destruct (insert_half cmp f h1 y (set_n yn 10) front (Some e) [] k v Ey1) as (y' & EY & Y1 & Y2 & Y3 & Y4 & Y5); auto.
    { rewrite EF, map_app in Ry. exact Ry. }
    rewrite app_nil_r in Y5. cbn [set_n n deg] in Y2, Y3.
    assert (NL : is (cmp (fst e) k) Less = false) by (rewrite (cmp_flip cmp lawful), C; reflexivity).
    assert (EI : insert_non_full cmp (fuel h) r k v h = Ret (tt, list_set h1 y y')).
    { rewrite FU. remember (S f) as f1. cbn [insert_non_full]. rewrite (mbind_Ret _ _ _ _ _ (rd_Ret _ _ _ Er)). rewrite L, N.
      erewrite mbind_Ret.
      2:{ apply lift_Ret. eapply find_child_zero; [exact Rr| |apply le_n]. intros x I. apply (Greater_Less cmp lawful). apply BIG. cbn; auto. }
      erewrite mbind_Ret by (apply lift_Ret; unfold child, idx; rewrite (lw_childs _ _ _ _ _ _ _ _ _ W); reflexivity).
      rewrite (mbind_Ret _ _ _ _ _ (rd_Ret _ _ _ Ey)).
      replace (length (keys yn)) with cap by (destruct Ry as [-> _]; rewrite !map_length, LLO; reflexivity). rewrite Nat.eqb_refl.
      erewrite mbind_Ret.
      2:{ erewrite mbind_Ret by exact ESP. rewrite (mbind_Ret _ _ _ _ _ (rd_Ret _ _ _ Er1)).
          erewrite mbind_Ret by (apply lift_Ret; apply (idx_keys _ _ 0 (Some e) Q4); reflexivity). cbn [option_map]. rewrite NL. reflexivity. }
      rewrite (mbind_Ret _ _ _ _ _ (rd_Ret _ _ _ Er1)).
      erewrite mbind_Ret by (apply lift_Ret; unfold child, idx; rewrite Q5; reflexivity).
      subst f1. exact EY. }
    eexists. split.
    { unfold Insert. rewrite (lw_root _ _ _ _ _ _ _ _ _ W). erewrite mbind_Ret; [|rewrite SE; reflexivity]. cbv iota beta.
      rewrite (mbind_Ret _ _ _ _ _ (rd_Ret _ _ _ Er)). rewrite (proj2 (Nat.eqb_neq (n rn) cap)) by (unfold cap, B; lia).
      erewrite mbind_Ret by exact EI. reflexivity. }
    assert (PUT : put cmp k v (lo ++ hi) = place cmp (k, v) front ++ e :: hi).
    { rewrite EF, <- app_assoc. cbn [app]. rewrite put_app_less by auto. f_equal. apply put_place.
      - rewrite EF, <- app_assoc in SO. apply sorted_app in SO. tauto.
      - apply not_in. intros x I. apply NF. rewrite EF, <- app_assoc. apply in_app_iff; auto. }
    pose proof (put_sorted cmp lawful k v (lo ++ hi) SO) as SO'. rewrite PUT in *.
    exists (place cmp (k, v) front), (e :: hi), r, y, rn', y', (length h :: zs). split; [reflexivity|].
    constructor.
    - cbn [len]. rewrite (lw_len _ _ _ _ _ _ _ _ _ W). unfold u64. rewrite Z.mod_small by (rewrite app_length; lia).
      rewrite !app_length, place_length, EF, !app_length. cbn. lia.
    - apply W.
    - rewrite place_length. lia.
    - cbn. lia.
    - exact SO'.
    - rewrite nth_error_list_set_neq by auto. exact Er1.
    - split; [congruence|]. split; [auto|]. cbn. lia.
    - cbn [map app length]. replace (11 - S (length hi)) with (S (9 - length hi)) by lia. rewrite <- app_assoc in Q4. exact Q4.
    - rewrite Q5. cbn [map app length]. now replace (11 - S (length zs)) with (10 - length zs) by lia.
    - cbn. lia.
    - apply nth_error_list_set_eq. unfold h1. rewrite list_set_length, app_length, list_set_length. lia.
    - split; [auto|]. split; [congruence|]. lia.
    - exact Y5.
    - intros z [<-|I].
      + exists fresh_half. split; [rewrite nth_error_list_set_neq by lia; exact En1|]. repeat split.
      + destruct (low_z_r _ _ _ _ _ _ _ _ _ z W I) as (N1 & N2).
        destruct (lw_empty _ _ _ _ _ _ _ _ _ W z I) as (zn & Ez & Hz). exists zn.
        rewrite nth_error_list_set_neq by auto. rewrite KEEP; auto. eapply nth_lt; eauto.
  Qed.
End Low.
