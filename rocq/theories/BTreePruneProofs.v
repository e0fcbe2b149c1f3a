(** BTreePruneProofs.v -- removing from a tree of two levels. *)
From Verif Require Import Base BaseLemmas Effect CmpSpec VecSpec HashModel BTreeModel BTreeSpec BTreeHistory BTreeProofs BTreeMapProofs BTreeSafeProofs BTreeSplitProofs BTreeTreeSpec BTreeTreeProofs.
Local Open Scope nat_scope.

Section Prune.
  Context {K V : Type}.
  Variable cmp : K -> K -> ordering.
  Implicit Types (nd : node K V) (h : heap K V) (k : K) (v : V) (S : list (option (K * V))).

  Lemma list_set_comm {A} (l : list A) i j x y : i <> j -> list_set (list_set l i x) j y = list_set (list_set l j y) i x.
  Proof. revert i j; induction l; intros [|i] [|j] N; cbn; auto; try congruence. f_equal. apply IHl. congruence. Qed.
  Lemma list_set_twice {A} (l : list A) i x y : list_set (list_set l i x) i y = list_set l i y.
  Proof. revert i; induction l; intros [|i]; cbn; auto. f_equal. apply IHl. Qed.

  Section At.
    Variables (h : heap K V) (r : nat) (rn : node K V) (S : list (option (K * V))) (addrs : list nat) (kids : list (kid K V)).
    Hypotheses (E : nth_error h r = Some rn) (RN : root_node rn S addrs) (KA : kids_at h addrs kids).

    Lemma spare_at i : i <= length S -> BTreeModel.rich rn i h = Ret (spare (nth i kids no_kid), h).
    Proof.
      intros L. unfold BTreeModel.rich. destruct (addr_of _ _ _ i RN L) as (a & NA). erewrite mbind_Ret by (apply lift_Ret; eapply child_addr; eauto).
      destruct (proj2 KA _ _ NA) as (nd & Ea & (_ & _ & N & _)). rewrite (mbind_Ret _ _ _ _ _ (rd_Ret _ _ _ Ea)).
      destruct RN as (_ & D & _). rewrite D, N. reflexivity.
    Qed.
    Lemma sep_at i : i < length S -> nth_error (S ++ gaps (11 - length S)) i = Some (nth i S None).
    Proof. intros L. rewrite nth_error_app1 by auto. destruct (nth_error S i) eqn:N; [|apply nth_error_None in N; lia]. now rewrite (nth_error_nth _ _ None N). Qed.
    Lemma cell_at (c : kid K V) i : length (cells c) = 11 -> i < 11 -> nth_error (cells c) i = Some (nth i (cells c) None).
    Proof. intros LC L. destruct (nth_error (cells c) i) eqn:N; [|apply nth_error_None in N; lia]. now rewrite (nth_error_nth _ _ None N). Qed.

    (** Merging two kids never fits into one. *)
    Lemma merge_panics i : i < length S -> merge r i h = Panic.
    Proof.
      intros L. unfold merge. rewrite (mbind_Ret _ _ _ _ _ (rd_Ret _ _ _ E)).
      destruct (addr_of _ _ _ i RN) as (a & NA); [lia|]. destruct (addr_of _ _ _ (i + 1) RN) as (b & NB); [lia|].
      erewrite mbind_Ret by (apply lift_Ret; eapply child_addr; eauto). erewrite mbind_Ret by (apply lift_Ret; eapply child_addr; eauto).
      destruct (proj2 KA _ _ NA) as (nd & Ea & (_ & _ & N & R & LC & _)). destruct (proj2 KA _ _ NB) as (nd' & Eb & (_ & _ & N' & R' & LC' & U')).
      rewrite (mbind_Ret _ _ _ _ _ (rd_Ret _ _ _ Ea)), (mbind_Ret _ _ _ _ _ (rd_Ret _ _ _ Eb)).
      destruct RN as (_ & D & _ & LS & RR & _). rewrite D. erewrite mbind_Ret by reflexivity.
      destruct (copy_kv_rep rn _ i nd _ 10 _ RR R (sep_at i L)) as (nd1 & E1 & R1 & _); [lia|].
      erewrite mbind_Ret by (apply lift_Ret; exact E1). apply mbind_Panic. unfold lift.
      destruct (n nd') as [|m] eqn:Nm; [lia|]. cbn [copy_range Nat.add]. unfold copy_kv.
      rewrite (idx_keys _ _ _ _ R' (cell_at _ 0 LC' ltac:(lia))). cbn [bind]. rewrite (idx_values _ _ _ _ R' (cell_at _ 0 LC' ltac:(lia))). cbn [bind].
      unfold set_kv. rewrite upd_Panic; [reflexivity|]. destruct R1 as [-> _]. rewrite map_length, list_set_length. lia.
    Qed.
    Lemma root_sep i x rn' : i < length S -> srep rn' (list_set (S ++ gaps (11 - length S)) i x) -> same rn rn' -> root_node rn' (list_set S i x) addrs.
    Proof.
      intros L R' (Sa & Sb & Sc & Sd). destruct RN as (A1 & A2 & A3 & A4 & A5 & A6 & A7 & A8). unfold root_node. rewrite list_set_length.
      rewrite list_set_app1 in R' by auto. rewrite Sa, Sb, Sc, Sd. auto 10.
    Qed.

    Lemma borrow_prev i : 0 < i -> i <= length S -> used (nth (i - 1) kids no_kid) = 11 -> used (nth i kids no_kid) = 10 ->
      exists h', borrow_from_prev r i h = Ret (tt, h') /\
        two_at h' r addrs (list_set S (i - 1) (nth 10 (cells (nth (i - 1) kids no_kid)) None))
          (list_set (list_set kids (i - 1) (mkKid (cells (nth (i - 1) kids no_kid)) 10)) i (mkKid (nth (i - 1) S None :: firstn 10 (cells (nth i kids no_kid))) 11)).
    Proof.
      destruct i as [|j]; [lia|]. replace (Datatypes.S j - 1) with j by lia.
      intros _ L UP UC. assert (NI := root_apart _ _ _ _ _ _ E RN KA). set (c := nth (Datatypes.S j) kids no_kid) in *. set (p := nth j kids no_kid) in *.
      unfold borrow_from_prev. rewrite (mbind_Ret _ _ _ _ _ (rd_Ret _ _ _ E)).
      erewrite mbind_Ret by reflexivity.
      destruct (addr_of _ _ _ (Datatypes.S j) RN) as (a & NA); [lia|]. destruct (addr_of _ _ _ j RN) as (b & NB); [lia|].
      erewrite mbind_Ret by (apply lift_Ret; eapply child_addr; eauto). erewrite mbind_Ret by (apply lift_Ret; eapply child_addr; eauto).
      destruct (proj2 KA _ _ NA) as (nd & Ea & (La & Da & N & R & LC & _)). destruct (proj2 KA _ _ NB) as (nd' & Eb & (Lb & Db & N' & R' & LC' & U')). fold c in N, R, LC. fold p in N', R', LC'.
      rewrite (mbind_Ret _ _ _ _ _ (rd_Ret _ _ _ Ea)), (mbind_Ret _ _ _ _ _ (rd_Ret _ _ _ Eb)).
      assert (RN' := RN). destruct RN' as (_ & D & _ & LS & RR & C & LA & ND). rewrite N, UC.
      assert (SP : cells c = [] ++ firstn 10 (cells c) ++ nth 10 (cells c) None :: []).
      { cbn [app]. rewrite <- (firstn_skipn 10 (cells c)) at 1. f_equal. rewrite (skipn_cons _ _ _ (cell_at _ 10 LC ltac:(lia))), skipn_all2 by lia. reflexivity. }
      assert (R0 := R). rewrite SP in R0. destruct (shift_kv_spec _ nd [] _ _ R0) as (nd1 & E1 & R1 & (S1a & S1b & S1c & S1d)).
      rewrite firstn_length, LC in E1. cbn [length Nat.min Nat.add Nat.sub app] in E1, R1. rewrite app_nil_r in R1.
      erewrite mbind_Ret by (apply lift_Ret; exact E1). rewrite S1a, La. erewrite mbind_Ret by reflexivity. cbv zeta.
      destruct (copy_kv_rep rn _ j (set_childs nd1 (childs nd1)) (hd (nth 10 (cells c) None) (firstn 10 (cells c)) :: firstn 10 (cells c)) 0 (nth j S None) RR) as (nd2 & E2 & R2 & (S2a & S2b & S2c & S2d));
        [eapply srep_same; [exact R1|reflexivity|reflexivity]|apply sep_at; lia|cbn; lia|].
      erewrite mbind_Ret by (apply lift_Ret; exact E2). cbn [set_childs leaf deg n childs] in S2a, S2b, S2c, S2d.
      rewrite S2a, S1a, La. erewrite mbind_Ret by reflexivity. rewrite N', UP. erewrite mbind_Ret by reflexivity.
      destruct (copy_kv_rep nd' _ 10 rn _ j _ R' RR (cell_at _ 10 LC' ltac:(lia))) as (rn1 & E3 & R3 & S3).
      { rewrite app_length. lia. }
      erewrite mbind_Ret by (apply lift_Ret; exact E3).
      assert (LTr := nth_lt _ _ _ E). assert (LTa := nth_lt _ _ _ Ea). assert (LTb := nth_lt _ _ _ Eb).
      erewrite mbind_Ret by (apply wr_Ret; auto). erewrite mbind_Ret by (apply wr_Ret; rewrite list_set_length; auto).
      rewrite wr_Ret by (rewrite !list_set_length; auto). eexists. split; [reflexivity|].
      assert (NEa : r <> a) by (intros ->; apply NI; eapply nth_error_In; eauto). assert (NEb : r <> b) by (intros ->; apply NI; eapply nth_error_In; eauto).
      exists rn1. split; [rewrite !nth_error_list_set_neq by auto; now apply nth_error_list_set_eq|]. split; [apply root_sep; auto; lia|].
      rewrite (list_set_comm kids) by lia. apply kids_set; auto; [apply kids_set; auto; [apply kids_other; auto|]|].
      - unfold kid_node. cbn [leaf deg n set_n set_childs childs cells used]. split; [congruence|]. split; [congruence|]. split; [lia|].
        split; [eapply srep_same; [exact R2|reflexivity|reflexivity]|]. split; [cbn [length]; rewrite firstn_length; lia|auto].
      - unfold kid_node. cbn [leaf deg n set_n cells used]. repeat (split; [assumption || reflexivity|]). auto.
    Qed.
    Lemma move_down_all b : forall nd a x t, srep nd (a ++ x :: b ++ t) ->
      exists nd', move_down (length b) (length a + 1) nd = Ret nd' /\ srep nd' (a ++ b ++ last b x :: t) /\ same nd nd'.
    Proof.
      induction b as [|e b IH]; intros nd a x t R; cbn [length move_down].
      - exists nd. split; [reflexivity|]. split; [exact R|apply same_refl].
      - rewrite Nat.add_1_r. cbn [less_one bind]. cbn [app] in R.
        assert (N : nth_error (a ++ x :: e :: b ++ t) (Datatypes.S (length a)) = Some e).
        { rewrite nth_error_app2 by lia. now replace (Datatypes.S (length a) - length a) with 1 by lia. }
        edestruct (copy_kv_rep _ _ _ _ _ (length a) _ R R N) as (nd1 & E1 & R1 & S1).
        { rewrite app_length. cbn. lia. }
        rewrite E1. cbn [bind]. rewrite list_set_app2, Nat.sub_diag in R1 by lia. cbn [list_set] in R1.
        destruct (IH nd1 (a ++ [e]) e t) as (nd' & E' & R' & S'); [rewrite <- app_assoc; exact R1|].
        exists nd'. rewrite app_length in E'. cbn [length] in E'. replace (Datatypes.S (Datatypes.S (length a))) with (length a + 1 + 1) by lia.
        split; [exact E'|]. split; [|eapply same_trans; eauto]. rewrite <- app_assoc in R'. cbn [app]. destruct b; [exact R'|].
        replace (last (e :: o :: b) x) with (last (o :: b) e); [exact R'|]. cbn [last]. clear. destruct b as [|y b]; [reflexivity|]. revert y. induction b as [|z b IH]; intros y; [reflexivity|]. exact (IH z).
    Qed.
    Lemma borrow_next i : i < length S -> used (nth (Datatypes.S i) kids no_kid) = 11 -> used (nth i kids no_kid) = 10 ->
      exists h', borrow_from_next r i h = Ret (tt, h') /\
        two_at h' r addrs (list_set S i (nth 0 (cells (nth (Datatypes.S i) kids no_kid)) None))
          (list_set (list_set kids (Datatypes.S i) (mkKid (skipn 1 (cells (nth (Datatypes.S i) kids no_kid)) ++ [nth 10 (cells (nth (Datatypes.S i) kids no_kid)) None]) 10))
             i (mkKid (firstn 10 (cells (nth i kids no_kid)) ++ [nth i S None]) 11)).
    Proof.
      intros L UP UC. assert (NI := root_apart _ _ _ _ _ _ E RN KA). set (c := nth i kids no_kid) in *. set (p := nth (Datatypes.S i) kids no_kid) in *.
      unfold borrow_from_next. rewrite (mbind_Ret _ _ _ _ _ (rd_Ret _ _ _ E)).
      destruct (addr_of _ _ _ i RN) as (a & NA); [lia|]. destruct (addr_of _ _ _ (Datatypes.S i) RN) as (b & NB); [lia|].
      erewrite mbind_Ret by (apply lift_Ret; eapply child_addr; eauto). erewrite mbind_Ret by (apply lift_Ret; rewrite Nat.add_1_r; eapply child_addr; eauto).
      destruct (proj2 KA _ _ NA) as (nd & Ea & (La & Da & N & R & LC & _)). destruct (proj2 KA _ _ NB) as (nd' & Eb & (Lb & Db & N' & R' & LC' & U')). fold c in N, R, LC. fold p in N', R', LC'.
      rewrite (mbind_Ret _ _ _ _ _ (rd_Ret _ _ _ Ea)), (mbind_Ret _ _ _ _ _ (rd_Ret _ _ _ Eb)).
      assert (RN' := RN). destruct RN' as (_ & D & _ & LS & RR & C & LA & ND). rewrite N, UC.
      destruct (copy_kv_rep rn _ i nd _ 10 _ RR R (sep_at i L)) as (nd1 & E1 & R1 & (S1a & S1b & S1c & S1d)); [lia|].
      erewrite mbind_Ret by (apply lift_Ret; exact E1). rewrite S1a, La. erewrite mbind_Ret by reflexivity. cbv zeta.
      destruct (copy_kv_rep nd' _ 0 rn _ i _ R' RR (cell_at _ 0 LC' ltac:(lia))) as (rn1 & E3 & R3 & S3).
      { rewrite app_length. lia. }
      erewrite mbind_Ret by (apply lift_Ret; exact E3). rewrite N', UP.
      assert (SP : cells p = [] ++ nth 0 (cells p) None :: skipn 1 (cells p) ++ []).
      { rewrite app_nil_r. cbn [app]. exact (skipn_cons _ _ _ (cell_at _ 0 LC' ltac:(lia))). }
      assert (R0 := R'). rewrite SP in R0. destruct (move_down_all _ nd' [] _ _ R0) as (nd2 & E2 & R2 & (S2a & S2b & S2c & S2d)).
      rewrite skipn_length, LC' in E2. cbn [length Nat.sub Nat.add app] in E2, R2.
      erewrite mbind_Ret by (apply lift_Ret; exact E2). rewrite S2a, Lb. erewrite mbind_Ret by reflexivity. cbv zeta.
      cbn [set_childs n]. rewrite S2c, N', UP. erewrite mbind_Ret by reflexivity.
      assert (LTr := nth_lt _ _ _ E). assert (LTa := nth_lt _ _ _ Ea). assert (LTb := nth_lt _ _ _ Eb).
      erewrite mbind_Ret by (apply wr_Ret; auto). erewrite mbind_Ret by (apply wr_Ret; rewrite list_set_length; auto).
      rewrite wr_Ret by (rewrite !list_set_length; auto). eexists. split; [reflexivity|].
      assert (NEa : r <> a) by (intros ->; apply NI; eapply nth_error_In; eauto). assert (NEb : r <> b) by (intros ->; apply NI; eapply nth_error_In; eauto).
      exists rn1. split; [rewrite !nth_error_list_set_neq by auto; now apply nth_error_list_set_eq|]. split; [apply root_sep; auto; lia|].
      rewrite (list_set_comm kids) by lia. apply kids_set; auto; [apply kids_set; auto; [apply kids_other; auto|]|].
      - unfold kid_node. cbn [leaf deg n set_n set_childs childs cells used]. split; [congruence|]. split; [congruence|]. split; [lia|].
        split; [|split; [rewrite app_length, firstn_length; cbn [length]; lia|auto]].
        eapply srep_same; [|reflexivity|reflexivity]. rewrite list_set_split, (skipn_all2 (n := 11)) in R1 by lia. exact R1.
      - unfold kid_node. cbn [leaf deg n set_n set_childs childs cells used]. split; [congruence|]. split; [congruence|]. split; [reflexivity|].
        split; [|split; [rewrite app_length, skipn_length; cbn [length]; lia|auto]].
        eapply srep_same; [|reflexivity|reflexivity].
        replace (nth 10 (cells p) None) with (last (skipn 1 (cells p)) (nth 0 (cells p) None)); [exact R2|].
        destruct (cells p) as [|x0 l]; [discriminate|]. cbn [skipn nth]. cbn in LC'. do 10 (destruct l as [|? l]; [discriminate|]). destruct l; [reflexivity|discriminate].
    Qed.
    (** Going on in a kid with a cell to spare. *)
    Lemma descend f i a k : i <= length S -> nth_error addrs i = Some a -> used (nth i kids no_kid) = 11 ->
      exists h', remove_ cmp (Datatypes.S f) a k h = Ret (tt, h') /\ two_at h' r addrs S (list_set kids i (kid_remove cmp k (nth i kids no_kid))).
    Proof.
      intros L NA U. assert (NI := root_apart _ _ _ _ _ _ E RN KA). destruct (proj2 KA _ _ NA) as (nd & Ea & KN).
      destruct (leaf_remove cmp f h a nd _ k Ea KN U) as (nd' & EQ & KN'). exists (list_set h a nd'). split; [exact EQ|].
      assert (NEa : r <> a) by (intros ->; apply NI; eapply nth_error_In; eauto).
      exists rn. split; [rewrite nth_error_list_set_neq; auto|]. split; [exact RN|]. apply kids_set; auto. apply RN.
    Qed.
  End At.

  Lemma rightmost_leaf f h a nd : nth_error h a = Some nd -> leaf nd = true -> rightmost (Datatypes.S f) h a = Ret a.
  Proof. intros E L. cbn [rightmost]. unfold idx. rewrite E. cbn [of_option bind]. now rewrite L. Qed.
  Lemma leftmost_leaf f h a nd : nth_error h a = Some nd -> leaf nd = true -> leftmost (Datatypes.S f) h a = Ret a.
  Proof. intros E L. cbn [leftmost]. unfold idx. rewrite E. cbn [of_option bind]. now rewrite L. Qed.
  Lemma spare_used h addrs kids i a : kids_at h addrs kids -> nth_error addrs i = Some a ->
    if spare (nth i kids no_kid) then used (nth i kids no_kid) = 11 else used (nth i kids no_kid) = 10.
  Proof. intros KA NA. destruct (proj2 KA _ _ NA) as (nd & _ & (_ & _ & _ & _ & _ & U)). unfold spare. destruct U as [-> | ->]; reflexivity. Qed.

  Lemma remove_two f h r addrs S kids k : two_at h r addrs S kids ->
    match prune cmp S kids k with
    | None => remove_ cmp (Datatypes.S (Datatypes.S f)) r k h = Panic
    | Some x => exists h', remove_ cmp (Datatypes.S (Datatypes.S f)) r k h = Ret (tt, h') /\ two_at h' r addrs (fst x) (snd x)
    end.
  Proof.
    intros (rn & E & RN & KA). assert (RN' := RN). destruct RN' as (L & D & N & LS & R & C & LA & ND).
    assert (NI := root_apart _ _ _ _ _ _ E RN KA). assert (LTr := nth_lt _ _ _ E).
    remember (Datatypes.S f) as f1. cbn [remove_]. rewrite (mbind_Ret _ _ _ _ _ (rd_Ret _ _ _ E)). rewrite L, N.
    assert (F := find_key_opt cmp rn k S [] _ R). cbn [length Nat.add] in F.
    erewrite mbind_Ret by (apply lift_Ret; exact F).
    unfold prune. set (i := below cmp k S). assert (LI := below_le cmp k S). fold i in LI.
    destruct (addr_of _ _ _ i RN LI) as (a & NA). destruct (proj2 KA _ _ NA) as (nd & Ea & KN). assert (SU := spare_used _ _ _ _ _ KA NA).
    assert (KK : (if i <? length S then idx (keys rn) i else Ret None) = Ret (option_map fst (nth i S None))).
    { destruct (Nat.ltb_spec i (length S)) as [LT|GE]; [|rewrite nth_overflow by lia; reflexivity].
      exact (idx_keys _ _ _ _ R (sep_at S i LT)). }
    erewrite mbind_Ret by (apply lift_Ret; exact KK).
    assert (HH : match option_map fst (nth i S None) with Some k' => is (cmp k' k) Equal | None => false end = holds cmp k (nth i S None)).
    { destruct (nth i S None) as [e|]; [|reflexivity]. cbn [option_map holds]. now destruct (cmp (fst e) k). }
    rewrite HH. destruct (holds cmp k (nth i S None)) eqn:HO.
    - assert (LT : i < length S). { destruct (Nat.ltb_spec i (length S)); auto. rewrite nth_overflow in HO by lia. discriminate. }
      erewrite mbind_Ret by (eapply spare_at; eauto).
      destruct (spare (nth i kids no_kid)) eqn:SP.
      + erewrite mbind_Ret by (apply lift_Ret; eapply child_addr; eauto). assert (KN' := KN). destruct KN' as (La & Da & Na & Ra & LC & U).
        assert (MOST : (fun h0 : heap K V => x <- rightmost (fuel h0) h0 a ;; Ret (x, h0)) h = Ret (a, h)) by (cbv beta; unfold fuel; rewrite (rightmost_leaf _ _ _ _ Ea La); reflexivity).
        rewrite (mbind_Ret _ _ _ _ _ MOST).
        rewrite (mbind_Ret _ _ _ _ _ (rd_Ret _ _ _ Ea)). rewrite Na, SU. erewrite mbind_Ret by reflexivity.
        assert (CA := cell_at (nth i kids no_kid) 10 LC ltac:(lia)).
        destruct (copy_kv_rep nd _ 10 rn _ i _ Ra R CA) as (rn1 & E1 & R1 & S1); [rewrite app_length; lia|].
        erewrite mbind_Ret by (apply lift_Ret; exact E1). erewrite mbind_Ret by (apply wr_Ret; auto).
        erewrite mbind_Ret by (apply lift_Ret; exact (idx_keys _ _ _ _ Ra CA)).
        destruct (nth 10 (cells (nth i kids no_kid)) None) as [e|] eqn:EE; cbn [option_map]; [|apply mbind_Panic; reflexivity].
        erewrite mbind_Ret by reflexivity. cbn [fst snd].
        assert (RN1 := root_sep rn S addrs RN i _ rn1 LT R1 S1). subst f1.
        apply (descend (list_set h r rn1) r rn1 _ addrs kids); auto; [now apply nth_error_list_set_eq|apply kids_other; auto|rewrite list_set_length; lia].
      + erewrite mbind_Ret by (eapply spare_at; eauto; lia). rewrite Nat.add_1_r.
        destruct (addr_of _ _ _ (Datatypes.S i) RN LT) as (b & NB). destruct (proj2 KA _ _ NB) as (nb & Eb & (Lb & Db & Nb & Rb & LCb & Ub)). assert (SB := spare_used _ _ _ _ _ KA NB).
        destruct (spare (nth (Datatypes.S i) kids no_kid)) eqn:SQ; [|apply mbind_Panic; eapply merge_panics; eauto].
        erewrite mbind_Ret by (apply lift_Ret; eapply child_addr; eauto).
        assert (MOST : (fun h0 : heap K V => x <- leftmost (fuel h0) h0 b ;; Ret (x, h0)) h = Ret (b, h)) by (cbv beta; unfold fuel; rewrite (leftmost_leaf _ _ _ _ Eb Lb); reflexivity).
        rewrite (mbind_Ret _ _ _ _ _ MOST).
        rewrite (mbind_Ret _ _ _ _ _ (rd_Ret _ _ _ Eb)).
        assert (CA := cell_at (nth (Datatypes.S i) kids no_kid) 0 LCb ltac:(lia)).
        destruct (copy_kv_rep nb _ 0 rn _ i _ Rb R CA) as (rn1 & E1 & R1 & S1); [rewrite app_length; lia|].
        erewrite mbind_Ret by (apply lift_Ret; exact E1). erewrite mbind_Ret by (apply wr_Ret; auto).
        erewrite mbind_Ret by (apply lift_Ret; exact (idx_keys _ _ _ _ Rb CA)).
        destruct (nth 0 (cells (nth (Datatypes.S i) kids no_kid)) None) as [e|] eqn:EE; cbn [option_map]; [|apply mbind_Panic; reflexivity].
        erewrite mbind_Ret by reflexivity. cbn [fst snd].
        assert (RN1 := root_sep rn S addrs RN i _ rn1 LT R1 S1). subst f1.
        apply (descend (list_set h r rn1) r rn1 _ addrs kids); auto; [now apply nth_error_list_set_eq|apply kids_other; auto|rewrite list_set_length; lia].
    - erewrite mbind_Ret by (eapply spare_at; eauto). cbv zeta.
      (* the rest after the kid has a cell to spare *)
      assert (GO : forall h' S' kids', two_at h' r addrs S' kids' -> length S' = length S -> used (nth i kids' no_kid) = 11 ->
        exists h'', (self <~ rd r ;; j <~ lift (if (i =? length S) && (n self <? i) then less_one i else Ret i) ;; c_ <~ lift (child self j) ;; remove_ cmp f1 c_ k) h' = Ret (tt, h'') /\
          two_at h'' r addrs S' (list_set kids' i (kid_remove cmp k (nth i kids' no_kid)))).
      { intros h' S' kids' (rn' & E' & RN' & KA') LL U'. rewrite (mbind_Ret _ _ _ _ _ (rd_Ret _ _ _ E')).
        assert (N' : n rn' = length S') by apply RN'. rewrite N', LL. destruct (Nat.ltb_spec (length S) i); [lia|]. rewrite andb_false_r.
        erewrite mbind_Ret by reflexivity. erewrite mbind_Ret by (apply lift_Ret; eapply child_addr; eauto).
        subst f1. eapply descend; eauto. lia. }
      destruct (spare (nth i kids no_kid)) eqn:SP.
      + erewrite mbind_Ret by reflexivity. cbn [fst snd]. apply GO; auto. exists rn. auto.
      + assert (FILL : match (if (0 <? i) && spare (nth (i - 1) kids no_kid) then
             Some (list_set S (i - 1) (nth 10 (cells (nth (i - 1) kids no_kid)) None),
              list_set (list_set kids (i - 1) (mkKid (cells (nth (i - 1) kids no_kid)) 10))
                       i (mkKid (nth (i - 1) S None :: firstn 10 (cells (nth i kids no_kid))) 11))
             else if (i <? length S) && spare (nth (Datatypes.S i) kids no_kid) then
             Some (list_set S i (nth 0 (cells (nth (Datatypes.S i) kids no_kid)) None),
              list_set (list_set kids (Datatypes.S i) (mkKid (skipn 1 (cells (nth (Datatypes.S i) kids no_kid)) ++ [nth 10 (cells (nth (Datatypes.S i) kids no_kid)) None]) 10))
                       i (mkKid (firstn 10 (cells (nth i kids no_kid)) ++ [nth i S None]) 11))
             else None) with
           | None => fill r i h = Panic
           | Some x => exists h', fill r i h = Ret (tt, h') /\ two_at h' r addrs (fst x) (snd x)
           end).
        { unfold fill. rewrite (mbind_Ret _ _ _ _ _ (rd_Ret _ _ _ E)). rewrite N.
          assert (P : (match i with O => mret false | Datatypes.S j => BTreeModel.rich rn j end) h = Ret ((0 <? i) && spare (nth (i - 1) kids no_kid), h)).
          { destruct i as [|j]; [reflexivity|]. rewrite (spare_at h rn S addrs kids RN KA) by lia. now replace (Datatypes.S j - 1) with j by lia. }
          erewrite mbind_Ret by exact P. destruct (_ && _) eqn:PQ.
          { apply andb_true_iff in PQ. destruct PQ as [IP PS]. apply Nat.ltb_lt in IP. cbn [fst snd]. eapply borrow_prev; eauto.
            destruct (addr_of _ _ _ (i - 1) RN ltac:(lia)) as (b & NB). assert (SB := spare_used _ _ _ _ _ KA NB). now rewrite PS in SB. }
          assert (Q : (if i =? length S then mret false else BTreeModel.rich rn (i + 1)) h = Ret ((i <? length S) && spare (nth (Datatypes.S i) kids no_kid), h)).
          { destruct (Nat.eqb_spec i (length S)) as [->|NE]; [now rewrite Nat.ltb_irrefl|]. rewrite (spare_at h rn S addrs kids RN KA) by lia.
            rewrite (proj2 (Nat.ltb_lt i (length S))) by lia. now rewrite Nat.add_1_r. }
          erewrite mbind_Ret by exact Q. clear PQ. destruct (_ && _) eqn:PQ.
          { apply andb_true_iff in PQ. destruct PQ as [IP PS]. apply Nat.ltb_lt in IP. cbn [fst snd]. eapply borrow_next; eauto.
            destruct (addr_of _ _ _ (Datatypes.S i) RN ltac:(lia)) as (b & NB). assert (SB := spare_used _ _ _ _ _ KA NB). now rewrite PS in SB. }
          destruct (Nat.eqb_spec i (length S)) as [EQ|NE]; [|eapply merge_panics; eauto; lia].
          destruct i as [|j]; [lia|]. erewrite mbind_Ret by reflexivity. eapply merge_panics; eauto. }
        assert (LK : length kids = Datatypes.S (length S)) by (rewrite <- LA; apply KA).
        destruct ((0 <? i) && spare (nth (i - 1) kids no_kid)) eqn:PQ; [|destruct ((i <? length S) && spare (nth (Datatypes.S i) kids no_kid)) eqn:PQ2].
        * destruct FILL as (h1 & E1 & T1). erewrite mbind_Ret by exact E1. cbn [fst snd] in *.
          destruct (GO _ _ _ T1) as (h2 & E2 & T2); [apply list_set_length|rewrite nth_list_set by (rewrite list_set_length; lia); now rewrite Nat.eqb_refl|].
          exists h2. split; [exact E2|]. rewrite nth_list_set in T2 by (rewrite list_set_length; lia). rewrite Nat.eqb_refl, list_set_twice in T2. exact T2.
        * destruct FILL as (h1 & E1 & T1). erewrite mbind_Ret by exact E1. cbn [fst snd] in *.
          destruct (GO _ _ _ T1) as (h2 & E2 & T2); [apply list_set_length|rewrite nth_list_set by (rewrite list_set_length; lia); now rewrite Nat.eqb_refl|].
          exists h2. split; [exact E2|]. rewrite nth_list_set in T2 by (rewrite list_set_length; lia). rewrite Nat.eqb_refl, list_set_twice in T2. exact T2.
        * apply mbind_Panic. exact FILL.
  Qed.
End Prune.
