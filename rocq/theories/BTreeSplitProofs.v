(** BTreeSplitProofs.v -- splitting a node; how far insertion goes. *)
From Verif Require Import Base BaseLemmas Effect CmpSpec VecSpec HashModel BTreeModel BTreeSpec BTreeHistory BTreeProofs BTreeMapProofs BTreeSafeProofs.
Local Open Scope nat_scope.

Section Split.
  Context {K V : Type}.
  Variable cmp : K -> K -> ordering.
  Implicit Types (nd : node K V) (h : heap K V).

  Lemma lift_Ret {A} (m : out A) h a : m = Ret a -> lift m h = Ret (a, h).
  Proof. intros ->. reflexivity. Qed.

  Lemma shift_childs_spec b : forall a x t,
    shift_childs (length b) (length a + length b - 1) (a ++ b ++ x :: t) = Ret (a ++ hd x b :: b ++ t).
  Proof.
    induction b as [|y b IH] using rev_ind; intros a x t; [reflexivity|].
    rewrite app_length. cbn [length]. rewrite Nat.add_1_r. cbn [shift_childs].
    replace (length a + S (length b) - 1) with (length (a ++ b)) by (rewrite app_length; lia).
    assert (E : a ++ (b ++ [y]) ++ x :: t = (a ++ b) ++ y :: x :: t) by (rewrite <- !app_assoc; reflexivity).
    rewrite E. unfold idx. rewrite nth_error_app2, Nat.sub_diag by lia. cbn [nth_error of_option bind].
    rewrite upd_Ret by (rewrite (app_length (a ++ b)); cbn; lia). cbn [bind].
    rewrite list_set_app2 by lia. replace (S (length (a ++ b)) - length (a ++ b)) with 1 by lia. cbn [list_set].
    rewrite app_length, <- app_assoc. rewrite IH. destruct b; cbn; [reflexivity|]. now rewrite <- app_assoc.
  Qed.
  Lemma shift_kv_spec b : forall nd a x t, srep nd (a ++ b ++ x :: t) ->
    exists nd', shift_kv (length b) (length a + length b - 1) nd = Ret nd' /\ srep nd' (a ++ hd x b :: b ++ t) /\ same nd nd'.
  Proof.
    induction b as [|y b IH] using rev_ind; intros nd a x t R.
    - exists nd. split; [reflexivity|]. split; [exact R|apply same_refl].
    - rewrite app_length. cbn [length]. rewrite Nat.add_1_r. cbn [shift_kv].
      replace (length a + S (length b) - 1) with (length (a ++ b)) by (rewrite app_length; lia).
      assert (E : a ++ (b ++ [y]) ++ x :: t = (a ++ b) ++ y :: x :: t) by (rewrite <- !app_assoc; reflexivity).
      rewrite E in R.
      edestruct (copy_kv_rep nd _ (length (a ++ b)) nd _ (S (length (a ++ b))) y R R) as (nd1 & E1 & R1 & S1).
      { rewrite nth_error_app2, Nat.sub_diag by lia. reflexivity. }
      { rewrite (app_length (a ++ b)). cbn. lia. }
      rewrite E1. cbn [bind].
      rewrite list_set_app2 in R1 by lia. replace (S (length (a ++ b)) - length (a ++ b)) with 1 in R1 by lia. cbn [list_set] in R1.
      rewrite <- app_assoc in R1. destruct (IH nd1 a y (y :: t) R1) as (nd' & E' & R' & S').
      exists nd'. rewrite app_length. split; [exact E'|]. split; [|eapply same_trans; eauto].
      destruct b; cbn in *; [exact R'|]. rewrite <- app_assoc. exact R'.
  Qed.
  (** With no room left, the move of the keys runs out of the array. *)
  Lemma shift_kv_full nd S c : srep nd S -> length S = 11 -> shift_kv (Datatypes.S c) 10 nd = Panic.
  Proof.
    intros R L. cbn [shift_kv]. unfold copy_kv.
    destruct (nth_error S 10) as [e|] eqn:N; [|apply nth_error_None in N; lia].
    rewrite (idx_keys _ _ _ _ R N). cbn [bind]. rewrite (idx_values _ _ _ _ R N). cbn [bind].
    unfold set_kv. rewrite upd_Panic; [reflexivity|]. destruct R as [-> _]. rewrite map_length. lia.
  Qed.

  (** The half that a split leaves behind and the one it makes. *)
  Definition fresh_half : node K V := set_n (new_node true 0) 10.
  Lemma splitChild_spec h sa self y_ y (a b : list (option (K * V))) x t ca cb cx ct Sy e10 :
    nth_error h sa = Some self -> nth_error h y_ = Some y -> sa <> y_ ->
    deg self = 11 -> n self + 1 = length a + length b -> srep self (a ++ b ++ x :: t) -> b <> [] ->
    childs self = ca ++ cb ++ cx :: ct -> length ca = length a + 1 -> length ca + length cb = n self + 1 ->
    leaf y = true -> deg y = 0 -> srep y Sy -> nth_error Sy 10 = Some e10 ->
    exists self', splitChild sa (length a) y_ h = Ret (tt, list_set (list_set h y_ (set_n y 10) ++ [fresh_half]) sa self') /\
      leaf self' = leaf self /\ deg self' = 11 /\ n self' = n self + 1 /\
      srep self' (a ++ e10 :: b ++ t) /\ childs self' = ca ++ Some (length h) :: cb ++ ct.
  Proof.
    intros HS HY NE D N R NB CS LC LCB LY DY RY N10.
    assert (LS : sa < length h) by (eapply nth_lt; eauto). assert (LYh : y_ < length h) by (eapply nth_lt; eauto).
    unfold splitChild. rewrite (mbind_Ret _ _ _ _ _ (rd_Ret _ _ _ HS)). rewrite (mbind_Ret _ _ _ _ _ (rd_Ret _ _ _ HY)).
    rewrite D. erewrite mbind_Ret by reflexivity. rewrite DY, LY. cbv zeta.
    erewrite mbind_Ret by reflexivity.
    erewrite mbind_Ret by reflexivity.
    erewrite mbind_Ret by (apply wr_Ret; auto).
    erewrite mbind_Ret by reflexivity.
    rewrite CS.
    erewrite mbind_Ret.
    2:{ apply lift_Ret. replace (n self - length a) with (length cb) by lia.
        replace (n self) with (length ca + length cb - 1) by lia. apply shift_childs_spec. }
    erewrite mbind_Ret.
    2:{ apply lift_Ret. apply upd_Ret. rewrite app_length. cbn. lia. }
    rewrite list_set_app2 by lia. replace (length a + 1 - length ca) with 0 by lia. cbn [list_set].
    rewrite list_set_length.
    set (cs' := ca ++ Some (length h) :: cb ++ ct).
    destruct (shift_kv_spec b (set_childs self cs') a x t) as (nd1 & E1 & R1 & (S1a & S1b & S1c & S1d)).
    { eapply srep_same; eauto. }
    cbn [set_childs n leaf deg childs] in *.
    replace (n self + 1 - length a) with (length b) by lia.
    erewrite mbind_Ret.
    2:{ apply lift_Ret. replace (n self) with (length a + length b - 1) by lia. exact E1. }
    destruct (copy_kv_rep (set_n y 10) Sy 10 nd1 (a ++ hd x b :: b ++ t) (length a) e10) as (nd2 & E2 & R2 & (S2a & S2b & S2c & S2d)).
    { eapply srep_same; eauto. } { exact R1. } { exact N10. } { rewrite app_length. cbn. lia. }
    rewrite list_set_app2, Nat.sub_diag in R2 by lia. cbn [list_set] in R2.
    erewrite mbind_Ret by (apply lift_Ret; exact E2).
    rewrite wr_Ret by (rewrite app_length, list_set_length; lia).
    eexists. split; [reflexivity|]. cbn [set_n leaf deg n childs].
    repeat split; try congruence; try lia; apply R2.
  Qed.
  Lemma skipn_skipn {A} (l : list A) p q : skipn q (skipn p l) = skipn (p + q) l.
  Proof. revert l; induction p; intros l; cbn; auto. destruct l; [now rewrite skipn_nil|apply IHp]. Qed.
  Lemma split_list {A} (l : list A) p q : p + q < length l ->
    exists a b x t, l = a ++ b ++ x :: t /\ length a = p /\ length b = q.
  Proof.
    intros L. destruct (nth_error l (p + q)) as [x|] eqn:N; [|apply nth_error_None in N; lia].
    exists (firstn p l), (firstn q (skipn p l)), x, (skipn (S (p + q)) l).
    split; [|rewrite !firstn_length, ?skipn_length; lia].
    rewrite <- (firstn_skipn p l) at 1. f_equal. rewrite <- (firstn_skipn q (skipn p l)) at 1. f_equal.
    rewrite skipn_skipn. now apply skipn_cons.
  Qed.
  Lemma splitChild_full h sa self y_ y i S Sy :
    nth_error h sa = Some self -> nth_error h y_ = Some y -> sa <> y_ ->
    deg self = 11 -> n self = 10 -> i <= 10 -> length (childs self) = 12 -> srep self S -> length S = 11 ->
    leaf y = true -> deg y = 0 -> srep y Sy -> length Sy = 11 ->
    splitChild sa i y_ h = Panic.
  Proof.
    intros HS HY NE D N I LC R LS LY DY RY LSy.
    assert (LYh : y_ < length h) by (eapply nth_lt; eauto).
    unfold splitChild. rewrite (mbind_Ret _ _ _ _ _ (rd_Ret _ _ _ HS)). rewrite (mbind_Ret _ _ _ _ _ (rd_Ret _ _ _ HY)).
    rewrite D. erewrite mbind_Ret by reflexivity. rewrite DY, LY. cbv zeta.
    erewrite mbind_Ret by reflexivity.
    erewrite mbind_Ret by reflexivity.
    erewrite mbind_Ret by (apply wr_Ret; auto).
    erewrite mbind_Ret by reflexivity.
    rewrite N.
    destruct (split_list (childs self) (i + 1) (10 - i)) as (ca & cb & cx & ct & EC & L1 & L2); [lia|].
    rewrite EC.
    erewrite mbind_Ret.
    2:{ apply lift_Ret. rewrite <- L2 at 1. replace 10 with (length ca + length cb - 1) by lia. apply shift_childs_spec. }
    erewrite mbind_Ret.
    2:{ apply lift_Ret. apply upd_Ret. rewrite app_length. cbn. lia. }
    apply mbind_Panic. unfold lift. cbn [set_childs n]. rewrite N.
    replace (10 + 1 - i) with (Datatypes.S (10 - i)) by lia.
    rewrite (shift_kv_full _ S); auto.
  Qed.

  (** *** Inserting in a leaf, whatever it holds *)
  Lemma insert_half f h c nd front x t k v : nth_error h c = Some nd -> leaf nd = true -> n nd = length front ->
    srep nd (map Some front ++ x :: t) ->
    exists nd', insert_non_full cmp (S f) c k v h = Ret (tt, list_set h c nd') /\
      leaf nd' = true /\ deg nd' = deg nd /\ n nd' = S (n nd) /\ childs nd' = childs nd /\ srep nd' (map Some (place cmp (k, v) front) ++ t).
  Proof.
    intros E L N R. cbn [insert_non_full]. rewrite (mbind_Ret _ _ _ _ _ (rd_Ret _ _ _ E)). rewrite L.
    destruct (shift_greater_rep cmp k v front nd x t R) as (nd1 & a & y & b & E1 & R1 & (S1a & S1b & S1c & S1d) & EL & P).
    rewrite N. erewrite mbind_Ret by (apply lift_Ret; exact E1). cbn [fst snd].
    destruct (set_kv_rep nd1 _ (length a) (Some (k, v)) R1) as (nd2 & E2 & R2 & (S2a & S2b & S2c & S2d)).
    { rewrite app_length, map_length. cbn. lia. }
    cbn [option_map fst snd] in E2. erewrite mbind_Ret by (apply lift_Ret; exact E2).
    rewrite wr_Ret by (eapply nth_lt; eauto).
    eexists. split; [reflexivity|]. cbn [leaf deg n childs set_n].
    split; [congruence|]. split; [congruence|]. split; [lia|]. split; [congruence|].
    eapply srep_same; [|reflexivity|reflexivity]. rewrite P, map_app. cbn [map]. rewrite <- app_assoc. cbn [app].
    rewrite list_set_app2 in R2 by (rewrite map_length; lia). rewrite map_length, Nat.sub_diag in R2. exact R2.
  Qed.
  Lemma insert_gap f h c nd k v : nth_error h c = Some nd -> leaf nd = true -> n nd = 10 -> srep nd (gaps 11) ->
    exists nd', insert_non_full cmp (S f) c k v h = Ret (tt, list_set h c nd') /\
      leaf nd' = true /\ deg nd' = deg nd /\ n nd' = 11 /\ childs nd' = childs nd /\ srep nd' (gaps 10 ++ [Some (k, v)]).
  Proof.
    intros E L N R. cbn [insert_non_full]. rewrite (mbind_Ret _ _ _ _ _ (rd_Ret _ _ _ E)). rewrite L, N.
    erewrite mbind_Ret.
    2:{ apply lift_Ret. cbn [shift_greater]. rewrite (idx_keys nd (gaps 11) 9 None R eq_refl). reflexivity. }
    cbn [fst snd].
    destruct (set_kv_rep nd _ 10 (Some (k, v)) R) as (nd2 & E2 & R2 & (S2a & S2b & S2c & S2d)); [cbn; lia|].
    cbn [option_map fst snd] in E2. erewrite mbind_Ret by (apply lift_Ret; exact E2).
    rewrite wr_Ret by (eapply nth_lt; eauto).
    eexists. split; [reflexivity|]. cbn [leaf deg n childs set_n].
    split; [congruence|]. split; [congruence|]. split; [lia|]. split; [congruence|].
    eapply srep_same; [exact R2|reflexivity|reflexivity].
  Qed.

  (** A leaf with eleven slots. *)
  Definition leaf11 nd : Prop := leaf nd = true /\ deg nd = 0 /\ exists S, srep nd S /\ length S = 11.
  Definition leaf_at h c : Prop := exists nd, nth_error h c = Some nd /\ leaf11 nd.

  Lemma shift_greater_any k j : forall nd S, srep nd S -> length S = 11 -> j <= 10 ->
    exists nd' j' S', shift_greater cmp k j nd = Ret (nd', j') /\ same nd nd' /\ srep nd' S' /\ length S' = 11 /\ j' <= 10.
  Proof.
    induction j as [|i IH]; intros nd S R L J; cbn [shift_greater].
    - exists nd, 0, S. split; [reflexivity|]. split; [apply same_refl|]. repeat split; auto; try lia; apply R.
    - destruct (nth_error S i) as [e|] eqn:N; [|apply nth_error_None in N; lia].
      rewrite (idx_keys _ _ _ _ R N). cbn [bind].
      assert (DONE : exists nd' j' S', Ret (nd, Datatypes.S i) = Ret (nd', j') /\ same nd nd' /\ srep nd' S' /\ length S' = 11 /\ j' <= 10).
      { exists nd, (Datatypes.S i), S. split; [reflexivity|]. split; [apply same_refl|]. auto. }
      destruct e as [e|]; cbn [option_map]; [|exact DONE].
      destruct (is _ _); [|exact DONE].
      destruct (copy_kv_rep nd S i nd S (Datatypes.S i) (Some e) R R N) as (nd1 & E1 & R1 & S1); [lia|].
      rewrite E1. cbn [bind].
      destruct (IH nd1 _ R1) as (nd' & j' & S' & E' & SM & R' & L' & J'); [now rewrite list_set_length|lia|].
      exists nd', j', S'. split; [exact E'|]. split; [eapply same_trans; eauto|auto].
  Qed.
  Lemma insert_any f h c nd k v : nth_error h c = Some nd -> leaf11 nd -> n nd = 10 ->
    exists nd', insert_non_full cmp (S f) c k v h = Ret (tt, list_set h c nd') /\ leaf11 nd'.
  Proof.
    intros E (L & D & S & R & LS) N. cbn [insert_non_full]. rewrite (mbind_Ret _ _ _ _ _ (rd_Ret _ _ _ E)). rewrite L, N.
    destruct (shift_greater_any k 10 nd S R LS) as (nd1 & j & S1 & E1 & (S1a & S1b & S1c & S1d) & R1 & L1 & J); [lia|].
    erewrite mbind_Ret by (apply lift_Ret; exact E1). cbn [fst snd].
    destruct (set_kv_rep nd1 _ j (Some (k, v)) R1) as (nd2 & E2 & R2 & (S2a & S2b & S2c & S2d)); [lia|].
    cbn [option_map fst snd] in E2. erewrite mbind_Ret by (apply lift_Ret; exact E2).
    rewrite wr_Ret by (eapply nth_lt; eauto).
    eexists. split; [reflexivity|]. split; [cbn; congruence|]. split; [cbn; congruence|].
    eexists. split; [eapply srep_same; [exact R2|reflexivity|reflexivity]|]. now rewrite list_set_length.
  Qed.
  Lemma leaf11_set_n nd m : leaf11 nd -> leaf11 (set_n nd m).
  Proof. intros (L & D & S & R & LS). split; [auto|]. split; [auto|]. exists S. split; auto. Qed.
  Lemma leaf11_fresh : leaf11 fresh_half.
  Proof. split; [reflexivity|]. split; [reflexivity|]. exists (gaps 11). split; [split; reflexivity|reflexivity]. Qed.

  (** Two levels: an inner root with m keys and only leaves below. *)
  Definition tall h (r m : nat) : Prop :=
    exists rn S, nth_error h r = Some rn /\ leaf rn = false /\ deg rn = 11 /\ n rn = m /\ srep rn S /\ length S = 11 /\
      length (childs rn) = 12 /\
      (forall i, i <= m -> exists c, nth_error (childs rn) i = Some (Some c)) /\
      (forall i c, nth_error (childs rn) i = Some (Some c) -> leaf_at h c).

  Lemma scan_le k (ks : list (option K)) : forall i, scan cmp k ks i <= i + length ks.
  Proof.
    induction ks as [|[k'|] ks IH]; intros i; cbn [scan length]; try lia.
    destruct (is _ _); [|lia]. specialize (IH (S i)). lia.
  Qed.
  Lemma search_tall f h r m k : tall h r m -> exists x, search cmp (S (S f)) h r k = Ret x.
  Proof.
    intros (rn & S & E & L & D & N & R & LS & LC & C1 & C2).
    remember (Datatypes.S f) as f1. cbn [search]. unfold idx at 1. rewrite E. cbn [of_option bind]. cbv zeta.
    set (i := scan cmp k (keys rn) 0).
    assert (HI : i <= 11).
    { unfold i. pose proof (scan_le k (keys rn) 0). destruct R as [Rk _]. rewrite Rk, map_length, LS in H. rewrite Rk. lia. }
    assert (REC : exists x, (if leaf rn then Ret None else c <- idx (childs rn) i ;; match c with Some c' => search cmp f1 h c' k | None => Ret None end) = Ret x).
    { rewrite L. destruct (nth_error (childs rn) i) as [[c|]|] eqn:NC.
      - unfold idx. rewrite NC. cbn [of_option bind]. destruct (C2 _ _ NC) as (nd & Ec & (Lc & _ & Sc & Rc & _)).
        subst f1. rewrite (search_leaf cmp _ _ _ _ _ _ Ec Lc Rc). eauto.
      - unfold idx. rewrite NC. cbn. eauto.
      - apply nth_error_None in NC. lia. }
    destruct (nth_error (keys rn) i) as [[k'|]|]; auto. destruct (is _ _); eauto.
  Qed.
  Lemma find_child_any k j : forall nd S, srep nd S -> j <= length S -> exists j', find_child cmp k j nd = Ret j' /\ j' <= j.
  Proof.
    induction j as [|i IH]; intros nd S R J; cbn [find_child]; [eauto|].
    destruct (nth_error S i) as [e|] eqn:N; [|apply nth_error_None in N; lia].
    rewrite (idx_keys _ _ _ _ R N). cbn [bind]. destruct e as [e|]; cbn [option_map]; [|eauto].
    destruct (is _ _); [|eauto]. destruct (IH nd S R) as (j' & E' & J'); [lia|]. exists j'. split; auto.
  Qed.
  Lemma leaf_at_set h a nd c : leaf_at h c -> (a = c -> leaf11 nd) -> leaf_at (list_set h a nd) c.
  Proof.
    intros (x & E & L) H. assert (LT := nth_lt _ _ _ E). destruct (Nat.eq_dec a c) as [<-|NE].
    - exists nd. split; [now apply nth_error_list_set_eq|auto].
    - exists x. split; [now rewrite nth_error_list_set_neq|auto].
  Qed.
  Lemma leaf_at_app h c l : leaf_at h c -> leaf_at (h ++ l) c.
  Proof. intros (x & E & L). exists x. split; auto. rewrite nth_error_app1; [auto|]. eapply nth_lt; eauto. Qed.

  Lemma insert_tall f h r m k v : tall h r m -> m < 10 ->
    exists h', insert_non_full cmp (S (S f)) r k v h = Ret (tt, h') /\ tall h' r (S m).
  Proof.
    intros (rn & SS & E & L & D & N & R & LS & LC & C1 & C2) LM.
    remember (Datatypes.S f) as f1. cbn [insert_non_full].
    rewrite (mbind_Ret _ _ _ _ _ (rd_Ret _ _ _ E)). rewrite L, N.
    destruct (find_child_any k m rn SS R) as (j & EJ & HJ); [lia|].
    erewrite mbind_Ret by (apply lift_Ret; exact EJ).
    destruct (C1 j HJ) as (c & NC). destruct (C2 _ _ NC) as (cn & Ec & Hc). assert (Hc' := Hc). destruct Hc' as (Lc & Dc & Sc & Rc & LSc).
    erewrite mbind_Ret by (apply lift_Ret; unfold child, idx; rewrite NC; reflexivity).
    rewrite (mbind_Ret _ _ _ _ _ (rd_Ret _ _ _ Ec)).
    assert (NEc : r <> c) by (intros ->; congruence).
    replace (length (keys cn)) with cap by (destruct Rc as [-> _]; rewrite map_length, LSc; reflexivity). rewrite Nat.eqb_refl.
    destruct (split_list SS j (m + 1 - j)) as (a & b & x & t & ES & LA & LB); [lia|].
    destruct (split_list (childs rn) (j + 1) (m - j)) as (ca & cb & cx & ct & EC & LCA & LCB); [lia|].
    destruct (nth_error Sc 10) as [e10|] eqn:N10; [|apply nth_error_None in N10; lia].
    destruct (splitChild_spec h r rn c cn a b x t ca cb cx ct Sc e10) as (self' & ESP & Q1 & Q2 & Q3 & Q4 & Q5); auto; try lia.
    { congruence. } { destruct b; cbn in *; [lia|discriminate]. }
    rewrite LA in ESP.
    set (h1 := list_set (list_set h c (set_n cn 10) ++ [fresh_half]) r self') in *.
    assert (LTr : r < length h) by (eapply nth_lt; eauto). assert (LTc : c < length h) by (eapply nth_lt; eauto).
    assert (Er1 : nth_error h1 r = Some self').
    { unfold h1. apply nth_error_list_set_eq. rewrite app_length, list_set_length. lia. }
    assert (KEEP : forall c', c' <> r -> leaf_at h c' -> leaf_at h1 c').
    { intros c' Hn Hl. unfold h1. apply leaf_at_set; [|congruence]. apply leaf_at_app. apply leaf_at_set; auto. }
    assert (NEW : leaf_at h1 (length h)).
    { exists fresh_half. split; [|apply leaf11_fresh]. unfold h1. rewrite nth_error_list_set_neq by lia.
      rewrite nth_error_app2 by (rewrite list_set_length; lia). rewrite list_set_length, Nat.sub_diag. reflexivity. }
    assert (NR : forall c', leaf_at h c' -> c' <> r) by (intros c' (x0 & X1 & X2 & _) ->; congruence).
    assert (CH : forall i c', nth_error (childs self') i = Some (Some c') -> leaf_at h1 c').
    { intros i c' Hi. rewrite Q5 in Hi. apply nth_error_In in Hi.
      assert (IN : Some c' = Some (length h) \/ In (Some c') (childs rn)).
      { rewrite EC. rewrite !in_app_iff in *. cbn in *. rewrite !in_app_iff in *. intuition. }
      destruct IN as [IN|IN]; [injection IN as ->; exact NEW|].
      apply In_nth_error in IN. destruct IN as (i' & IN). apply KEEP; [apply NR|]; eapply C2; eauto. }
    assert (T1 : forall i, i <= S m -> exists c', nth_error (childs self') i = Some (Some c')).
    { intros i Hi. rewrite Q5. destruct (Nat.lt_trichotomy i (j + 1)) as [Hlt|[->|Hgt]].
      - rewrite nth_error_app1 by lia. destruct (C1 i) as (c' & Hc'); [lia|]. rewrite EC, nth_error_app1 in Hc' by lia. eauto.
      - rewrite nth_error_app2, LCA, Nat.sub_diag by lia. cbn. eauto.
      - rewrite nth_error_app2 by lia. rewrite LCA. replace (i - (j + 1)) with (S (i - 1 - (j + 1))) by lia. cbn [nth_error].
        destruct (C1 (i - 1)) as (c' & Hc'); [lia|]. rewrite EC, nth_error_app2 in Hc' by lia. rewrite LCA in Hc'.
        rewrite nth_error_app1 in * by lia. eauto. }
    assert (TALL : tall h1 r (S m)).
    { exists self', (a ++ e10 :: b ++ t). split; [auto|]. split; [congruence|]. split; [auto|]. split; [lia|]. split; [auto|].
      split; [|split; [|split; auto]].
      - rewrite ES in LS. rewrite !app_length in *. cbn [length] in *. rewrite !app_length in *. lia.
      - rewrite Q5. rewrite EC in LC. rewrite !app_length in *. cbn [length] in *. rewrite !app_length in *. lia. }
    (* the chosen child *)
    assert (N10' : forall j', (j' = j \/ j' = S j) -> exists c' nd', nth_error (childs self') j' = Some (Some c') /\ nth_error h1 c' = Some nd' /\ leaf11 nd' /\ n nd' = 10).
    { intros j' [->| ->].
      - exists c, (set_n cn 10). split.
        + rewrite Q5. rewrite EC, nth_error_app1 in NC by lia. now rewrite nth_error_app1 by lia.
        + split; [|split; [now apply leaf11_set_n|reflexivity]]. unfold h1. rewrite nth_error_list_set_neq by auto.
          rewrite nth_error_app1 by (rewrite list_set_length; lia). now apply nth_error_list_set_eq.
      - exists (length h), fresh_half. split.
        + rewrite Q5. rewrite nth_error_app2 by lia. rewrite LCA. replace (S j - (j + 1)) with 0 by lia. reflexivity.
        + split; [|split; [apply leaf11_fresh|reflexivity]]. unfold h1. rewrite nth_error_list_set_neq by lia.
          rewrite nth_error_app2 by (rewrite list_set_length; lia). rewrite list_set_length, Nat.sub_diag. reflexivity. }
    assert (NJ : nth_error (a ++ e10 :: b ++ t) j = Some e10) by (rewrite nth_error_app2, LA, Nat.sub_diag by lia; reflexivity).
    assert (INNER : exists j', (j' = j \/ j' = S j) /\
      (_ <~ splitChild r j c ;; self <~ rd r ;; k0 <~ lift (idx (keys self) j) ;;
       mret (match k0 with Some k' => if is (cmp k' k) Less then S j else j | None => j end)) h = Ret (j', h1)).
    { eexists. split; [|erewrite mbind_Ret by exact ESP; rewrite (mbind_Ret _ _ _ _ _ (rd_Ret _ _ _ Er1));
        erewrite mbind_Ret by (apply lift_Ret; apply (idx_keys _ _ _ _ Q4 NJ)); reflexivity].
      destruct (option_map fst e10); auto. destruct (is _ _); auto. }
    destruct INNER as (j' & HJ' & EI). erewrite mbind_Ret by exact EI.
    rewrite (mbind_Ret _ _ _ _ _ (rd_Ret _ _ _ Er1)).
    destruct (N10' j' HJ') as (c' & nd' & NC' & Ec' & Hl & Hn).
    erewrite mbind_Ret by (apply lift_Ret; unfold child, idx; rewrite NC'; reflexivity).
    subst f1. destruct (insert_any f h1 c' nd' k v Ec' Hl Hn) as (nd2 & EF & H2).
    eexists. split; [exact EF|].
    destruct TALL as (rn1 & S1 & A1 & A2 & A3 & A4 & A5 & A6 & A7 & A8 & A9).
    assert (rn1 = self') by congruence. subst rn1.
    assert (c' <> r) by (intros ->; destruct Hl; congruence).
    exists self', S1. rewrite nth_error_list_set_neq by auto. repeat (split; [assumption|]).
    intros i c2 Hi. apply leaf_at_set; eauto.
  Qed.
  Lemma insert_tall_full f h r k v : tall h r 10 -> insert_non_full cmp (S f) r k v h = Panic.
  Proof.
    intros (rn & SS & E & L & D & N & R & LS & LC & C1 & C2). cbn [insert_non_full].
    rewrite (mbind_Ret _ _ _ _ _ (rd_Ret _ _ _ E)). rewrite L, N.
    destruct (find_child_any k 10 rn SS R) as (j & EJ & HJ); [lia|].
    erewrite mbind_Ret by (apply lift_Ret; exact EJ).
    destruct (C1 j HJ) as (c & NC). destruct (C2 _ _ NC) as (cn & Ec & (Lc & Dc & Sc & Rc & LSc)).
    erewrite mbind_Ret by (apply lift_Ret; unfold child, idx; rewrite NC; reflexivity).
    rewrite (mbind_Ret _ _ _ _ _ (rd_Ret _ _ _ Ec)).
    replace (length (keys cn)) with cap by (destruct Rc as [-> _]; rewrite map_length, LSc; reflexivity). rewrite Nat.eqb_refl.
    apply mbind_Panic, mbind_Panic. eapply splitChild_full; eauto. intros ->; congruence.
  Qed.
End Split.
