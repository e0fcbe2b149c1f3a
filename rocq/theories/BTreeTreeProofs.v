(** BTreeTreeProofs.v -- leaves and the inner root as the machine of BTreeTreeSpec. *)
From Verif Require Import Base BaseLemmas Effect CmpSpec VecSpec HashModel BTreeModel BTreeSpec BTreeHistory BTreeProofs BTreeMapProofs BTreeSafeProofs BTreeSplitProofs BTreeTreeSpec.
Local Open Scope nat_scope.

Section Tree.
  Context {K V : Type}.
  Variable cmp : K -> K -> ordering.
  Implicit Types (nd : node K V) (h : heap K V) (k : K) (v : V) (S : list (option (K * V))).

  (** A leaf that holds a kid. *)
  Definition kid_node nd (c : kid K V) : Prop :=
    leaf nd = true /\ deg nd = 0 /\ n nd = used c /\ srep nd (cells c) /\ length (cells c) = 11 /\ (used c = 10 \/ used c = 11).

  Lemma gfe_le k S : greater_from_end cmp k S <= length S.
  Proof. induction S as [|[e|] S IH]; cbn; try lia. destruct (cmp (fst e) k); lia. Qed.
  Lemma shift_greater_opt k l : forall nd x t, srep nd (l ++ x :: t) ->
    let m := length l - greater_from_end cmp k (rev l) in
    exists nd' y, shift_greater cmp k (length l) nd = Ret (nd', m) /\ srep nd' (firstn m l ++ y :: skipn m l ++ t) /\ same nd nd'.
  Proof.
    induction l as [|e l IH] using rev_ind; intros nd x t R; cbn zeta.
    - exists nd, x. cbn. split; [reflexivity|]. split; [exact R|apply same_refl].
    - rewrite rev_unit, app_length. cbn [length]. rewrite Nat.add_1_r. cbn [shift_greater greater_from_end].
      rewrite <- app_assoc in R. cbn [app] in R.
      assert (N : nth_error (l ++ e :: x :: t) (length l) = Some e) by (rewrite nth_error_app2, Nat.sub_diag by lia; reflexivity).
      rewrite (idx_keys _ _ _ _ R N). cbn [bind].
      assert (STOP : exists nd' y, Ret (nd, Datatypes.S (length l)) = Ret (nd', Datatypes.S (length l) - 0) /\
        srep nd' (firstn (Datatypes.S (length l) - 0) (l ++ [e]) ++ y :: skipn (Datatypes.S (length l) - 0) (l ++ [e]) ++ t) /\ same nd nd').
      { exists nd, x. split; [rewrite Nat.sub_0_r; reflexivity|]. split; [|apply same_refl].
        rewrite Nat.sub_0_r, firstn_all2, skipn_all2 by (rewrite app_length; cbn; lia). rewrite <- app_assoc. exact R. }
      destruct e as [e|]; cbn [option_map]; [|exact STOP].
      destruct (cmp (fst e) k); cbn [is]; [exact STOP|exact STOP|].
      destruct (copy_kv_rep nd _ (length l) nd _ (Datatypes.S (length l)) _ R R N) as (nd1 & E1 & R1 & S1).
      { rewrite app_length. cbn. lia. }
      rewrite E1. cbn [bind]. rewrite list_set_app2 in R1 by lia. replace (Datatypes.S (length l) - length l) with 1 in R1 by lia. cbn [list_set] in R1.
      destruct (IH nd1 (Some e) (Some e :: t) R1) as (nd' & y & E' & R' & S'). cbn zeta in *.
      assert (LE := gfe_le k (rev l)). rewrite rev_length in LE.
      replace (Datatypes.S (length l) - Datatypes.S (greater_from_end cmp k (rev l))) with (length l - greater_from_end cmp k (rev l)) by lia.
      exists nd', y. split; [exact E'|]. split; [|eapply same_trans; eauto].
      rewrite firstn_app, skipn_app. replace (length l - greater_from_end cmp k (rev l) - length l) with 0 by lia. cbn [firstn skipn].
      rewrite app_nil_r, <- !app_assoc. exact R'.
  Qed.
  Lemma settle_length e S : length (settle cmp e S) = Datatypes.S (length S).
  Proof. unfold settle. rewrite app_length. cbn [length]. rewrite firstn_length, skipn_length. lia. Qed.
  Lemma leaf_insert f h a nd c k v : nth_error h a = Some nd -> kid_node nd c -> used c = 10 ->
    exists nd', insert_non_full cmp (Datatypes.S f) a k v h = Ret (tt, list_set h a nd') /\ kid_node nd' (filled cmp (k, v) c).
  Proof.
    intros E (L & D & N & R & LC & _) U. cbn [insert_non_full]. rewrite (mbind_Ret _ _ _ _ _ (rd_Ret _ _ _ E)). rewrite L.
    assert (SP : cells c = firstn 10 (cells c) ++ nth 10 (cells c) None :: []).
    { rewrite <- (firstn_skipn 10 (cells c)) at 1. f_equal. destruct (nth_error (cells c) 10) as [x|] eqn:NX; [|apply nth_error_None in NX; lia].
      rewrite (skipn_cons _ _ _ NX), skipn_all2 by lia. f_equal. symmetry. now apply nth_error_nth. }
    assert (L10 : length (firstn 10 (cells c)) = 10) by (rewrite firstn_length; lia).
    rewrite SP in R. destruct (shift_greater_opt k _ nd _ _ R) as (nd1 & y & E1 & R1 & (S1a & S1b & S1c & S1d)). cbn zeta in *.
    set (m := length (firstn 10 (cells c)) - greater_from_end cmp k (rev (firstn 10 (cells c)))) in *.
    assert (M : m <= 10) by (unfold m; lia).
    rewrite N, U. rewrite L10 in E1. erewrite mbind_Ret by (apply lift_Ret; exact E1). cbn [fst snd].
    destruct (set_kv_rep nd1 _ m (Some (k, v)) R1) as (nd2 & E2 & R2 & (S2a & S2b & S2c & S2d)).
    { rewrite app_length. cbn [length]. rewrite firstn_length. lia. }
    cbn [option_map fst snd] in E2. erewrite mbind_Ret by (apply lift_Ret; exact E2).
    rewrite wr_Ret by (eapply nth_lt; eauto). eexists. split; [reflexivity|].
    unfold kid_node, filled. cbn [leaf deg n set_n cells used].
    split; [congruence|]. split; [congruence|]. split; [lia|]. split.
    - eapply srep_same; [|reflexivity|reflexivity]. unfold settle. cbn [fst]. fold m.
      rewrite list_set_app2 in R2 by (rewrite firstn_length; lia). rewrite firstn_length in R2.
      replace (m - Nat.min m (length (firstn 10 (cells c)))) with 0 in R2 by lia. cbn [list_set] in R2. rewrite app_nil_r in R2. exact R2.
    - split; [rewrite settle_length; lia|auto].
  Qed.

  (** *** Removing from a leaf *)
  Lemma find_key_opt nd k l : forall a t, srep nd (a ++ l ++ t) ->
    find_key cmp k (length l) (length a) nd = Ret (length a + below cmp k l).
  Proof.
    induction l as [|e l IH]; intros a t R; cbn [length find_key below]; [f_equal; lia|].
    assert (N : nth_error (a ++ (e :: l) ++ t) (length a) = Some e) by (rewrite nth_error_app2, Nat.sub_diag by lia; reflexivity).
    rewrite (idx_keys _ _ _ _ R N). cbn [bind]. destruct e as [e|]; cbn [option_map]; [|f_equal; lia].
    destruct (cmp (fst e) k); cbn [is]; [|f_equal; lia|f_equal; lia].
    specialize (IH (a ++ [Some e]) t). rewrite app_length in IH. cbn [length] in IH. rewrite Nat.add_1_r in IH.
    rewrite <- app_assoc in IH. rewrite (IH R). f_equal. lia.
  Qed.
  Lemma below_le k S : below cmp k S <= length S.
  Proof. induction S as [|[e|] S IH]; cbn; try lia. destruct (cmp (fst e) k); lia. Qed.
  Lemma close_gap_opt b : forall nd a x t, srep nd (a ++ x :: b ++ t) ->
    exists nd', close_gap (length b) (length a + 1) nd = Ret nd' /\ same nd nd' /\
      srep nd' (a ++ b ++ (match b with [] => x | _ => None end) :: t).
  Proof.
    induction b as [|e b IH]; intros nd a x t R; cbn [length close_gap].
    - exists nd. split; [reflexivity|]. split; [apply same_refl|exact R].
    - rewrite Nat.add_1_r. cbn [less_one bind]. cbn [app] in R.
      assert (N : nth_error (a ++ x :: e :: b ++ t) (Datatypes.S (length a)) = Some e).
      { rewrite nth_error_app2 by lia. now replace (Datatypes.S (length a) - length a) with 1 by lia. }
      edestruct (copy_kv_rep _ _ _ _ _ (length a) _ R R N) as (nd1 & E1 & R1 & S1).
      { rewrite app_length. cbn. lia. }
      rewrite E1. cbn [bind].
      edestruct (set_kv_rep _ _ (Datatypes.S (length a)) None R1) as (nd2 & E2 & R2 & S2).
      { rewrite list_set_length, app_length. cbn. lia. }
      cbn [option_map] in E2. rewrite E2. cbn [bind].
      rewrite (list_set_app2 a) in R2 by lia. rewrite Nat.sub_diag in R2. cbn [list_set] in R2.
      rewrite list_set_app2 in R2 by lia. replace (Datatypes.S (length a) - length a) with 1 in R2 by lia. cbn [list_set] in R2.
      destruct (IH nd2 (a ++ [e]) None t) as (nd' & E' & S' & R'); [rewrite <- app_assoc; exact R2|].
      exists nd'. rewrite app_length in E'. cbn [length] in E'.
      replace (Datatypes.S (Datatypes.S (length a))) with (length a + 1 + 1) by lia.
      split; [exact E'|]. split; [eapply same_trans; [exact S1|]; eapply same_trans; eauto|].
      rewrite <- app_assoc in R'. cbn [app]. destruct b; exact R'.
  Qed.
  Lemma leaf_remove f h a nd c k : nth_error h a = Some nd -> kid_node nd c -> used c = 11 ->
    exists nd', remove_ cmp (Datatypes.S f) a k h = Ret (tt, list_set h a nd') /\ kid_node nd' (kid_remove cmp k c).
  Proof.
    intros E KN U. assert (KN' := KN). destruct KN' as (L & D & N & R & LC & _). cbn [remove_].
    rewrite (mbind_Ret _ _ _ _ _ (rd_Ret _ _ _ E)). rewrite N, U.
    assert (F := find_key_opt nd k (cells c) [] []). cbn [length app Nat.add] in F. rewrite app_nil_r, LC in F. specialize (F R).
    erewrite mbind_Ret by (apply lift_Ret; exact F).
    unfold kid_remove. rewrite U, firstn_all2 by lia. set (i := below cmp k (cells c)).
    assert (NONE : exists nd', Ret (tt, h) = Ret (tt, list_set h a nd') /\ kid_node nd' c).
    { exists nd. rewrite list_set_same by auto. auto. }
    destruct (Nat.ltb_spec i 11) as [LT|GE].
    2:{ erewrite mbind_Ret by reflexivity. rewrite L. rewrite nth_overflow by lia. cbn [holds]. exact NONE. }
    destruct (nth_error (cells c) i) as [x|] eqn:NX; [|apply nth_error_None in NX; lia].
    rewrite (nth_error_nth _ _ None NX). rewrite (idx_keys _ _ _ _ R NX).
    erewrite mbind_Ret by reflexivity. destruct x as [e|]; cbn [option_map holds]; [|rewrite L; exact NONE].
    destruct (cmp (fst e) k); cbn [is]; rewrite L; [exact NONE| |exact NONE].
    unfold remove_from_leaf. rewrite (mbind_Ret _ _ _ _ _ (rd_Ret _ _ _ E)). rewrite N, U.
    assert (SP : cells c = firstn i (cells c) ++ Some e :: skipn (Datatypes.S i) (cells c) ++ []).
    { rewrite <- (firstn_skipn i (cells c)) at 1. rewrite (skipn_cons _ _ _ NX), app_nil_r. reflexivity. }
    assert (R' := R). rewrite SP in R'. destruct (close_gap_opt _ nd _ _ _ R') as (nd1 & E1 & (S1a & S1b & S1c & S1d) & R1).
    rewrite firstn_length, skipn_length, LC, Nat.min_l in E1 by lia.
    replace (11 - (i + 1)) with (11 - Datatypes.S i) by lia.
    erewrite mbind_Ret by (apply lift_Ret; exact E1). rewrite S1c, N, U.
    erewrite mbind_Ret by reflexivity. rewrite wr_Ret by (eapply nth_lt; eauto). eexists. split; [reflexivity|].
    unfold kid_node, pull. cbn [leaf deg n set_n cells used]. rewrite U.
    assert (CE : (if Datatypes.S i =? 11 then cells c else firstn i (cells c) ++ firstn (11 - Datatypes.S i) (skipn (Datatypes.S i) (cells c)) ++ None :: skipn 11 (cells c)) =
       firstn i (cells c) ++ skipn (Datatypes.S i) (cells c) ++ (match skipn (Datatypes.S i) (cells c) with [] => Some e | _ => None end) :: []).
    { rewrite (skipn_all2 (n := 11)) by lia. rewrite (firstn_all2 (n := 11 - Datatypes.S i)) by (rewrite skipn_length; lia).
      destruct (Nat.eqb_spec (Datatypes.S i) 11) as [EQ|NE].
      - rewrite (skipn_all2 (n := Datatypes.S i)) by lia. rewrite SP at 1. rewrite (skipn_all2 (n := Datatypes.S i)) by lia. reflexivity.
      - destruct (skipn (Datatypes.S i) (cells c)) as [|y t] eqn:SK; [|reflexivity]. apply (f_equal (@length _)) in SK. rewrite skipn_length in SK. cbn in SK. lia. }
    split; [congruence|]. split; [congruence|]. split; [reflexivity|]. split; [|split; [|auto]].
    - rewrite CE. eapply srep_same; [exact R1|reflexivity|reflexivity].
    - rewrite CE. rewrite !app_length. cbn [length]. rewrite firstn_length, skipn_length. lia.
  Qed.

  (** *** The inner root and its leaves *)
  Definition kids_at h (addrs : list nat) (kids : list (kid K V)) : Prop :=
    length kids = length addrs /\
    forall i a, nth_error addrs i = Some a -> exists nd, nth_error h a = Some nd /\ kid_node nd (nth i kids no_kid).
  Definition root_node nd S (addrs : list nat) : Prop :=
    leaf nd = false /\ deg nd = 11 /\ n nd = length S /\ 1 <= length S <= 10 /\ srep nd (S ++ gaps (11 - length S)) /\
    childs nd = map Some addrs ++ repeat None (12 - length addrs) /\ length addrs = Datatypes.S (length S) /\ NoDup addrs.
  Definition two_at h (r : nat) (addrs : list nat) S (kids : list (kid K V)) : Prop :=
    exists rn, nth_error h r = Some rn /\ root_node rn S addrs /\ kids_at h addrs kids.
  Definition two h (r : nat) S (kids : list (kid K V)) : Prop := exists addrs, two_at h r addrs S kids.

  Lemma root_apart h r rn S addrs kids : nth_error h r = Some rn -> root_node rn S addrs -> kids_at h addrs kids -> ~ In r addrs.
  Proof. intros E RN (_ & KA) I. apply In_nth_error in I. destruct I as (i & I). destruct (KA i r I) as (nd & E' & (L & _)). destruct RN as (L' & _). congruence. Qed.
  Lemma addr_apart (addrs : list nat) i j a b : NoDup addrs -> nth_error addrs i = Some a -> nth_error addrs j = Some b -> i <> j -> a <> b.
  Proof. intros ND A B N E. subst b. apply N. apply (proj1 (NoDup_nth_error addrs) ND); [eapply nth_lt; eauto|congruence]. Qed.
  Lemma child_addr nd S addrs i a : root_node nd S addrs -> nth_error addrs i = Some a -> child nd i = Ret a.
  Proof.
    intros (_ & _ & _ & _ & _ & C & _) N. unfold child, idx. rewrite C, nth_error_app1 by (rewrite map_length; eapply nth_lt; eauto).
    rewrite nth_error_map, N. reflexivity.
  Qed.
  Lemma addr_of nd S addrs i : root_node nd S addrs -> i <= length S -> exists a, nth_error addrs i = Some a.
  Proof. intros (_ & _ & _ & _ & _ & _ & LA & _) L. destruct (nth_error addrs i) eqn:N; [eauto|]. apply nth_error_None in N. lia. Qed.
  Lemma nth_list_set {A} (l : list A) i j x d : i < length l -> nth j (list_set l i x) d = if j =? i then x else nth j l d.
  Proof.
    intros L. destruct (Nat.eqb_spec j i) as [->|NE].
    - apply nth_error_nth. now apply nth_error_list_set_eq.
    - destruct (nth_error l j) as [y|] eqn:N.
      + rewrite (nth_error_nth _ _ d N). apply nth_error_nth. rewrite nth_error_list_set_neq by auto. exact N.
      + apply nth_error_None in N. rewrite !nth_overflow; [reflexivity|lia|rewrite list_set_length; lia].
  Qed.
  (** Writing a leaf. *)
  Lemma kids_set h addrs kids i a nd c : kids_at h addrs kids -> NoDup addrs -> nth_error addrs i = Some a -> kid_node nd c ->
    kids_at (list_set h a nd) addrs (list_set kids i c).
  Proof.
    intros (L & KA) ND N KN. split; [now rewrite list_set_length|]. intros j b NB.
    assert (LI : i < length kids) by (rewrite L; eapply nth_lt; eauto). rewrite nth_list_set by auto.
    destruct (Nat.eqb_spec j i) as [->|NE].
    - assert (b = a) by congruence. subst b. destruct (KA _ _ N) as (x & E & _). exists nd. split; [|exact KN].
      apply nth_error_list_set_eq. eapply nth_lt; eauto.
    - destruct (KA _ _ NB) as (x & E & Q). exists x. split; [|exact Q]. rewrite nth_error_list_set_neq; [exact E|].
      intros ->. exact (addr_apart _ _ _ _ _ ND NB N NE eq_refl).
  Qed.
  (** Writing another node. *)
  Lemma kids_other h addrs kids r x : kids_at h addrs kids -> ~ In r addrs -> kids_at (list_set h r x) addrs kids.
  Proof.
    intros (L & KA) NI. split; [auto|]. intros i a N. destruct (KA _ _ N) as (nd & E & Q). exists nd. split; [|exact Q].
    rewrite nth_error_list_set_neq; [exact E|]. intros ->. apply NI. eapply nth_error_In; eauto.
  Qed.
  Lemma kids_app h addrs kids l : kids_at h addrs kids -> kids_at (h ++ l) addrs kids.
  Proof. intros (L & KA). split; [auto|]. intros i a N. destruct (KA _ _ N) as (nd & E & Q). exists nd. split; [|exact Q]. rewrite nth_error_app1; [exact E|eapply nth_lt; eauto]. Qed.

  (** *** Finding *)
  Definition spot_addr (r : nat) (addrs : list nat) (p : spot) : nat * nat :=
    match p with Sep i => (r, i) | Cell i j => (nth i addrs 0, j) end.
  Lemma scan_skip k S g : forall i, scan cmp k (map (option_map fst) (S ++ gaps g)) i = i + skip cmp k S.
  Proof.
    induction S as [|[e|] S IH]; intros i; cbn [app map option_map scan skip].
    - destruct g; cbn; lia.
    - destruct (cmp k (fst e)); cbn [is]; try lia. rewrite IH. lia.
    - lia.
  Qed.
  Lemma skip_le k S : skip cmp k S <= length S.
  Proof. induction S as [|[e|] S IH]; cbn; try lia. destruct (cmp k (fst e)); lia. Qed.
  Lemma nth_gaps S g i : nth i (S ++ gaps g) None = nth i S None.
  Proof.
    destruct (Nat.lt_ge_cases i (length S)) as [L|G]; [now rewrite app_nth1|]. rewrite app_nth2 by lia. rewrite (nth_overflow S) by lia.
    unfold gaps. destruct (Nat.lt_ge_cases (i - length S) g); [apply nth_repeat|apply nth_overflow; rewrite repeat_length; lia].
  Qed.
  Lemma nth_nth_error {A} (l : list (option A)) i : match nth_error l i with Some (Some e) => Some e | _ => None end = nth i l None.
  Proof. revert i. induction l; destruct i; cbn; auto. now destruct a. Qed.
  Lemma search_two f h r rn S addrs kids k : nth_error h r = Some rn -> root_node rn S addrs -> kids_at h addrs kids ->
    search cmp (Datatypes.S (Datatypes.S f)) h r k = Ret (option_map (spot_addr r addrs) (find cmp S kids k)).
  Proof.
    intros E RN KA. assert (RN' := RN). destruct RN' as (L & D & N & LS & R & C & LA & ND).
    remember (Datatypes.S f) as f1. cbn [search]. unfold idx at 1. rewrite E. cbn [of_option bind].
    assert (RK : keys rn = map (option_map fst) (S ++ gaps (11 - length S))) by apply R. rewrite RK.
    rewrite scan_skip. cbn [Nat.add]. set (i := skip cmp k S). assert (LI := skip_le k S). fold i in LI.
    destruct (addr_of _ _ _ i RN LI) as (a & NA). destruct (proj2 KA _ _ NA) as (nd & Ea & (La & _ & _ & Ra & _)).
    assert (BELOW : (if leaf rn then Ret None else c <- idx (childs rn) i ;; match c with Some c' => search cmp f1 h c' k | None => Ret None end) =
       Ret (option_map (spot_addr r addrs) (option_map (Cell i) (seek cmp k (cells (nth i kids no_kid)) 0)))).
    { rewrite L. unfold idx. rewrite C, nth_error_app1 by (rewrite map_length; eapply nth_lt; eauto). rewrite nth_error_map, NA. cbn [option_map of_option bind].
      subst f1. rewrite (search_leaf cmp _ _ _ _ _ _ Ea La Ra). destruct (seek cmp k _ 0); cbn [option_map spot_addr]; [|reflexivity].
      rewrite (nth_error_nth _ _ 0 NA). reflexivity. }
    unfold find. fold i. rewrite nth_error_map. rewrite <- (nth_nth_error S i), nth_nth_error, <- (nth_gaps S (11 - length S) i), <- nth_nth_error.
    destruct (nth_error (S ++ gaps (11 - length S)) i) as [[e|]|]; cbn [option_map]; [|exact BELOW|exact BELOW].
    destruct (cmp k (fst e)); cbn [is option_map spot_addr]; [exact BELOW|reflexivity|exact BELOW].
  Qed.
  Lemma find_valid S kids k p : find cmp S kids k = Some p -> exists e, content S kids p = Some e.
  Proof.
    unfold find. set (i := skip cmp k S).
    assert (B : option_map (Cell i) (seek cmp k (cells (nth i kids no_kid)) 0) = Some p -> exists e, content S kids p = Some e).
    { destruct (seek cmp k _ 0) as [j|] eqn:SK; [|discriminate]. intros H. injection H as <-. destruct (seek_Some0 _ _ _ _ SK) as (e & N & _).
      exists e. cbn [content]. now apply nth_error_nth. }
    destruct (nth i S None) as [e|] eqn:N; [|exact B]. destruct (cmp k (fst e)); [exact B| |exact B]. intros H. injection H as <-. cbn [content]. eauto.
  Qed.

  (** *** Reading and writing what was found *)
  Lemma spot_at h r rn S addrs kids p e : nth_error h r = Some rn -> root_node rn S addrs -> kids_at h addrs kids -> content S kids p = Some e ->
    exists nd S', nth_error h (fst (spot_addr r addrs p)) = Some nd /\ srep nd S' /\ nth_error S' (snd (spot_addr r addrs p)) = Some (Some e).
  Proof.
    intros E RN KA CO. destruct p as [i|i j]; cbn [content spot_addr fst snd] in *.
    - exists rn, (S ++ gaps (11 - length S)). split; [exact E|]. split; [apply RN|]. rewrite <- nth_nth_error in CO.
      destruct (nth_error S i) as [x|] eqn:N; [|discriminate]. destruct x; [|discriminate]. rewrite nth_error_app1 by (eapply nth_lt; eauto). congruence.
    - assert (LI : i < length addrs).
      { rewrite <- (proj1 KA). destruct (Nat.lt_ge_cases i (length kids)) as [|G]; [auto|]. rewrite (nth_overflow kids) in CO by lia. destruct j; discriminate. }
      destruct (nth_error addrs i) as [a|] eqn:NA; [|apply nth_error_None in NA; lia]. rewrite (nth_error_nth _ _ 0 NA).
      destruct (proj2 KA _ _ NA) as (nd & Ea & (_ & _ & _ & Ra & _)). exists nd, (cells (nth i kids no_kid)). split; [exact Ea|]. split; [exact Ra|].
      rewrite <- nth_nth_error in CO. destruct (nth_error (cells (nth i kids no_kid)) j) as [[x|]|]; congruence.
  Qed.
  Lemma value_spot h r rn S addrs kids p : nth_error h r = Some rn -> root_node rn S addrs -> kids_at h addrs kids ->
    forall e, content S kids p = Some e -> value_at h (fst (spot_addr r addrs p)) (snd (spot_addr r addrs p)) = Ret (snd e).
  Proof.
    intros E RN KA e CO. destruct (spot_at _ _ _ _ _ _ _ _ E RN KA CO) as (nd & S' & E' & R' & N').
    unfold value_at, idx at 1. rewrite E'. cbn [of_option bind]. rewrite (idx_values _ _ _ _ R' N'). reflexivity.
  Qed.
  Lemma srep_revalue nd S i e v : srep nd S -> nth_error S i = Some (Some e) ->
    srep (mkNode (leaf nd) (deg nd) (keys nd) (list_set (values nd) i (Some v)) (n nd) (childs nd)) (list_set S i (Some (fst e, v))).
  Proof.
    intros [Rk Rv] N. split; cbn [keys values]; rewrite map_list_set; cbn [option_map fst snd].
    - rewrite Rk. symmetry. apply list_set_same. now rewrite nth_error_map, N.
    - now rewrite Rv.
  Qed.
  Lemma write_spot h r rn S addrs kids p e v nd : nth_error h r = Some rn -> root_node rn S addrs -> kids_at h addrs kids ->
    content S kids p = Some e -> nth_error h (fst (spot_addr r addrs p)) = Some nd ->
    two (list_set h (fst (spot_addr r addrs p)) (mkNode (leaf nd) (deg nd) (keys nd) (list_set (values nd) (snd (spot_addr r addrs p)) (Some v)) (n nd) (childs nd)))
      r (fst (set_value S kids p v)) (snd (set_value S kids p v)).
  Proof.
    intros E RN KA CO EN. assert (NI := root_apart _ _ _ _ _ _ E RN KA). destruct p as [i|i j]; cbn [content spot_addr fst snd set_value] in *.
    - assert (nd = rn) by congruence. subst nd. rewrite CO. cbn [with_value option_map].
      assert (N : nth_error S i = Some (Some e)). { rewrite <- nth_nth_error in CO. destruct (nth_error S i) as [[x|]|]; congruence. }
      assert (LI := nth_lt _ _ _ N). destruct RN as (L & D & NN & LS & R & C & LA & ND).
      exists addrs. eexists. split; [apply nth_error_list_set_eq; eapply nth_lt; eauto|]. split; [|apply kids_other; auto].
      unfold root_node. cbn [leaf deg n childs]. rewrite list_set_length. repeat (split; [assumption|]).
      split; [|auto]. assert (N' : nth_error (S ++ gaps (11 - length S)) i = Some (Some e)) by (rewrite nth_error_app1; auto).
      assert (R' := srep_revalue _ _ _ _ v R N'). rewrite list_set_app1 in R' by auto. exact R'.
    - assert (LI : i < length addrs).
      { rewrite <- (proj1 KA). destruct (Nat.lt_ge_cases i (length kids)) as [|G]; [auto|]. rewrite (nth_overflow kids) in CO by lia. destruct j; discriminate. }
      destruct (nth_error addrs i) as [a|] eqn:NA; [|apply nth_error_None in NA; lia]. rewrite (nth_error_nth _ _ 0 NA) in *.
      destruct (proj2 KA _ _ NA) as (nd' & Ea & (L & D & NN & R & LC & U)). assert (nd' = nd) by congruence. subst nd'.
      assert (N : nth_error (cells (nth i kids no_kid)) j = Some (Some e)).
      { rewrite <- nth_nth_error in CO. destruct (nth_error (cells (nth i kids no_kid)) j) as [[x|]|]; congruence. }
      rewrite CO. cbn [with_value option_map]. exists addrs, rn. split; [|split; [exact RN|]].
      + rewrite nth_error_list_set_neq; [exact E|]. intros ->. apply NI. eapply nth_error_In; eauto.
      + apply kids_set; auto; [apply RN|]. unfold kid_node. cbn [leaf deg n cells used]. rewrite list_set_length.
        repeat (split; [assumption|]). split; [apply srep_revalue; auto|]. auto.
  Qed.

  (** *** A new key *)
  Lemma find_child_opt k l : forall nd t, srep nd (l ++ t) -> find_child cmp k (length l) nd = Ret (length l - greater_from_end cmp k (rev l)).
  Proof.
    induction l as [|e l IH] using rev_ind; intros nd t R; [reflexivity|].
    rewrite rev_unit, app_length. cbn [length]. rewrite Nat.add_1_r. cbn [find_child greater_from_end].
    rewrite <- app_assoc in R. cbn [app] in R.
    assert (N : nth_error (l ++ e :: t) (length l) = Some e) by (rewrite nth_error_app2, Nat.sub_diag by lia; reflexivity).
    rewrite (idx_keys _ _ _ _ R N). cbn [bind]. destruct e as [e|]; cbn [option_map]; [|f_equal; lia].
    destruct (cmp (fst e) k); cbn [is]; [f_equal; lia|f_equal; lia|]. rewrite (IH nd _ R). f_equal.
  Qed.
  Lemma split_two h r rn S addrs kids i a nd : nth_error h r = Some rn -> root_node rn S addrs -> kids_at h addrs kids ->
    i <= length S -> length S < 10 -> nth_error addrs i = Some a -> nth_error h a = Some nd ->
    let c := nth i kids no_kid in
    let up := nth 10 (cells c) None in
    exists h1 rn1, splitChild r i a h = Ret (tt, h1) /\ nth_error h1 r = Some rn1 /\ length h <= length h1 /\
      root_node rn1 (firstn i S ++ up :: skipn i S) (firstn (i + 1) addrs ++ length h :: skipn (i + 1) addrs) /\
      kids_at h1 (firstn (i + 1) addrs ++ length h :: skipn (i + 1) addrs)
        (firstn i kids ++ [mkKid (cells c) 10; mkKid (repeat None 11) 10] ++ skipn (Datatypes.S i) kids).
  Proof.
    intros E RN KA LI L10 NA Ea c up. assert (NI := root_apart _ _ _ _ _ _ E RN KA). assert (RN' := RN).
    destruct RN' as (L & D & N & LS & R & C & LA & ND). destruct (proj2 KA _ _ NA) as (nd' & Ea' & (La & Da & Na & Ra & LC & U)).
    assert (nd' = nd) by congruence. subst nd'. fold c in Na, Ra, LC, U.
    assert (LTr := nth_lt _ _ _ E). assert (LTa := nth_lt _ _ _ Ea). assert (LTi := nth_lt _ _ _ NA).
    assert (NE : r <> a) by (intros ->; apply NI; eapply nth_error_In; eauto).
    assert (N10 : nth_error (cells c) 10 = Some up). { destruct (nth_error (cells c) 10) eqn:X; [|apply nth_error_None in X; lia]. unfold up. now rewrite (nth_error_nth _ _ None X). }
    assert (LK : length kids = length addrs) by apply KA.
    destruct (splitChild_spec h r rn a nd (firstn i S) (skipn i S ++ [None]) None (gaps (9 - length S))
                (map Some (firstn (i + 1) addrs)) (map Some (skipn (i + 1) addrs)) None (repeat None (11 - length addrs)) (cells c) up)
      as (rn1 & ESP & Q1 & Q2 & Q3 & Q4 & Q5); auto.
    { rewrite app_length, firstn_length, skipn_length. cbn [length]. lia. }
    { replace (firstn i S ++ (skipn i S ++ [None]) ++ None :: gaps (9 - length S)) with (S ++ gaps (11 - length S)); [exact R|].
      rewrite <- (firstn_skipn i S) at 1. rewrite <- !app_assoc. do 2 f_equal. replace (11 - length S) with (Datatypes.S (Datatypes.S (9 - length S))) by lia. reflexivity. }
    { destruct (skipn i S); discriminate. }
    { rewrite C. rewrite <- (firstn_skipn (i + 1) addrs) at 1. rewrite map_app, <- app_assoc. do 2 f_equal.
      replace (12 - length addrs) with (Datatypes.S (11 - length addrs)) by lia. reflexivity. }
    { rewrite map_length, !firstn_length. lia. }
    { rewrite !map_length, firstn_length, skipn_length. lia. }
    rewrite firstn_length, Nat.min_l in ESP by lia.
    eexists _, rn1. split; [exact ESP|]. set (h1 := list_set (list_set h a (set_n nd 10) ++ [fresh_half]) r rn1).
    assert (LH : length h1 = Datatypes.S (length h)) by (unfold h1; rewrite list_set_length, app_length, list_set_length; cbn; lia).
    split; [unfold h1; apply nth_error_list_set_eq; rewrite app_length, list_set_length; lia|]. split; [lia|]. split.
    - split; [congruence|]. split; [exact Q2|]. assert (LS' : length (firstn i S ++ up :: skipn i S) = Datatypes.S (length S)).
      { rewrite app_length. cbn [length]. rewrite firstn_length, skipn_length. lia. }
      assert (LA' : length (firstn (i + 1) addrs ++ length h :: skipn (i + 1) addrs) = Datatypes.S (length addrs)).
      { rewrite app_length. cbn [length]. rewrite firstn_length, skipn_length. lia. }
      rewrite LS', LA'. split; [lia|]. split; [lia|]. split; [|split; [|split]].
      + rewrite <- app_assoc. cbn [app]. replace (11 - Datatypes.S (length S)) with (Datatypes.S (9 - length S)) by lia. rewrite <- app_assoc in Q4. exact Q4.
      + rewrite Q5, map_app. cbn [map]. rewrite <- app_assoc. cbn [app]. do 4 f_equal.
      + lia.
      + apply NoDup_Add with (a := length h) (l := addrs); [rewrite <- (firstn_skipn (i + 1) addrs) at 1; apply Add_app|].
        split; [exact ND|]. intros I. apply In_nth_error in I. destruct I as (j & I). destruct (proj2 KA _ _ I) as (x & X & _). apply nth_lt in X. lia.
    - split; [rewrite !app_length; cbn [length]; rewrite !firstn_length, !skipn_length; lia|].
      intros j b NB. destruct (Nat.lt_trichotomy j (i + 1)) as [LT|[EQ|GT]].
      + rewrite nth_error_app1 in NB by (rewrite firstn_length; lia). rewrite nth_error_firstn in NB. destruct (j <? i + 1); [|discriminate].
        destruct (Nat.eq_dec j i) as [->|NJ].
        * assert (b = a) by congruence. subst b. exists (set_n nd 10). split.
          -- unfold h1. rewrite nth_error_list_set_neq by auto. rewrite nth_error_app1 by (rewrite list_set_length; lia). now apply nth_error_list_set_eq.
          -- rewrite app_nth2 by (rewrite firstn_length; lia). rewrite firstn_length, Nat.min_l, Nat.sub_diag by lia. cbn [app nth].
             unfold kid_node. cbn [leaf deg n set_n cells used]. repeat (split; [assumption || reflexivity|]). auto.
        * destruct (proj2 KA _ _ NB) as (x & X & Q). exists x. split.
          -- assert (NEa : b <> a) by (apply (addr_apart _ _ _ _ _ ND NB NA); auto). assert (NEr : b <> r) by (intros ->; apply NI; eapply nth_error_In; eauto).
             unfold h1. rewrite nth_error_list_set_neq by auto. rewrite nth_error_app1 by (rewrite list_set_length; eapply nth_lt; eauto). now rewrite nth_error_list_set_neq by auto.
          -- rewrite app_nth1 by (rewrite firstn_length; lia). rewrite <- (firstn_skipn i kids) in Q. rewrite app_nth1 in Q by (rewrite firstn_length; lia). exact Q.
      + subst j. rewrite nth_error_app2 in NB by (rewrite firstn_length; lia). rewrite firstn_length in NB. replace (i + 1 - Nat.min (i + 1) (length addrs)) with 0 in NB by lia.
        injection NB as <-. exists fresh_half. split.
        * unfold h1. rewrite nth_error_list_set_neq by lia. rewrite nth_error_app2 by (rewrite list_set_length; lia). rewrite list_set_length, Nat.sub_diag. reflexivity.
        * rewrite app_nth2 by (rewrite firstn_length; lia). rewrite firstn_length. replace (i + 1 - Nat.min i (length kids)) with 1 by lia. cbn [app nth].
          repeat split; auto.
      + rewrite nth_error_app2 in NB by (rewrite firstn_length; lia). rewrite firstn_length in NB.
        replace (j - Nat.min (i + 1) (length addrs)) with (Datatypes.S (j - 1 - (i + 1))) in NB by lia. cbn [nth_error] in NB. rewrite nth_error_skipn in NB.
        replace (i + 1 + (j - 1 - (i + 1))) with (j - 1) in NB by lia.
        destruct (proj2 KA _ _ NB) as (x & X & Q). exists x. split.
        * assert (NEa : b <> a) by (apply (addr_apart _ _ _ _ _ ND NB NA); lia). assert (NEr : b <> r) by (intros ->; apply NI; eapply nth_error_In; eauto).
          unfold h1. rewrite nth_error_list_set_neq by auto. rewrite nth_error_app1 by (rewrite list_set_length; eapply nth_lt; eauto). now rewrite nth_error_list_set_neq by auto.
        * rewrite app_nth2 by (rewrite firstn_length; lia). rewrite firstn_length. replace (j - Nat.min i (length kids)) with (2 + (j - 1 - (i + 1))) by lia. cbn [app nth Nat.add].
          rewrite <- (firstn_skipn (Datatypes.S i) kids) in Q. rewrite app_nth2 in Q by (rewrite firstn_length; lia). rewrite firstn_length in Q.
          replace (j - 1 - Nat.min (Datatypes.S i) (length kids)) with (j - 1 - (i + 1)) in Q by lia. exact Q.
  Qed.

  Lemma list_set_mid {A} (a b : list A) x y : list_set (a ++ x :: b) (length a) y = a ++ y :: b.
  Proof. rewrite list_set_app2, Nat.sub_diag by lia. reflexivity. Qed.
  Lemma insert_two f h r S kids k v : two h r S kids ->
    match grow cmp S kids (k, v) with
    | None => insert_non_full cmp (Datatypes.S (Datatypes.S f)) r k v h = Panic
    | Some x => exists h', insert_non_full cmp (Datatypes.S (Datatypes.S f)) r k v h = Ret (tt, h') /\ two h' r (fst x) (snd x)
    end.
  Proof.
    intros (addrs & rn & E & RN & KA). assert (RN' := RN). destruct RN' as (L & D & N & LS & R & C & LA & ND).
    assert (NI := root_apart _ _ _ _ _ _ E RN KA).
    remember (Datatypes.S f) as f1. cbn [insert_non_full]. rewrite (mbind_Ret _ _ _ _ _ (rd_Ret _ _ _ E)). rewrite L, N.
    erewrite mbind_Ret by (apply lift_Ret; apply (find_child_opt k S rn _ R)).
    unfold grow. cbn [fst]. set (i := length S - greater_from_end cmp k (rev S)).
    assert (LI : i <= length S) by (unfold i; lia). destruct (addr_of _ _ _ i RN LI) as (a & NA). assert (LTi := nth_lt _ _ _ NA).
    erewrite mbind_Ret by (apply lift_Ret; eapply child_addr; eauto).
    destruct (proj2 KA _ _ NA) as (nd & Ea & KN). rewrite (mbind_Ret _ _ _ _ _ (rd_Ret _ _ _ Ea)).
    assert (KN' := KN). destruct KN' as (La & Da & Na & Ra & LC & U).
    replace (length (keys nd)) with cap by (destruct Ra as [-> _]; rewrite map_length, LC; reflexivity). rewrite Nat.eqb_refl.
    assert (NE : r <> a) by (intros ->; apply NI; eapply nth_error_In; eauto).
    destruct (Nat.eqb_spec (length S) 10) as [F|NF].
    - apply mbind_Panic, mbind_Panic. eapply (splitChild_full h r rn a nd i); eauto; try lia.
      + rewrite C, app_length, map_length, repeat_length. lia.
      + unfold gaps. rewrite app_length, repeat_length. lia.
    - set (c := nth i kids no_kid) in *. set (up := nth 10 (cells c) None).
      destruct (split_two _ _ _ _ _ _ i a nd E RN KA LI) as (h1 & rn1 & ESP & E1 & LH & RN1 & KA1); auto; [lia|]. cbn zeta in *. fold c in RN1, KA1. fold up in RN1.
      set (S1 := firstn i S ++ up :: skipn i S) in *. set (addrs1 := firstn (i + 1) addrs ++ length h :: skipn (i + 1) addrs) in *.
      set (right := match up with Some u => match cmp (fst u) k with Less => true | _ => false end | None => false end).
      assert (NU : nth_error (S1 ++ gaps (11 - length S1)) i = Some up).
      { rewrite nth_error_app1 by (unfold S1; rewrite app_length; cbn; rewrite firstn_length; lia). unfold S1. rewrite nth_error_app2 by (rewrite firstn_length; lia).
        rewrite firstn_length. replace (i - Nat.min i (length S)) with 0 by lia. reflexivity. }
      assert (R1 : srep rn1 (S1 ++ gaps (11 - length S1))) by apply RN1.
      erewrite mbind_Ret.
      2:{ erewrite mbind_Ret by exact ESP. rewrite (mbind_Ret _ _ _ _ _ (rd_Ret _ _ _ E1)).
          erewrite mbind_Ret by (apply lift_Ret; apply (idx_keys _ _ _ _ R1 NU)). reflexivity. }
      replace (match option_map fst up with Some k' => if is (cmp k' k) Less then Datatypes.S i else i | None => i end) with (if right then Datatypes.S i else i).
      2:{ unfold right. destruct up as [u|]; cbn [option_map]; [|reflexivity]. destruct (cmp (fst u) k); reflexivity. }
      rewrite (mbind_Ret _ _ _ _ _ (rd_Ret _ _ _ E1)).
      assert (LK : length kids = length addrs) by apply KA.
      assert (LS1 : length S1 = Datatypes.S (length S)) by (unfold S1; rewrite app_length; cbn [length]; rewrite firstn_length, skipn_length; lia).
      destruct (addr_of _ _ _ (if right then Datatypes.S i else i) RN1) as (b & NB); [destruct right; lia|].
      erewrite mbind_Ret by (apply lift_Ret; eapply child_addr; eauto).
      destruct (proj2 KA1 _ _ NB) as (nd1 & Eb & KB). assert (NI1 := root_apart _ _ _ _ _ _ E1 RN1 KA1).
      set (kids1 := firstn i kids ++ [mkKid (cells c) 10; mkKid (repeat None 11) 10] ++ skipn (Datatypes.S i) kids) in *.
      assert (LF : length (firstn i kids) = i) by (rewrite firstn_length; lia).
      assert (NK : nth (if right then Datatypes.S i else i) kids1 no_kid = if right then mkKid (repeat None 11) 10 else mkKid (cells c) 10).
      { unfold kids1. rewrite app_nth2 by (rewrite LF; destruct right; lia). rewrite LF. destruct right; [replace (Datatypes.S i - i) with 1 by lia|rewrite Nat.sub_diag]; reflexivity. }
      subst f1. destruct (leaf_insert f h1 b nd1 _ k v Eb KB) as (nd2 & EI & K2); [rewrite NK; destruct right; reflexivity|].
      eexists. split; [exact EI|]. cbn [fst snd]. exists addrs1, rn1. split; [|split; [exact RN1|]].
      + rewrite nth_error_list_set_neq; [exact E1|]. intros ->. apply NI1. eapply nth_error_In; eauto.
      + assert (X := kids_set _ _ _ _ _ _ _ KA1 (proj2 (proj2 (proj2 (proj2 (proj2 (proj2 (proj2 RN1))))))) NB K2). rewrite NK in X.
        match goal with |- kids_at _ _ ?q => replace q with (list_set kids1 (if right then Datatypes.S i else i) (filled cmp (k, v) (if right then mkKid (repeat None 11) 10 else mkKid (cells c) 10))); [exact X|] end.
        unfold kids1. destruct right; cbn [app]; rewrite list_set_app2 by (rewrite LF; lia); rewrite LF;
          [replace (Datatypes.S i - i) with 1 by lia|rewrite Nat.sub_diag]; reflexivity.
  Qed.
End Tree.
