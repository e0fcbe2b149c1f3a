(** BTreeSetProofs.v -- the set algebra. *)
From Verif Require Import Base BaseLemmas Effect CmpSpec VecSpec HashModel BTreeModel BTreeSpec BTreeHistory BTreeProofs BTreeMapProofs BTreeSafeProofs BTreeSplitProofs BTreeGrowProofs BTreeLowProofs BTreeGentleProofs BTreeSepProofs.
Local Open Scope nat_scope.

Section Sets.
  Context {K : Type}.
  Variable cmp : K -> K -> ordering.
  Hypothesis lawful : total_preorder cmp.
  Notation ukv := (list (K * unit)).
  Notation hp := (heap K unit).
  Definition adds (xs : list K) : list (bop K unit) := map (fun x => BInsert x tt) xs.
  Definition after (l : ukv) (xs : list K) : ukv := fst (map_run cmp l (adds xs)).

  (** *** Lists of elements *)
  Lemma after_nil l : after l [] = l. Proof. reflexivity. Qed.
  Lemma after_cons l x xs : after l (x :: xs) = after (put cmp x tt l) xs.
  Proof. unfold after, adds. cbn [map map_run map_step]. destruct (map_run cmp (put cmp x tt l) _). reflexivity. Qed.
  Lemma after_app l xs ys : after l (xs ++ ys) = after (after l xs) ys.
  Proof. revert l; induction xs as [|x xs IH]; intros l; [reflexivity|]. cbn [app]. now rewrite !after_cons, IH. Qed.
  Lemma mem_In x l : mem cmp x l = true <-> exists y, In y l /\ cmp x y = Equal.
  Proof.
    unfold mem. rewrite existsb_exists. split; intros (y & I & C); exists y; (split; [auto|]); destruct (cmp x y); congruence.
  Qed.
  Lemma mem_get x (l : ukv) : mem cmp x (map fst l) = is_some (get cmp x l).
  Proof.
    induction l as [|[k v] l IH]; [reflexivity|]. cbn [map mem existsb get fst]. fold (mem cmp x (map fst l)). rewrite IH.
    destruct (cmp x k); reflexivity.
  Qed.
  Lemma mem_put x k (l : ukv) : sorted cmp l -> mem cmp x (map fst (put cmp k tt l)) = (match cmp x k with Equal => true | _ => false end) || mem cmp x (map fst l).
  Proof.
    intros SO. induction l as [|[k0 v0] l IH]; [cbn; now rewrite orb_false_r|].
    destruct SO as (S1 & S2). cbn [put]. destruct (cmp k k0) eqn:C; cbn [map fst mem existsb].
    - reflexivity.
    - fold (mem cmp x (map fst l)). rewrite (Equal_cmp_r cmp lawful k k0 x C). now destruct (cmp x k0).
    - fold (mem cmp x (map fst (put cmp k tt l))). fold (mem cmp x (map fst l)). rewrite IH by auto.
      destruct (cmp x k0); destruct (cmp x k); reflexivity.
  Qed.
  Lemma after_sorted xs : forall l, sorted cmp l -> sorted cmp (after l xs).
  Proof. induction xs as [|x xs IH]; intros l SO; [exact SO|]. rewrite after_cons. apply IH. now apply put_sorted. Qed.
  Lemma mem_after x xs : forall l, sorted cmp l -> mem cmp x (map fst (after l xs)) = mem cmp x xs || mem cmp x (map fst l).
  Proof.
    induction xs as [|y xs IH]; intros l SO; [reflexivity|]. rewrite after_cons, IH by now apply put_sorted. rewrite mem_put by auto.
    cbn [mem existsb]. fold (mem cmp x xs). destruct (mem cmp x xs), (mem cmp x (map fst l)); destruct (cmp x y); reflexivity.
  Qed.
  Lemma sorted_ascending (l : ukv) : sorted cmp l -> ascending cmp (map fst l).
  Proof.
    induction l as [|e l IH]; cbn; auto. intros (A & B). split; auto. intros y I. apply in_map_iff in I. destruct I as (e' & <- & I). auto.
  Qed.
  Lemma ascending_pairs l : ascending cmp l -> ForallOrdPairs (fun a b => cmp a b <> Equal) l.
  Proof.
    induction l as [|x l IH]; intros A; [constructor|]. destruct A as (A & B). constructor; auto. apply Forall_forall. intros y I. rewrite (A y I). discriminate.
  Qed.
  Lemma distinct_In x l : In x (distinct cmp l) -> In x l.
  Proof. induction l as [|y l IH]; cbn; auto. destruct (mem cmp y l); cbn; intuition. Qed.
  Lemma distinct_pairs l : ForallOrdPairs (fun a b => cmp a b <> Equal) (distinct cmp l).
  Proof.
    induction l as [|x l IH]; cbn; [constructor|]. destruct (mem cmp x l) eqn:M; auto. constructor; auto.
    apply Forall_forall. intros y I C. apply distinct_In in I. assert (mem cmp x l = true) by (apply mem_In; eauto). congruence.
  Qed.
  Lemma mem_equal x y l : cmp x y = Equal -> mem cmp x l = mem cmp y l.
  Proof.
    intros C. unfold mem. induction l as [|z l IH]; cbn; auto. rewrite IH. now rewrite (Equal_cmp cmp lawful _ _ z C).
  Qed.
  Lemma mem_distinct x l : mem cmp x (distinct cmp l) = mem cmp x l.
  Proof.
    induction l as [|y l IH]; [reflexivity|]. cbn [distinct mem existsb]. fold (mem cmp x l).
    destruct (mem cmp y l) eqn:M.
    - fold (mem cmp x (distinct cmp l)). rewrite IH. destruct (cmp x y) eqn:C; try reflexivity. now rewrite (mem_equal _ _ l C), M.
    - cbn [existsb]. fold (mem cmp x (distinct cmp l)). now rewrite IH.
  Qed.
  (** Two lists of pairwise different elements with the same members are equally long. *)
  Lemma same_length (a b : list K) : ForallOrdPairs (fun x y => cmp x y <> Equal) a -> (forall x, In x a -> mem cmp x b = true) -> length a <= length b.
  Proof. intros P H. apply (pigeon cmp lawful); auto. intros k I. apply mem_In. auto. Qed.
  Lemma In_mem x l : In x l -> mem cmp x l = true.
  Proof. intros I. apply mem_In. exists x. split; auto. apply (cmp_refl cmp lawful). Qed.
  Lemma after_length xs : length (after [] xs) = length (distinct cmp xs).
  Proof.
    pose proof (after_sorted xs [] I) as SO.
    replace (length (after [] xs)) with (length (map fst (after [] xs))) by apply map_length. apply Nat.le_antisymm.
    - apply same_length; [apply ascending_pairs, sorted_ascending; auto|]. intros x IN. rewrite mem_distinct.
      apply In_mem in IN. rewrite mem_after in IN by exact I. cbn in IN. now rewrite orb_false_r in IN.
    - apply same_length; [apply distinct_pairs|]. intros x IN. rewrite mem_after by exact I. apply distinct_In, In_mem in IN. now rewrite IN.
  Qed.
  Lemma after_grows xs : forall l, sorted cmp l -> length l <= length (after l xs).
  Proof.
    induction xs as [|x xs IH]; intros l SO; [auto|]. rewrite after_cons. etransitivity; [|apply IH; now apply put_sorted].
    rewrite (put_length cmp lawful) by auto. destruct (get cmp x l); lia.
  Qed.
  Lemma gentle_small xs : forall l, sorted cmp l -> length (after l xs) <= 11 -> gentle cmp l (adds xs).
  Proof.
    induction xs as [|x xs IH]; intros l SO LE; [exact I|]. cbn [adds map gentle]. rewrite after_cons in LE. split.
    - cbn [allowed]. intros G L11. pose proof (after_grows xs (put cmp x tt l) (put_sorted cmp lawful x tt l SO)) as Q.
      rewrite (put_length cmp lawful) in Q by auto. rewrite G in Q. lia.
    - cbn [map_step fst]. apply IH; auto. now apply put_sorted.
  Qed.

  (** *** A set that holds the elements l *)
  Definition holds (h : hp) (s : BTreeSet) (l : ukv) : Prop := tree cmp h s l.
  Lemma holds_sorted h s l : holds h s l -> sorted cmp l.
  Proof. intros [(s0 & _ & O)|LT]; [apply O|eapply low_length; eauto]. Qed.
  Lemma holds_len h s l : holds h s l -> len s = Z.of_nat (length l).
  Proof. intros [(s0 & R & O)|LT]; [|eapply low_length; eauto]. destruct R as (-> & _). apply O. Qed.
  Lemma holds_keys h s l : holds h s l -> Keys_vec s h = Ret (map fst l).
  Proof.
    intros T. destruct (tree_step cmp lawful h s l BKeys T I) as (h' & m' & E & _). cbn [exec map_step snd] in E. unfold asking in E.
    destruct (Keys_vec s h); cbn in E; congruence.
  Qed.
  Lemma holds_contains h s l x : holds h s l -> Contains cmp s x h = Ret (mem cmp x (map fst l)).
  Proof.
    intros T. destruct (tree_step cmp lawful h s l (BContainsKey x) T I) as (h' & m' & E & _). cbn [exec map_step snd] in E. unfold asking in E.
    unfold Contains. rewrite mem_get. destruct (ContainsKey cmp s x h); cbn in E; congruence.
  Qed.
  Lemma holds_root h s l : holds h s l -> match root s with None => l = [] | Some r => l <> [] end.
  Proof.
    intros [(s0 & R & O)|LT].
    - destruct O as (<- & _). destruct R as (_ & R). destruct (root s); [|apply R]. destruct R as (nd & _ & _ & NE). exact NE.
    - destruct LT as (lo & hi & r & y & rn & yn & zs & -> & W). rewrite (lw_root _ _ _ _ _ _ _ _ _ _ W).
      pose proof (lw_lo _ _ _ _ _ _ _ _ _ _ W). destruct lo; discriminate.
  Qed.
  Lemma holds_iter h s l : holds h s l -> l <> [] -> sIntoIter_vec s h = Ret (map fst l).
  Proof.
    intros T NE. pose proof (holds_keys _ _ _ T) as E. pose proof (holds_root _ _ _ T) as R. unfold sIntoIter_vec, Keys_vec in *.
    destruct (root s); [exact E|congruence].
  Qed.
  Lemma holds_iter_empty h s : holds h s [] -> sIntoIter_vec s h = Panic.
  Proof. intros T. pose proof (holds_root _ _ _ T) as R. unfold sIntoIter_vec. destruct (root s); congruence. Qed.
  Lemma holds_new h : holds h BTreeSetNew [].
  Proof. apply tree_new. Qed.
  (** The nodes of a set all lie below the end of the heap it was built in. *)
  Lemma holds_same h h' s l : holds h s l -> (forall a, a < length h -> nth_error h' a = nth_error h a) -> holds h' s l.
  Proof.
    intros [(s0 & (RC & RR) & O)|LT] SAME.
    - left. exists s0. split; [|exact O]. split; [exact RC|]. destruct (root s) as [r|]; [|exact RR].
      destruct RR as (nd & E & X). exists nd. split; [|exact X]. rewrite SAME; [exact E|]. eapply nth_lt; eauto.
    - right. destruct LT as (lo & hi & r & y & rn & yn & zs & E & W). exists lo, hi, r, y, rn, yn, zs. split; [exact E|].
      destruct W. constructor; auto.
      + rewrite SAME; auto. eapply nth_lt; eauto.
      + rewrite SAME; auto. eapply nth_lt; eauto.
      + intros z I. destruct (lw_empty z I) as (zn & Ez & X). exists zn. split; [|exact X]. rewrite SAME; [exact Ez|]. eapply nth_lt; eauto.
  Qed.

  (** *** Building a set *)
  Definition mine (N : nat) (a : nat) : Prop := N <= a.
  Lemma mine_keeps N (h h' : hp) : keeps (mine N) h h' -> forall a, a < N -> nth_error h' a = nth_error h a.
  Proof. intros KE a L. apply KE. unfold mine. lia. Qed.
  Lemma inside_now (h : hp) : inside (mine (length h)) (length h) h.
  Proof. split; [lia|]. intros a nd Oa E. apply nth_lt in E. unfold mine in Oa. lia. Qed.
  (** [u] is being built in the part of the heap from N on. *)
  Definition building N (h : hp) (u : BTreeSet) (l : ukv) : Prop := inside (mine N) N h /\ root_own (mine N) u (length h) /\ holds h u l.
  Lemma building_new (h : hp) : building (length h) h BTreeSetNew [].
  Proof. split; [apply inside_now|]. split; [exact I|apply holds_new]. Qed.
  Lemma building_insert N h u l x : building N h u l -> allowed cmp l (BInsert x tt) ->
    exists h' u', sInsert cmp u x h = Ret ((u', negb (mem cmp x (map fst l))), h') /\ building N h' u' (put cmp x tt l) /\ keeps (mine N) h h'.
  Proof.
    intros (IN & RO & T) AD. destruct (tree_step cmp lawful h u l (BInsert x tt) T AD) as (h' & u' & E & T').
    cbn [exec map_step fst snd] in E, T'.
    destruct (Insert cmp u x tt h) as [[[u1 w] h1]| |] eqn:EI.
    2,3: unfold mbind in E; rewrite EI in E; discriminate.
    rewrite (mbind_Ret _ _ _ _ _ EI) in E. cbn in E. injection E as -> -> ->.
    pose proof (sep_Insert cmp (mine N) N (fun a H => H) _ u x tt RO h (le_n _) IN) as Q. rewrite EI in Q. destruct Q as (IN' & KE & _ & RO').
    exists h', u'. split; [|split; [split; [exact IN'|split; [exact RO'|exact T']]|exact KE]].
    unfold sInsert. rewrite (mbind_Ret _ _ _ _ _ EI). cbn [fst snd]. rewrite mem_get. destruct (get cmp x l); reflexivity.
  Qed.
  Lemma insert_loop_run N p (pb : K -> bool) xs : forall h u l, building N h u l -> gentle cmp l (adds (filter pb xs)) ->
    (forall x h', keeps (mine N) h h' -> p x h' = Ret (pb x)) ->
    exists h' u', insert_loop cmp p xs u h = Ret (u', h') /\ building N h' u' (after l (filter pb xs)) /\ keeps (mine N) h h'.
  Proof.
    induction xs as [|x xs IH]; intros h u l B G P.
    - exists h, u. split; [reflexivity|]. split; [exact B|apply keeps_refl].
    - cbn [insert_loop]. erewrite mbind_Ret by (unfold reading; rewrite (P x h (keeps_refl _ _)); reflexivity).
      cbn [filter] in *. destruct (pb x).
      + cbn [adds map gentle] in G. destruct G as (AD & G). destruct (building_insert N h u l x B AD) as (h1 & u1 & E1 & B1 & K1).
        erewrite mbind_Ret. 2:{ rewrite (mbind_Ret _ _ _ _ _ E1). reflexivity. }
        cbn [fst]. destruct (IH h1 u1 _ B1 G) as (h2 & u2 & E2 & B2 & K2).
        { intros y h' KE. apply P. eapply keeps_trans; eauto. }
        exists h2, u2. split; [exact E2|]. rewrite after_cons. split; [exact B2|]. eapply keeps_trans; eauto.
      + erewrite mbind_Ret by reflexivity. apply IH; auto.
  Qed.
  Lemma add_all_run N xs : forall h u l, building N h u l -> gentle cmp l (adds xs) ->
    exists h' u', add_all cmp xs u h = Ret (u', h') /\ building N h' u' (after l xs) /\ keeps (mine N) h h'.
  Proof.
    induction xs as [|x xs IH]; intros h u l B G.
    - exists h, u. split; [reflexivity|]. split; [exact B|apply keeps_refl].
    - cbn [adds map gentle] in G. destruct G as (AD & G). destruct (building_insert N h u l x B AD) as (h1 & u1 & E1 & B1 & K1).
      destruct (IH h1 u1 _ B1 G) as (h2 & u2 & E2 & B2 & K2).
      exists h2, u2. split; [cbn [add_all]; rewrite (mbind_Ret _ _ _ _ _ E1); exact E2|]. rewrite after_cons. split; [exact B2|]. eapply keeps_trans; eauto.
  Qed.

  (** *** Comparing sets *)
  Lemma forall_loop_run h s l want xs : holds h s l -> forall_loop cmp want s h xs = Ret (forallb (fun x => Bool.eqb (mem cmp x (map fst l)) want) xs).
  Proof.
    intros T. induction xs as [|x xs IH]; [reflexivity|]. cbn [forall_loop forallb]. rewrite (holds_contains _ _ _ x T). cbn [bind].
    destruct (Bool.eqb _ _); [exact IH|reflexivity].
  Qed.
  Lemma forallb_ext (f g : K -> bool) l : (forall x, f x = g x) -> forallb f l = forallb g l.
  Proof. intros E. induction l; cbn; congruence. Qed.
  Lemma forallb_ext_mem (f : K -> bool) a b : (forall x y, cmp x y = Equal -> f x = f y) -> (forall x, mem cmp x a = mem cmp x b) -> forallb f a = forallb f b.
  Proof.
    intros FE M. apply Bool.eq_iff_eq_true. rewrite !forallb_forall. split; intros H x I; apply In_mem in I.
    - rewrite <- M in I. apply mem_In in I. destruct I as (y & I & C). rewrite (FE x y C). auto.
    - rewrite M in I. apply mem_In in I. destruct I as (y & I & C). rewrite (FE x y C). auto.
  Qed.
  Lemma subset_run h s o l lo : holds h s l -> holds h o lo -> l <> [] ->
    IsSubset cmp s o h = Ret (forallb (fun x => mem cmp x (map fst lo)) (map fst l)).
  Proof.
    intros Ts To NE. unfold IsSubset, sLen, Len. rewrite (holds_len _ _ _ Ts), (holds_len _ _ _ To).
    destruct (Z.ltb_spec (Z.of_nat (length lo)) (Z.of_nat (length l))) as [LT|GE].
    - f_equal. symmetry. apply not_true_iff_false. rewrite forallb_forall. intros A.
      assert (length (map fst l) <= length (map fst lo)).
      { apply same_length; auto. apply ascending_pairs, sorted_ascending, (holds_sorted _ _ _ Ts). }
      rewrite !map_length in H. lia.
    - rewrite (holds_iter _ _ _ Ts NE). cbn [bind]. rewrite (forall_loop_run _ _ _ _ _ To). f_equal.
      apply forallb_ext. intros x. now destruct (mem cmp x (map fst lo)).
  Qed.
  Lemma disjoint_run h s o l lo : holds h s l -> holds h o lo -> l <> [] ->
    IsDisjoint cmp s o h = Ret (forallb (fun x => negb (mem cmp x (map fst lo))) (map fst l)).
  Proof.
    intros Ts To NE. unfold IsDisjoint. rewrite (holds_iter _ _ _ Ts NE). cbn [bind]. rewrite (forall_loop_run _ _ _ _ _ To).
    reflexivity.
  Qed.
  Lemma sEq_run h s o l lo : holds h s l -> holds h o lo -> l <> [] ->
    sEq cmp s o h = Ret ((length l =? length lo) && forallb (fun x => mem cmp x (map fst lo)) (map fst l)).
  Proof.
    intros Ts To NE. unfold sEq, sLen, Len. rewrite (holds_len _ _ _ Ts), (holds_len _ _ _ To).
    destruct (Z.eqb_spec (Z.of_nat (length l)) (Z.of_nat (length lo))) as [LE|LE]; cbn [negb].
    - replace (length l =? length lo) with true by (symmetry; apply Nat.eqb_eq; lia). cbn [andb].
      rewrite (holds_iter _ _ _ Ts NE). cbn [bind]. rewrite (forall_loop_run _ _ _ _ _ To). f_equal.
      apply forallb_ext. intros x. now destruct (mem cmp x (map fst lo)).
    - replace (length l =? length lo) with false by (symmetry; apply Nat.eqb_neq; lia). reflexivity.
  Qed.

  (** *** Combining sets *)
  Lemma intersection_run h s o l lo : holds h s l -> holds h o lo -> l <> [] ->
    gentle cmp [] (adds (filter (fun x => mem cmp x (map fst lo)) (map fst l))) ->
    exists h' u, Intersection cmp s o h = Ret (u, h') /\ holds h' u (after [] (filter (fun x => mem cmp x (map fst lo)) (map fst l))) /\
      (forall a, a < length h -> nth_error h' a = nth_error h a).
  Proof.
    intros Ts To NE G. unfold Intersection. erewrite mbind_Ret by (unfold reading; rewrite (holds_iter _ _ _ Ts NE); reflexivity).
    destruct (insert_loop_run (length h) (fun x h' => Contains cmp o x h') (fun x => mem cmp x (map fst lo)) (map fst l) h BTreeSetNew []) as (h' & u & E & B & KE); auto.
    { apply building_new. }
    { intros x h' KE. apply holds_contains. eapply holds_same; [exact To|]. apply mine_keeps; auto. }
    exists h', u. split; [exact E|]. split; [apply B|]. apply mine_keeps; auto.
  Qed.
  Lemma two_loops h s o l lo p1 p2 pb1 pb2 : holds h s l -> holds h o lo -> l <> [] -> lo <> [] ->
    (forall x h', keeps (mine (length h)) h h' -> p1 x h' = Ret (pb1 x)) ->
    (forall x h', keeps (mine (length h)) h h' -> p2 x h' = Ret (pb2 x)) ->
    gentle cmp [] (adds (filter pb1 (map fst l) ++ filter pb2 (map fst lo))) ->
    exists h' u, (l1 <~ reading (sIntoIter_vec s) ;; u <~ insert_loop cmp p1 l1 BTreeSetNew ;;
                  l2 <~ reading (sIntoIter_vec o) ;; insert_loop cmp p2 l2 u) h = Ret (u, h') /\
      holds h' u (after [] (filter pb1 (map fst l) ++ filter pb2 (map fst lo))) /\
      (forall a, a < length h -> nth_error h' a = nth_error h a).
  Proof.
    intros Ts To NE NEo P1 P2 G.
    assert (GA : forall xs ys l0, gentle cmp l0 (adds (xs ++ ys)) -> gentle cmp l0 (adds xs) /\ gentle cmp (after l0 xs) (adds ys)).
    { intros xs; induction xs as [|x xs IH]; intros ys l0 GG; [split; [exact I|exact GG]|]. cbn [app adds map gentle] in GG. destruct GG as (AD & GG).
      destruct (IH ys _ GG) as (G1 & G2). rewrite after_cons. split; [split; auto|auto]. }
    destruct (GA _ _ _ G) as (G1 & G2).
    erewrite mbind_Ret by (unfold reading; rewrite (holds_iter _ _ _ Ts NE); reflexivity).
    destruct (insert_loop_run (length h) p1 pb1 (map fst l) h BTreeSetNew [] (building_new h) G1 P1) as (h1 & u1 & E1 & B1 & K1).
    rewrite (mbind_Ret _ _ _ _ _ E1).
    assert (To1 : holds h1 o lo) by (eapply holds_same; [exact To|]; apply mine_keeps; auto).
    erewrite mbind_Ret by (unfold reading; rewrite (holds_iter _ _ _ To1 NEo); reflexivity).
    destruct (insert_loop_run (length h) p2 pb2 (map fst lo) h1 u1 _ B1 G2) as (h2 & u2 & E2 & B2 & K2).
    { intros x h' KE. apply P2. eapply keeps_trans; eauto. }
    exists h2, u2. split; [exact E2|]. rewrite after_app. split; [apply B2|]. apply mine_keeps. eapply keeps_trans; eauto.
  Qed.
  Lemma union_run h s o l lo : holds h s l -> holds h o lo -> l <> [] -> lo <> [] -> gentle cmp [] (adds (map fst l ++ map fst lo)) ->
    exists h' u, Union cmp s o h = Ret (u, h') /\ holds h' u (after [] (map fst l ++ map fst lo)) /\
      (forall a, a < length h -> nth_error h' a = nth_error h a).
  Proof.
    intros Ts To NE NEo G. unfold Union.
    assert (FT : forall xs : list K, filter (fun _ => true) xs = xs) by (induction xs; cbn; congruence).
    rewrite <- (FT (map fst l)), <- (FT (map fst lo)) in G.
    destruct (two_loops h s o l lo (fun _ _ => Ret true) (fun _ _ => Ret true) (fun _ => true) (fun _ => true) Ts To NE NEo) as (h' & u & E & X); auto.
    rewrite !FT in X. exists h', u. split; [exact E|exact X].
  Qed.
  Lemma symdiff_run h s o l lo : holds h s l -> holds h o lo -> l <> [] -> lo <> [] ->
    gentle cmp [] (adds (filter (fun x => negb (mem cmp x (map fst lo))) (map fst l) ++ filter (fun x => negb (mem cmp x (map fst l))) (map fst lo))) ->
    exists h' u, SymmetricDifference cmp s o h = Ret (u, h') /\
      holds h' u (after [] (filter (fun x => negb (mem cmp x (map fst lo))) (map fst l) ++ filter (fun x => negb (mem cmp x (map fst l))) (map fst lo))) /\
      (forall a, a < length h -> nth_error h' a = nth_error h a).
  Proof.
    intros Ts To NE NEo G. unfold SymmetricDifference. apply two_loops; auto.
    - intros x h' KE. rewrite (holds_contains h' o lo); [reflexivity|]. eapply holds_same; [exact To|]. apply mine_keeps; auto.
    - intros x h' KE. rewrite (holds_contains h' s l); [reflexivity|]. eapply holds_same; [exact Ts|]. apply mine_keeps; auto.
  Qed.

  (** *** Cloning *)
  Lemma clone_empty r clone h s : holds h s [] -> clone_rounds cmp (S r) clone s BTreeSetNew h = Panic.
  Proof. intros T. cbn [clone_rounds]. unfold mbind, reading. now rewrite (holds_iter_empty _ _ T). Qed.
  Lemma clone_round N r c h s l k0 v0 l0 u lu : holds h s l -> l = (k0, v0) :: l0 -> length h = N -> forall h', building N h' u lu ->
    keeps (mine N) h h' -> (lu = [] \/ lu = [(c k0, tt)]) -> clone_rounds cmp r (Some c) s u h' = Diverge.
  Proof.
    intros T EL LN. revert u lu. induction r as [|r IH]; intros u lu h' B KE LU; [reflexivity|].
    cbn [clone_rounds]. assert (T' : holds h' s l) by (eapply holds_same; [exact T|]; rewrite LN; apply mine_keeps; auto).
    erewrite mbind_Ret by (unfold reading; rewrite (holds_iter _ _ _ T'); [reflexivity|rewrite EL; discriminate]).
    rewrite EL. cbn [map fst]. erewrite mbind_Ret by reflexivity.
    assert (P : put cmp (c k0) tt lu = [(c k0, tt)]).
    { destruct LU as [->| ->]; [reflexivity|]. cbn. now rewrite (cmp_refl cmp lawful). }
    destruct (building_insert N h' u lu (c k0) B) as (h1 & u1 & E1 & B1 & K1).
    { cbn [allowed]. intros _ L11. destruct LU as [->| ->]; cbn in L11; lia. }
    rewrite (mbind_Ret _ _ _ _ _ E1). cbn [fst]. rewrite P in B1. eapply IH; eauto. eapply keeps_trans; eauto.
  Qed.
  Lemma clone_forever r c h s l : holds h s l -> l <> [] -> clone_rounds cmp r (Some c) s BTreeSetNew h = Diverge.
  Proof.
    intros T NE. destruct l as [|[k0 v0] l0]; [congruence|].
    apply (clone_round (length h) r c h s _ k0 v0 l0 BTreeSetNew [] T eq_refl eq_refl); [apply building_new|apply keeps_refl|auto].
  Qed.
  Lemma clone_none r h s l : holds h s l -> l <> [] -> clone_rounds cmp (S r) None s BTreeSetNew h = Panic.
  Proof.
    intros T NE. cbn [clone_rounds]. erewrite mbind_Ret by (unfold reading; rewrite (holds_iter _ _ _ T NE); reflexivity).
    destruct l as [|[k0 v0] l0]; [congruence|]. reflexivity.
  Qed.
End Sets.
