(** CodeTreeProofs.v -- B-tree maps with comparisons that answer with any integers (C119). *)
From Verif Require Import Base BaseLemmas Effect CmpSpec VecSpec HashModel BTreeModel BTreeSpec BTreeHistory BTreeProofs BTreeTreeSpec BTreeTreeProofs BTreePruneProofs BTreeTreeRunProofs.
From Verif Require Import CodeSpec CodeTreeSpec CodeTreeModel.
From Verif Require CodeModel CodeProofs.
Import CodeModel(eqc, OrderingLess, OrderingEqual, OrderingGreater).
Local Open Scope nat_scope.

Section Any.
  Context {K V : Type}.
  Variable same : forall a b : K, {a = b} + {a <> b}.
  Variable cmp : K -> K -> Z.
  Notation heap := (heap K V).
  Ltac mstep := apply CodeProofs.mbind_ext; [|intros ? ?].

  (** Insert of one key: the key is the first argument when it is looked up and the second one
      when it is put in. *)
  Section Insert.
    Variable key : K.
    Variable o : K -> K -> ordering.
    Hypothesis G : forall k, eqc (cmp key k) OrderingGreater = is (o key k) Greater.
    Hypothesis E : forall k, eqc (cmp key k) OrderingEqual = is (o key k) Equal.
    Hypothesis G' : forall k, eqc (cmp k key) OrderingGreater = is (o k key) Greater.
    Hypothesis L' : forall k, eqc (cmp k key) OrderingLess = is (o k key) Less.
    Lemma scan_key ks : forall i, CodeModel.scan cmp key ks i = scan o key ks i.
    Proof. induction ks as [|[k|] ks IH]; intros i; cbn [CodeModel.scan scan]; auto. rewrite G. destruct (is (o key k) Greater); auto. Qed.
    Lemma search_key fuel : forall (h : heap) a, CodeModel.search cmp fuel h a key = search o fuel h a key.
    Proof.
      induction fuel as [|f IH]; intros; cbn [CodeModel.search search]; [reflexivity|]. apply CodeProofs.bind_ext. intros nd. cbv zeta. rewrite scan_key.
      destruct (nth_error _ _) as [[k|]|]; rewrite ?E; [destruct (is _ _); [reflexivity|]| |]; (destruct (leaf nd); [reflexivity|]; apply CodeProofs.bind_ext; intros [c|]; auto).
    Qed.
    Lemma shift_key j : forall (nd : node K V), CodeModel.shift_greater cmp key j nd = shift_greater o key j nd.
    Proof.
      induction j as [|j IH]; intros; cbn [CodeModel.shift_greater shift_greater]; [reflexivity|]. apply CodeProofs.bind_ext. intros [k|]; [|reflexivity]. rewrite G'.
      destruct (is _ _); [|reflexivity]. apply CodeProofs.bind_ext. intros nd'. apply IH.
    Qed.
    Lemma child_key j : forall (nd : node K V), CodeModel.find_child cmp key j nd = find_child o key j nd.
    Proof.
      induction j as [|j IH]; intros; cbn [CodeModel.find_child find_child]; [reflexivity|]. apply CodeProofs.bind_ext. intros [k|]; [|reflexivity]. rewrite G'.
      destruct (is _ _); [|reflexivity]. apply IH.
    Qed.
    Lemma insert_key f : forall a v (h : heap), CodeModel.insert_non_full cmp f a key v h = insert_non_full o f a key v h.
    Proof.
      induction f; intros; cbn [CodeModel.insert_non_full insert_non_full]; [reflexivity|]. mstep; [reflexivity|].
      match goal with |- context [leaf ?a] => destruct (leaf a) end.
      - mstep; [unfold lift; now rewrite shift_key|reflexivity].
      - mstep; [unfold lift; now rewrite child_key|]. mstep; [reflexivity|]. mstep; [reflexivity|]. mstep.
        + destruct (_ =? _); [|reflexivity]. mstep; [reflexivity|]. mstep; [reflexivity|]. mstep; [reflexivity|].
          match goal with |- context [match ?k with Some _ => _ | None => _ end] => destruct k end; [rewrite L'|]; reflexivity.
        + mstep; [reflexivity|]. mstep; [reflexivity|]. apply IHf.
    Qed.
    Lemma Insert_key m v (h : heap) : CodeModel.Insert cmp m key v h = Insert o m key v h.
    Proof.
      unfold CodeModel.Insert, Insert. destruct (root m) as [r|]; [|reflexivity]. mstep; [now rewrite search_key|].
      match goal with |- context [match ?k with Some _ => _ | None => _ end] => destruct k as [[a i]|] end; [reflexivity|].
      mstep; [reflexivity|]. destruct (_ =? _).
      - cbv zeta. do 5 (mstep; [reflexivity|]). mstep; [reflexivity|]. mstep; [rewrite L'; reflexivity|]. mstep; [apply insert_key|reflexivity].
      - mstep; [apply insert_key|reflexivity].
    Qed.
  End Insert.

  Ltac codes := unfold via, or_else, decode, eqc, OrderingLess, OrderingEqual, OrderingGreater.
  Lemma tests other c : (other <> Greater -> eqc c OrderingGreater = is (or_else other c) Greater) /\ (other <> Equal -> eqc c OrderingEqual = is (or_else other c) Equal) /\
    (other <> Less -> eqc c OrderingLess = is (or_else other c) Less).
  Proof.
    codes. destruct (Z.eqb_spec c (-1)) as [->|]; [repeat split; reflexivity|]. destruct (Z.eqb_spec c 0) as [->|]; [repeat split; reflexivity|].
    destruct (Z.eqb_spec c 1) as [->|]; [repeat split; reflexivity|]. destruct other; repeat split; intros H; try reflexivity; now elim H.
  Qed.
  Lemma or_else_proper a b c : proper c -> or_else a c = or_else b c.
  Proof. intros (o & ->). destruct o; reflexivity. Qed.
  Lemma Insert_code m key v (h : heap) : proper (cmp key key) -> CodeModel.Insert cmp m key v h = Insert (inserting same cmp key) m key v h.
  Proof.
    intros P. apply Insert_key; intros k; unfold inserting.
    - destruct (same key key); [|congruence]. now apply (tests Less).
    - destruct (same key key); [|congruence]. now apply (tests Less).
    - destruct (same k key) as [->|]; [rewrite (or_else_proper Less Equal) by auto|]; now apply (tests Equal).
    - destruct (same k key) as [->|]; [rewrite (or_else_proper Less Equal) by auto|]; now apply (tests Equal).
  Qed.
  Notation look := (finding cmp).
  Notation out_of := (removing cmp).
  Lemma find_key_code key m : forall i (nd : node K V), CodeModel.find_key cmp key m i nd = find_key out_of key m i nd.
  Proof.
    induction m as [|m IH]; intros; cbn [CodeModel.find_key find_key]; [reflexivity|]. apply CodeProofs.bind_ext. intros [k|]; [|reflexivity].
    unfold removing, via. rewrite (proj2 (proj2 (tests Greater (cmp k key)))) by discriminate. destruct (is _ _); [apply IH|reflexivity].
  Qed.
  Lemma remove_code f : forall a key (h : heap), CodeModel.remove_ cmp f a key h = remove_ out_of f a key h.
  Proof.
    induction f; intros; cbn [CodeModel.remove_ remove_]; [reflexivity|]. mstep; [reflexivity|].
    mstep; [unfold lift; now rewrite find_key_code|]. mstep; [reflexivity|].
    match goal with |- (if match ?k with Some _ => _ | None => _ end then _ else _) _ = _ => replace (match k with Some k' => eqc (cmp k' key) OrderingEqual | None => false end)
      with (match k with Some k' => is (out_of k' key) Equal | None => false end) by (destruct k; [symmetry; now apply (tests Greater)|reflexivity]) end.
    destruct (match _ with Some _ => _ | None => _ end).
    - destruct (leaf _); [reflexivity|]. mstep; [reflexivity|].
      match goal with |- (if ?b then _ else _) _ = _ => destruct b end.
      + repeat (mstep; [reflexivity|]). apply IHf.
      + mstep; [reflexivity|]. match goal with |- (if ?b then _ else _) _ = _ => destruct b end; repeat (mstep; [reflexivity|]); apply IHf.
    - destruct (leaf _); [reflexivity|]. cbv zeta. repeat (mstep; [reflexivity|]). apply IHf.
  Qed.

  Lemma Remove_one h m (s : slots K V) k : rep h m s ->
    match code_step same cmp (One s) (BRemove k) with
    | None => code_exec cmp m (BRemove k) h = Panic
    | Some (t', a) => exists h' m', code_exec cmp m (BRemove k) h = Ret ((m', a), h') /\ tree_at h' m' t'
    end.
  Proof.
    intros R. assert (RC := R). destruct R as (HC & HR). destruct m as [[r|] ln]; cbn [root len] in *; subst ln; cbn [code_step code_exec].
    2:{ assert (ES := rep_None_slots _ _ _ RC eq_refl). rewrite ES. cbn. exists h. eexists. split; [reflexivity|]. split; cbn; auto. }
    destruct HR as (nd & E & LN & NE). assert (LN' := LN). destruct LN' as (L & D & N & C & A & SR).
    assert (SE : CodeModel.search cmp (fuel h) h r k = Ret (option_map (fun i => (r, i)) (seek look k (all_slots s) 0))).
    { rewrite CodeProofs.search_look. unfold fuel. eapply search_leaf; eauto. }
    destruct (remove_leaf out_of (length h) h r nd s k E LN) as (nd' & ER & LR). cbn zeta in LR |- *.
    assert (LTr : r < length h) by (eapply nth_lt; eauto).
    set (s1 := match live_index out_of k (live s) 0 with Some i => take_out s i | None => s end) in *.
    assert (CN : count s1 = count s) by (unfold s1; destruct (live_index _ _ _ _); reflexivity).
    assert (R' : n nd' = length (live s1)) by apply LR.
    assert (NX : nth_error (list_set h r nd') r = Some nd') by (apply nth_error_list_set_eq; auto).
    assert (FIN : forall c, exists r', match n nd' with
        | O => if leaf nd' then Ret None else idx (childs nd') 0
        | _ => Ret (Some r) end = Ret r' /\
        rep (list_set h r nd') (mkMap r' c) (mkSlots (live (emptied s1)) (rest (emptied s1)) c)).
    { intros c. destruct (live s1) as [|e0 l0] eqn:EL.
      - exists None. rewrite R'. cbn [length]. rewrite (proj1 LR). split; [reflexivity|].
        split; [reflexivity|]. cbn [root live rest]. unfold emptied. rewrite EL. auto.
      - exists (Some r). rewrite R'. cbn [length]. split; [reflexivity|].
        split; [reflexivity|]. cbn [root live]. exists nd'. split; [exact NX|].
        unfold emptied. rewrite EL. rewrite EL. split; [|discriminate].
        rewrite <- EL. destruct s1; exact LR. }
    assert (ER' : (fun h0 : heap => CodeModel.remove_ cmp (fuel h0) r k h0) h = Ret (tt, list_set h r nd')) by (cbv beta; now rewrite remove_code).
    unfold CodeModel.Remove. cbn [root]. destruct (seek look k (all_slots s) 0) as [i|] eqn:SK.
    - destruct (FIN (wrap64 (count s - 1))) as (r' & E1 & R1).
      assert (LI : i < length (all_slots s1)).
      { rewrite (proj1 (proj2 (proj2 (proj2 (proj2 LR))))). destruct (seek_slot_value _ _ _ _ SK) as (e & NA & _). rewrite <- A. eapply nth_lt; eauto. }
      destruct (nth_error (all_slots s1) i) as [w|] eqn:NE'; [|apply nth_error_None in NE'; lia].
      assert (VI := idx_values _ _ _ _ (proj2 (proj2 (proj2 (proj2 (proj2 LR))))) NE').
      unfold slot_value. rewrite NE'. destruct w as [e'|]; cbn [option_map].
      + eexists _, (mkMap r' _). split; [|exact R1]. apply exec_res.
        erewrite mbind_Ret; [|rewrite SE; reflexivity]. cbn [option_map]. erewrite mbind_Ret; [|exact ER'].
        rewrite (mbind_Ret _ _ _ _ _ (rd_Ret _ _ _ NX)).
        erewrite mbind_Ret; [|unfold lift; rewrite E1; reflexivity].
        erewrite mbind_Ret; [|unfold value_at, idx at 1; rewrite NX; cbn [of_option bind]; rewrite VI; reflexivity].
        reflexivity.
      + unfold mbind at 1. erewrite mbind_Ret; [|rewrite SE; reflexivity]. cbn [option_map]. erewrite mbind_Ret; [|exact ER'].
        rewrite (mbind_Ret _ _ _ _ _ (rd_Ret _ _ _ NX)).
        erewrite mbind_Ret; [|unfold lift; rewrite E1; reflexivity].
        unfold mbind, value_at, idx at 1. rewrite NX. cbn [of_option bind]. rewrite VI. reflexivity.
    - destruct (FIN (count s)) as (r' & E1 & R1). eexists _, (mkMap r' _). split.
      + apply exec_res. erewrite mbind_Ret; [|rewrite SE; reflexivity]. cbn [option_map]. erewrite mbind_Ret; [|exact ER'].
        rewrite (mbind_Ret _ _ _ _ _ (rd_Ret _ _ _ NX)).
        erewrite mbind_Ret; [|unfold lift; rewrite E1; reflexivity]. reflexivity.
      + cbn [tree_at]. replace (emptied s1) with (mkSlots (live (emptied s1)) (rest (emptied s1)) (count s)); [exact R1|].
        rewrite <- CN. unfold emptied. destruct s1 as [[|] ? ?]; reflexivity.
  Qed.
  Lemma Remove_two h m S (kids : list (kid K V)) total k : tree_at h m (Two S kids total) ->
    match code_step same cmp (Two S kids total) (BRemove k) with
    | None => code_exec cmp m (BRemove k) h = Panic
    | Some (t', a) => exists h' m', code_exec cmp m (BRemove k) h = Ret ((m', a), h') /\ tree_at h' m' t'
    end.
  Proof.
    cbn [tree_at]. intros (r & -> & T). destruct (two_fuel _ _ _ _ T) as (f & FU). destruct T as (addrs & rn & E & RN & KA).
    assert (SM : (fun h0 : heap => x <- CodeModel.search cmp (fuel h0) h0 r k ;; Ret (x, h0)) h = Ret (option_map (spot_addr r addrs) (find look S kids k), h)).
    { cbv beta. rewrite CodeProofs.search_look, FU. erewrite search_two by eauto. reflexivity. }
    cbn [code_step code_exec].
    match goal with |- context [mbind ?m0 ?f0 h] => remember (mbind m0 f0 h) as X eqn:EX end.
    unfold CodeModel.Remove in EX. cbn [root] in EX. unfold mbind at 1 in EX. rewrite (mbind_Ret _ _ _ _ _ SM) in EX.
    assert (RT := remove_two out_of f h r addrs S kids k (ex_intro _ rn (conj E (conj RN KA)))). rewrite <- FU in RT.
    assert (RC : (fun h0 : heap => CodeModel.remove_ cmp (fuel h0) r k h0) h = remove_ out_of (fuel h) r k h) by apply remove_code. rewrite <- RC in RT.
    destruct (prune out_of S kids k) as [x|]; [|unfold mbind in EX; rewrite RT in EX; exact EX].
    destruct RT as (h' & ER & (rn' & E' & RN' & KA')). erewrite mbind_Ret in EX by exact ER. rewrite (mbind_Ret _ _ _ _ _ (rd_Ret _ _ _ E')) in EX.
    assert (N : n rn' = length (fst x)) by apply RN'. assert (LS : 1 <= length (fst x) <= 10) by apply RN'. rewrite N in EX.
    destruct (length (fst x)) as [|q] eqn:LX; [lia|]. erewrite mbind_Ret in EX by reflexivity. rewrite <- LX in *.
    assert (T' : two h' r (fst x) (snd x)) by (exists addrs, rn'; auto).
    destruct (find look S kids k) as [p|] eqn:FI; cbn [option_map] in EX |- *.
    - assert (B : match p with Sep _ => True | Cell i _ => i < length addrs end).
      { destruct p; [exact I|]. assert (LA : length addrs = Datatypes.S (length S)) by apply RN. rewrite LA. apply find_bound in FI. lia. }
      destruct (content (fst x) (snd x) p) as [e|] eqn:CO; cbn [option_map].
      + assert (VS := value_spot _ _ _ _ _ _ _ E' RN' KA' _ CO). destruct (spot_addr r addrs p) as [a i]. cbn [fst snd] in VS. cbv iota beta in EX.
        unfold mbind in EX. rewrite VS in EX. cbn [bind] in EX. eexists _, _. split; [exact EX|]. exists r. auto.
      + assert (VS := value_none _ _ _ _ _ _ _ E' RN' KA' B CO). destruct (spot_addr r addrs p) as [a i]. cbn [fst snd] in VS. cbv iota beta in EX.
        unfold mbind in EX. rewrite VS in EX. exact EX.
    - eexists _, _. split; [exact EX|]. exists r. auto.
  Qed.

  Hypothesis self : forall k, proper (cmp k k).
  Lemma code_step_tree (h : heap) m t o : tree_at h m t ->
    match code_step same cmp t o with
    | None => code_exec cmp m o h = Panic
    | Some (t', a) => exists h' m', code_exec cmp m o h = Ret ((m', a), h') /\ tree_at h' m' t'
    end.
  Proof.
    intros T. destruct o.
    - assert (X := step_tree (inserting same cmp k) h m t (BInsert k v) T). cbn [code_step code_exec exec] in *. unfold mbind in *. rewrite Insert_code by auto. exact X.
    - destruct t; [now apply Remove_one|now apply Remove_two].
    - assert (X := step_tree look h m t (BGet k) T). cbn [code_step code_exec exec] in *. unfold asking in *. rewrite CodeProofs.Get_look. exact X.
    - assert (X := step_tree look h m t (BContainsKey k) T). cbn [code_step code_exec exec] in *. unfold asking in *. rewrite CodeProofs.ContainsKey_look. exact X.
    - exact (step_tree look h m t BLen T).
    - exact (step_tree look h m t BIsEmpty T).
    - exact (step_tree look h m t BClear T).
    - exact (step_tree look h m t BEntries T).
    - exact (step_tree look h m t BKeys T).
    - exact (step_tree look h m t BValues T).
  Qed.
  Theorem code_run_tree : forall ops (h : heap) m t, tree_at h m t ->
    match code_tree_run same cmp t ops with
    | None => code_run cmp m ops h = Panic
    | Some (t', rs) => exists h' m', code_run cmp m ops h = Ret ((m', rs), h') /\ tree_at h' m' t'
    end.
  Proof.
    induction ops as [|o ops IH]; intros h m t T; cbn [code_tree_run code_run].
    - exists h, m. auto.
    - assert (ST := code_step_tree h m t o T). destruct (code_step same cmp t o) as [[t1 a]|]; [|unfold mbind; now rewrite ST].
      destruct ST as (h1 & m1 & E1 & T1). assert (R := IH h1 m1 t1 T1). destruct (code_tree_run same cmp t1 ops) as [[t2 rs]|].
      + destruct R as (h2 & m2 & E2 & T2). exists h2, m2. split; [|auto]. erewrite mbind_Ret by exact E1. cbn [fst snd]. erewrite mbind_Ret by exact E2. reflexivity.
      + erewrite mbind_Ret by exact E1. cbn [fst snd]. unfold mbind. now rewrite R.
  Qed.
End Any.
