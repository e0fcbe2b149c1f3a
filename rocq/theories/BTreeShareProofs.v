(** BTreeShareProofs.v -- a B-tree map and a reference to it. *)
From Verif Require Import Base BaseLemmas Effect CmpSpec VecSpec HashModel BTreeModel BTreeSpec BTreeHistory BTreeProofs BTreeMapProofs BTreeSafeProofs
  BTreeSepProofs BTreeTwoProofs BTreeTreeSpec BTreeTreeProofs BTreePruneProofs BTreeTreeRunProofs BTreeProgSpec BTreeProgProofs BTreeShareSpec.
From Verif Require VarDequeProofs.
Local Open Scope nat_scope.

Section Share.
  Context {K V : Type}.
  Variable cmp : K -> K -> ordering.
  Implicit Types (h : heap K V) (m : BTreeMap) (t : tree K V).

  (** The variable m, in the heap h, is this. *)
  Definition view_at h m (w : view) : Prop :=
    match w with
    | Whole t => tree_at h m t
    | Leaf c n => exists r nd, m = mkMap (Some r) n /\ nth_error h r = Some nd /\ leaf nd = true /\ BTreeModel.n nd = used c /\ srep nd (cells c) /\ used c <= length (cells c)
    end.
  Lemma recount_at h m m' t : tree_at h m' t -> root m' = root m -> tree_at h m (recount (len m) t).
  Proof.
    destruct t as [s|seps kids total]; cbn [tree_at recount].
    - intros (_ & R) E. rewrite E in R. split; [reflexivity|]. cbn [live rest]. exact R.
    - intros (r & -> & T) E. cbn [root] in E. exists r. split; [destruct m; cbn in *; congruence|exact T].
  Qed.
  Lemma nodeless h h' m (s : slots K V) : rep h m s -> live s = [] -> rep h' m s.
  Proof. intros (C & R) E. split; [exact C|]. destruct (root m); [|exact R]. destruct R as (nd & _ & _ & N). congruence. Qed.
  Lemma read_exec h m o m' a h' : match o with BInsert _ _ | BRemove _ | BClear => False | _ => True end ->
    exec cmp m o h = Ret ((m', a), h') -> m' = m /\ h' = h.
  Proof.
    destruct o; intros RD E; try destruct RD; cbn [exec] in E; unfold asking, mret in E;
      try match type of E with context [bind ?x _] => destruct x; cbn [bind] in E; try discriminate end; injection E as <- <- <-; auto.
  Qed.
  Lemma insert_same h m k v m' a h' : exec cmp m (BInsert k v) h = Ret ((m', a), h') ->
    forall r nd, root m = Some r -> nth_error h r = Some nd -> root m' = root m \/ (n nd = 11 /\ a = Value None).
  Proof.
    intros E r nd ER EN. cbn [exec] in E. unfold mbind in E. destruct (Insert cmp m k v h) as [[[m1 o] h1]| |] eqn:EI; try discriminate.
    unfold mret in E. cbn [fst snd] in E. injection E as <- <- <-. pose proof (VarDequeProofs.insert_root cmp m k v h m1 o h1 EI) as Q. rewrite ER in Q.
    destruct Q as [(Q & _)|(nd' & r' & A & B & C & _)]; [left; congruence|right]. assert (nd' = nd) by congruence. subst nd' o. split; [exact B|reflexivity].
  Qed.
  Lemma remove_cases h m r k m' a h' : root m = Some r -> exec cmp m (BRemove k) h = Ret ((m', a), h') ->
    exists u, remove_ cmp (fuel h) r k h = Ret (u, h') /\ exists rn, nth_error h' r = Some rn /\
      root m' = match n rn with O => root m' | _ => Some r end /\ (n rn = 0 -> leaf rn = true -> root m' = None).
  Proof.
    intros ER E. cbn [exec] in E. unfold mbind in E. destruct (Remove cmp m k h) as [[[m1 o] h1]| |] eqn:EI; try discriminate.
    unfold mret in E. cbn [fst snd] in E. injection E as <- <- <-. unfold Remove in EI. rewrite ER in EI.
    unfold mbind at 1 in EI. destruct (search cmp (fuel h) h r k) as [res| |]; cbn [bind] in EI; try discriminate.
    unfold mbind at 1 in EI. destruct (remove_ cmp (fuel h) r k h) as [[u h2]| |] eqn:RM; try discriminate.
    unfold mbind at 1 in EI. unfold rd at 1 in EI. unfold idx at 1 in EI. destruct (nth_error h2 r) as [rn|] eqn:NR; cbn [of_option bind] in EI; try discriminate.
    unfold mbind at 1 in EI. unfold lift at 1 in EI.
    assert (H : forall r', m1 = mkMap r' (len m1) -> h1 = h2 -> (match n rn with O => if leaf rn then Ret None else idx (childs rn) 0 | _ => Ret (Some r) end) = Ret r' ->
      exists u0, Ret (u, h2) = Ret (u0, h1) /\ exists rn0, nth_error h1 r = Some rn0 /\
        root m1 = match n rn0 with O => root m1 | _ => Some r end /\ (n rn0 = 0 -> leaf rn0 = true -> root m1 = None)).
    { intros r' M1 -> X. exists u. split; [reflexivity|]. exists rn. split; [exact NR|]. rewrite M1. cbn [root]. split.
      - destruct (n rn); [reflexivity|congruence].
      - intros Z L. rewrite Z, L in X. congruence. }
    destruct (match n rn with O => if leaf rn then Ret None else idx (childs rn) 0 | _ => Ret (Some r) end) as [r'| |] eqn:X; cbn [bind] in EI; try discriminate.
    destruct res as [[a i]|].
    - unfold mbind at 1 in EI. destruct (value_at h2 a i) as [v| |]; cbn [bind] in EI; try discriminate. unfold mret in EI. injection EI as <- _ <-. eapply H; eauto.
    - unfold mret in EI. injection EI as <- _ <-. eapply H; eauto.
  Qed.
  Lemma no_two h m seps kids n0 o t' a : tree_at h m (Two seps kids n0) -> tree_step cmp (Two seps kids n0) o = Some (t', a) -> o <> BClear ->
    exists s2 k2 n2, t' = Two s2 k2 n2.
  Proof.
    intros _ E NC. cbn [tree_step] in E. destruct o; try congruence; try (injection E as <- <-; eauto; fail).
    - destruct (find cmp seps kids k); [injection E as <- <-; eauto|]. destruct (grow _ _ _ _); [|discriminate]. injection E as <- <-. eauto.
    - destruct (prune cmp seps kids k); [|discriminate]. destruct (find cmp seps kids k); [|injection E as <- <-; eauto].
      destruct (content _ _ _); [|discriminate]. injection E as <- <-. eauto.
  Qed.

  Lemma seen_at h m t o t' a m' h' : tree_at h m t -> tree_step cmp t o = Some (t', a) -> exec cmp m o h = Ret ((m', a), h') -> tree_at h' m' t' ->
    view_at h' m (seen cmp t o t').
  Proof.
    intros T ST EX T'. assert (SZ : size cmp t = len m) by (symmetry; exact (at_size cmp h m t T)).
    destruct (match o with BInsert _ _ | BRemove _ => false | _ => true end) eqn:KIND.
    { assert (Q : o = BClear \/ o <> BClear) by (destruct o; (left; reflexivity) || (right; discriminate)). destruct Q as [-> |NC].
      - cbn [exec] in EX. unfold mret in EX. injection EX as <- _ <-. cbn [seen view_at]. exact T.
      - assert (RD : match o with BInsert _ _ | BRemove _ | BClear => False | _ => True end) by (destruct o; try discriminate; try exact I; congruence).
        destruct (read_exec _ _ _ _ _ _ RD EX) as (-> & ->). destruct t as [s|seps kids n0].
        + cbn [tree_step] in ST. destruct o; try discriminate; try destruct RD; cbn [slot_step lost] in ST; injection ST as <- _; cbn [seen];
            (destruct (live s) eqn:LV; cbn [view_at]; [exact T|rewrite SZ; apply (recount_at h m m); auto]).
        + destruct (no_two _ _ _ _ _ _ _ _ T ST NC) as (s2 & k2 & n2 & ->). assert (VW : view_at h m (Whole (recount (size cmp (Two seps kids n0)) (Two s2 k2 n2)))).
          { cbn [view_at]. rewrite SZ. apply (recount_at h m m); auto. }
          destruct o; try discriminate; try congruence; exact VW. }
    destruct t as [s|seps kids n0].
    - (* a leaf *)
      destruct t' as [s'|seps kids n1].
      + destruct (live s) as [|e l] eqn:LV.
        { assert (E : seen cmp (One s) o (One s') = Whole (One s)) by (destruct o; try discriminate; cbn [seen]; now rewrite LV). rewrite E. cbn [view_at tree_at].
          eapply nodeless; eauto. }
        destruct (root m) as [r|] eqn:ER; [|destruct T as (_ & T); rewrite ER in T; destruct T as (T & _); congruence].
        assert (T0 := T). destruct T0 as (CO & RE). rewrite ER in RE. destruct RE as (nd & EN & LN & _).
        destruct (live s') as [|e' l'] eqn:LV'.
        * (* emptied *)
          destruct o; try discriminate; cbn [seen].
          { cbn [tree_step slot_step lost] in ST. exfalso. destruct (seek cmp k (all_slots s) 0) as [i|].
            - injection ST as <- _. apply (f_equal (@length _)) in LV'. rewrite live_revalue_length, LV in LV'. discriminate.
            - destruct (length (live s) =? 11); [destruct (option_map _ _) as [[? ?]|] eqn:OM in ST; [|discriminate]; destruct (grow _ _ _ _); cbn [option_map] in OM; congruence|].
              injection ST as <- _. cbn [live] in LV'. apply (f_equal (@length _)) in LV'. rewrite place_length in LV'. discriminate. }
          rewrite LV, LV'. destruct (remove_cases h m r k m' a h' ER EX) as (u & RM & rn & NR & _).
          destruct (remove_leaf cmp (length h) h r nd s k EN LN) as (nd' & ER' & LR). cbn zeta in LR. unfold fuel in RM. rewrite ER' in RM.
          injection RM as _ <-. set (s1 := match live_index cmp k (live s) 0 with Some i => take_out s i | None => s end) in *. rewrite <- LV. fold s1.
          assert (LTr : r < length h) by (eapply nth_lt; eauto). rewrite nth_error_list_set_eq in NR by auto. injection NR as <-.
          destruct LR as (L1 & _ & N1 & _ & A1 & SR1). cbn [view_at]. exists r, nd'. split; [destruct m; cbn in *; congruence|].
          split; [now apply nth_error_list_set_eq|]. split; [exact L1|]. cbn [used cells]. split; [|split; [exact SR1|lia]].
          rewrite N1. assert (Z : live (emptied s1) = []).
          { cbn [tree_step slot_step lost] in ST. fold s1 in ST. destruct (seek cmp k (all_slots s) 0); cbn [is_some] in ST; [destruct (slot_value _ _); [|discriminate]|]; injection ST as <- _; exact LV'. }
          unfold emptied in Z. destruct (live s1) eqn:L1'; [reflexivity|]. congruence.
        * assert (E : seen cmp (One s) o (One s') = Whole (recount (size cmp (One s)) (One s'))) by (destruct o; try discriminate; cbn [seen]; now rewrite LV, LV').
          rewrite E. cbn [view_at]. rewrite SZ. apply (recount_at h' m m'); auto. destruct o; try discriminate.
          -- destruct (insert_same _ _ _ _ _ _ _ EX r nd ER EN) as [Q|(N1 & ->)]; [exact Q|]. exfalso.
             assert (L11 : length (live s) = 11) by (rewrite <- N1; symmetry; apply LN).
             cbn [tree_step slot_step lost] in ST. destruct (seek cmp k (all_slots s) 0) as [i|] eqn:SK.
             ++ destruct (seek_slot_value cmp _ _ _ SK) as (x & _ & SV). rewrite SV in ST. discriminate.
             ++ rewrite L11 in ST. cbn [Nat.eqb] in ST. destruct (grow _ _ _ _); cbn [option_map] in ST; discriminate.
          -- destruct (remove_cases h m r k m' a h' ER EX) as (u & RM & rn & NR & RO & _). rewrite RO, ER.
             destruct (remove_leaf cmp (length h) h r nd s k EN LN) as (nd' & ER' & LR). cbn zeta in LR. unfold fuel in RM. rewrite ER' in RM.
             injection RM as _ <-. set (s1 := match live_index cmp k (live s) 0 with Some i => take_out s i | None => s end) in *.
             assert (LTr : r < length h) by (eapply nth_lt; eauto). rewrite nth_error_list_set_eq in NR by auto. injection NR as <-.
             destruct LR as (_ & _ & N1 & _). rewrite N1. destruct (live s1) as [|x y] eqn:L1; [|reflexivity]. exfalso.
             assert (Z : live (emptied s1) = e' :: l').
             { cbn [tree_step slot_step lost] in ST. fold s1 in ST. destruct (seek cmp k (all_slots s) 0); cbn [is_some] in ST; [destruct (slot_value _ _); [|discriminate]|]; injection ST as <- _; exact LV'. }
             unfold emptied in Z. rewrite L1 in Z. discriminate.
      + (* the first split *)
        assert (E : seen cmp (One s) o (Two seps kids n1) = Leaf (nth 0 kids no_kid) (size cmp (One s))) by (destruct o; try discriminate; reflexivity). rewrite E. clear E.
        destruct o; try discriminate; cbn [tree_step slot_step lost] in ST; [|destruct (seek cmp k (all_slots s) 0); cbn [is_some] in ST; try destruct (slot_value _ _); discriminate].
        destruct (seek cmp k (all_slots s) 0) as [i|] eqn:SK; [discriminate|]. destruct (Nat.eqb_spec (length (live s)) 11) as [L11|]; [|discriminate].
        pose proof (first_split cmp h m s k v T SK L11) as FS. destruct (grow _ _ _ _) as [x|]; [|discriminate]. cbn [option_map] in ST. injection ST as <- <- _ <-.
        destruct FS as (h2 & r' & EI & _ & RO). cbn [exec] in EX. rewrite (mbind_Ret _ _ _ _ _ EI) in EX. unfold mret in EX. injection EX as _ <-.
        destruct (root m) as [r|] eqn:ER; [|destruct RO]. destruct RO as (nd & EN & (L & _ & N & SR & LC & U)). cbn [view_at]. exists r, nd.
        split; [destruct m; cbn in *; congruence|]. repeat (split; [assumption|]). lia.
    - (* two levels *)
      assert (NC : o <> BClear) by (destruct o; discriminate). destruct (no_two _ _ _ _ _ _ _ _ T ST NC) as (s2 & k2 & n2 & ->).
      assert (E : seen cmp (Two seps kids n0) o (Two s2 k2 n2) = Whole (recount (size cmp (Two seps kids n0)) (Two s2 k2 n2))) by (destruct o; try discriminate; reflexivity).
      rewrite E. cbn [view_at]. rewrite SZ. apply (recount_at h' m m'); auto. destruct T as (r & -> & T). cbn [root].
      assert (T0 := T). destruct T0 as (addrs & rn & EN & RN & KA). destruct o; try discriminate.
      + destruct (insert_same _ _ _ _ _ _ _ EX r rn eq_refl EN) as [Q|(N1 & _)]; [exact Q|].
        assert (n rn = length seps) by apply RN. assert (1 <= length seps <= 10) by apply RN. lia.
      + destruct (remove_cases h (mkMap (Some r) n0) r k m' a h' eq_refl EX) as (u & RM & rn' & NR & RO & _). rewrite RO.
        destruct (two_fuel _ _ _ _ T) as (f & FU). rewrite FU in RM. pose proof (remove_two cmp f h r addrs seps kids k (ex_intro _ rn (conj EN (conj RN KA)))) as RT.
        destruct (prune cmp seps kids k) as [x|]; [|congruence]. destruct RT as (h2 & E2 & (rn2 & EN2 & RN2 & _)). rewrite E2 in RM. injection RM as _ <-.
        assert (rn2 = rn') by congruence. subst rn2. assert (n rn' = length (fst x)) by apply RN2. assert (1 <= length (fst x) <= 10) by apply RN2.
        destruct (n rn'); [lia|reflexivity].
  Qed.

  Lemma leaf_reads h m c n0 q : view_at h m (Leaf c n0) -> match q with BInsert _ _ | BRemove _ | BClear => False | _ => True end ->
    exec cmp m q h = Ret ((m, leaf_answer cmp c n0 q), h).
  Proof.
    intros (r & nd & -> & EN & L & N & SR & U) RD. destruct q; try destruct RD; cbn [exec leaf_answer]; unfold asking, mret.
    - unfold Get. cbn [root]. unfold fuel. rewrite (search_leaf cmp _ _ _ _ _ k EN L SR). cbn [bind]. destruct (seek cmp k (cells c) 0) as [i|] eqn:SK; [|reflexivity].
      destruct (seek_slot_value cmp _ _ _ SK) as (e & NA & SV). rewrite SV. cbn [option_map bind].
      unfold value_at, idx at 1. rewrite EN. cbn [of_option bind]. rewrite (idx_values _ _ _ _ SR NA). reflexivity.
    - unfold ContainsKey. cbn [root]. unfold fuel. rewrite (search_leaf cmp _ _ _ _ _ k EN L SR). cbn [bind]. destruct (seek cmp k (cells c) 0); reflexivity.
    - reflexivity.
    - reflexivity.
    - unfold IntoIter_vec. cbn [root]. unfold fuel. now rewrite (to_vec_leaf _ _ _ _ _ EN L SR).
    - unfold Keys_vec. cbn [root]. unfold fuel. rewrite (to_key_vec_leaf _ _ _ _ _ EN L SR) by lia. now rewrite N.
    - unfold Values_vec. cbn [root]. unfold fuel. now rewrite (to_value_vec_leaf _ _ _ _ _ EN L SR).
  Qed.
End Share.
