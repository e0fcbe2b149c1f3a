(** BTreeTwelfthProofs.v -- what becomes of a twelfth key that is above the other eleven. *)
From Verif Require Import Base BaseLemmas Effect CmpSpec VecSpec HashModel BTreeModel BTreeSpec BTreeHistory BTreeProofs BTreeMapProofs BTreeSafeProofs BTreeSplitProofs BTreeGrowProofs BTreeLowProofs BTreeGentleProofs.
Local Open Scope nat_scope.

Section Twelfth.
  Context {K V : Type}.
  Variable cmp : K -> K -> ordering.
  Hypothesis lawful : total_preorder cmp.
  Implicit Types (nd : node K V) (h : heap K V) (k : K) (v : V) (l : list (K * V)).

  Lemma lost_reads h m s l mx front k v : rep h m s -> ok cmp s l -> l = front ++ [mx] -> length front = 10 -> cmp k (fst mx) = Greater ->
    exists h' m', Insert cmp m k v h = Ret ((m', None), h') /\ len m' = 12%Z /\
      IntoIter_vec m' h' = Ret (l ++ [mx; (k, v)]) /\ Keys_vec m' h' = Ret (map fst l) /\ Values_vec m' h' = Ret (map snd (l ++ [mx; (k, v)])) /\
      forall q, Get cmp m' q h' = Ret (get cmp q l) /\ ContainsKey cmp m' q h' = Ret (is_some (get cmp q l)).
  Proof.
    intros R O E0 LF C. pose proof O as (EL & ER & EC & SO & _).
    assert (LL : length l = 11) by (rewrite E0, app_length; cbn; lia).
    assert (exists r c, m = mkMap (Some r) c) as (r & c & EM).
    { destruct m as [[r|] c]; [eauto|]. destruct R as (_ & RR). cbn [root] in RR. destruct RR as (RR & _). rewrite RR in EL. subst l. destruct front; discriminate. }
    subst m. pose proof R as (RC & nd & End & LN & _). cbn [root len] in *.
    assert (LT : r < length h) by (eapply nth_lt; eauto).
    assert (SO' := SO). rewrite E0 in SO'. apply sorted_app in SO'. destruct SO' as (SF & _ & SFM).
    assert (FM : forall x, In x front -> cmp (fst x) (fst mx) = Less) by (intros x I; apply SFM; cbn; auto).
    assert (CL : cmp (fst mx) k = Less) by (apply (Greater_Less cmp lawful) in C; exact C).
    assert (G : get cmp k l = None).
    { apply not_in. intros e I. rewrite E0 in I. apply in_app_iff in I. destruct I as [I|[<-|[]]]; [|congruence].
      pose proof (Less_trans cmp lawful _ _ _ (FM e I) CL) as Q. apply (Greater_Less cmp lawful) in Q. congruence. }
    destruct (root_split cmp h r c s k v front mx) as (h' & rn' & y' & z' & EI & Er & Ey & Ez & (L & D & N & Rr & CH) & (YL & YD) & (ZL & ZD) & REST); auto.
    { congruence. } { eapply ok_get; eauto. }
    rewrite CL in REST. cbn [is] in REST. destruct REST as (YN & Ry & ZN & Rz).
    assert (EF : exists f, fuel h' = S (S f)).
    { unfold fuel. pose proof (nth_lt _ _ _ Er). destruct (length h'); [lia|eauto]. }
    destruct EF as (f & FU). rewrite <- E0 in Ry.
    eexists _, _. split; [exact EI|]. cbn [len]. split; [rewrite RC, EC, LL; reflexivity|].
    unfold IntoIter_vec, Keys_vec, Values_vec, Get, ContainsKey. cbn [root]. rewrite FU.
    assert (CI : forall A (g : nat -> out (list A)) a b, g r = Ret a -> g (S (length h)) = Ret b -> child_is g rn' (a :: b :: repeat [] 9)).
    { intros A g a b Ga Gb i s0. rewrite CH. destruct i as [|[|i]]; cbn [nth_error].
      - intros [= <-]. left. eauto.
      - intros [= <-]. left. eauto.
      - intros Q. right. split; [|eapply repeat_spec, nth_error_In; eauto].
        apply nth_error_repeat. assert (i < 9) by (rewrite <- (repeat_length (@nil A) 9); apply nth_error_Some; congruence). lia. }
    split; [|split; [|split]].
    - rewrite (to_vec_inner _ _ _ _ _ (l :: [(k, v)] :: repeat [] 9) Er L Rr); [|cbn; lia|].
      + reflexivity.
      + apply CI; [rewrite (to_vec_leaf _ _ _ _ _ Ey YL Ry); now rewrite somes_map_Some|rewrite (to_vec_leaf _ _ _ _ _ Ez ZL Rz); reflexivity].
    - rewrite (to_key_vec_inner _ _ _ _ _ (map fst front :: [k] :: repeat [] 9) Er L Rr); rewrite ?N; [|cbn; lia|cbn; lia|].
      + cbn. now rewrite E0, map_app.
      + apply CI.
        * rewrite (to_key_vec_leaf _ _ _ _ _ Ey YL Ry) by (rewrite map_length; lia). rewrite YN, E0, map_app.
          replace 10 with (length (map (@Some (K * V)) front)) by (rewrite map_length; exact LF).
          rewrite firstn_app, firstn_all, Nat.sub_diag. cbn [firstn]. rewrite app_nil_r. now rewrite somes_map_Some.
        * rewrite (to_key_vec_leaf _ _ _ _ _ Ez ZL Rz); rewrite ZN; [reflexivity|cbn; lia].
    - rewrite (to_value_vec_inner _ _ _ _ _ (map snd l :: [v] :: repeat [] 9) Er L Rr); [|cbn; lia|].
      + rewrite map_app. cbn. reflexivity.
      + apply CI; [rewrite (to_value_vec_leaf _ _ _ _ _ Ey YL Ry); now rewrite somes_map_Some|rewrite (to_value_vec_leaf _ _ _ _ _ Ez ZL Rz); reflexivity].
    - intros q.
      assert (EI' : idx h' (length h) = Ret rn') by (unfold idx; now rewrite Er).
      assert (KS : keys rn' = Some (fst mx) :: repeat None 10) by (destruct Rr as [-> _]; reflexivity).
      assert (CASES : (exists i, cmp q (fst mx) = Equal /\ search cmp (S (S f)) h' (length h) q = Ret (Some (length h, 0)) /\ get cmp q l = Some (snd mx) /\ i = 0) \/
        (exists i e, nth_error l i = Some e /\ search cmp (S (S f)) h' (length h) q = Ret (Some (r, i)) /\ get cmp q l = Some (snd e)) \/
        (search cmp (S (S f)) h' (length h) q = Ret None /\ get cmp q l = None)).
      { remember (S f) as f1. cbn [search]. rewrite EI'. cbn [bind]. rewrite L, KS.
        cbn [scan]. destruct (cmp q (fst mx)) eqn:CQ; cbn [is].
        - cbn [nth_error]. rewrite CQ. cbn [is]. unfold idx. rewrite CH. cbn [nth_error of_option bind].
          subst f1. rewrite (search_leaf cmp _ _ _ _ _ _ Ey YL Ry).
          destruct (seek_sorted cmp lawful l q SO) as [(a & [k0 v0] & b & E & C0 & SK)|(NL & SK)]; rewrite SK.
          + right. left. exists (length a), (k0, v0). split; [rewrite E, nth_error_app2 by lia; now rewrite Nat.sub_diag|]. split; [reflexivity|].
            destruct (found_in cmp lawful l a k0 v0 b q v0 SO E C0). auto.
          + right. right. split; [reflexivity|]. now apply not_in.
        - left. exists 0. cbn [nth_error]. rewrite CQ. cbn [is]. split; auto. split; auto. split; auto.
          destruct mx as [k0 v0]. destruct (found_in cmp lawful l front k0 v0 [] q v0 SO E0 CQ). auto.
        - right. right. cbn [nth_error repeat scan]. unfold idx. rewrite CH. cbn [nth_error of_option bind].
          subst f1. rewrite (search_leaf cmp _ _ _ _ _ _ Ez ZL Rz). split; [reflexivity|].
          apply not_in. intros e I. rewrite E0 in I. apply in_app_iff in I. destruct I as [I|[<-|[]]]; [|congruence].
          apply (Greater_Less cmp lawful) in CQ. pose proof (Less_trans cmp lawful _ _ _ (FM e I) CQ) as Q. apply (Greater_Less cmp lawful) in Q. congruence. }
      destruct CASES as [(i & _ & -> & -> & _)|[(i & e & NI & -> & ->)|(-> & ->)]]; cbn [bind]; unfold value_at.
      + unfold idx at 1. rewrite Er. cbn [of_option bind]. rewrite (idx_values _ _ 0 (Some mx) Rr) by reflexivity. split; reflexivity.
      + unfold idx at 1. rewrite Ey. cbn [of_option bind]. rewrite (idx_values _ _ i (Some e) Ry) by (now rewrite nth_error_map, NI). split; reflexivity.
      + split; reflexivity.
  Qed.
End Twelfth.
