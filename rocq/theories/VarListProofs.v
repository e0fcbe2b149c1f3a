(** VarListProofs.v -- a copied LinkedList header: proofs. *)
From Coq Require Import List ZArith Lia.
From Verif Require Import Base BaseLemmas Effect ListModel ListProofs VarModel.
From Verif Require ListSpec.
Import ListSpec(forward, forward_nil, forward_node, backward, backward_nil, backward_node, list_shows, apart, extends).
Import ListNotations.
Local Open Scope Z_scope.

Section ListRef.
  Context {T : Type}.
  Implicit Types (h : heap T) (l : LinkedList) (cs : list (nat * T)).

  (** PushBack through a header whose last node has a successor by now. *)
  Lemma PushBack_any : forall h l cs q x, cs <> [] -> dll h None cs q -> head l = first_or cs None -> tail l = last_or cs None ->
    len l = Z.of_nat (length cs) -> NoDup (addrs cs) -> Z.of_nat (length cs) + 1 < 2 ^ 64 ->
    exists h' l', PushBack l x h = Ret (l', h') /\ own h' l' (cs ++ [(length h, x)]) /\ changes h h' (addrs cs).
  Proof.
    intros h l cs q x NE D Hd Tl Ln ND B.
    assert (Fr : ~ In (length h) (addrs cs)) by (intros I; eapply dll_bound in I; eauto; lia).
    unfold PushBack, alloc, mbind at 1. rewrite Hd, Tl, Ln, u64_small by lia.
    assert (Nn : nth_error (h ++ [mkNode x None (last_or cs None)]) (length h) = Some (mkNode x None (last_or cs None))).
    { rewrite nth_error_app2, Nat.sub_diag by lia. reflexivity. }
    destruct cs as [|[t y] cs _] using rev_ind; [congruence|].
    rewrite last_or_snoc in *. cbn [when].
    apply dll_app in D. destruct D as [D1 D2]. cbn [dll first_or] in D2. destruct D2 as [D2 _].
    assert (Nt : nth_error (h ++ [mkNode x None (Some t)]) t = Some (mkNode y q (last_or cs None))).
    { rewrite nth_error_app1; auto. apply nth_error_Some. congruence. }
    rewrite addrs_app in *. apply NoDup_snoc_inv in ND as ND'. destruct ND' as [ND1 ND2].
    assert (Net : t <> length h) by (intros ->; apply Fr; rewrite in_app_iff; right; left; reflexivity).
    rewrite (mb_Ret _ _ _ _ _ _ tt _ (set_next_spec _ _ _ _ Nt)). unfold mret. cbn [value prev].
    eexists _, _. split; [reflexivity|]. split.
    + split; [|split; [|split; [|split]]].
      * rewrite dll_app. split; [|cbn [dll]; split; [|exact I]].
        -- rewrite dll_app. split; [|cbn [dll]; split; [|exact I]].
           ++ eapply dll_same; [exact D1|]. intros a Ha. rewrite nth_error_list_set_neq by (intros <-; auto).
              apply nth_error_app1. eapply dll_bound; eauto.
           ++ cbn [first_or]. rewrite nth_error_list_set_eq; [reflexivity|].
              apply nth_error_Some. rewrite Nt. discriminate.
        -- rewrite last_or_snoc. cbn [first_or]. rewrite nth_error_list_set_neq by auto. exact Nn.
      * cbn [head]. rewrite !first_or_app. destruct cs as [|[a z] cs]; reflexivity.
      * cbn [tail]. now rewrite last_or_snoc.
      * cbn [len]. rewrite (app_length (cs ++ [(t, y)])). cbn [length]. lia.
      * rewrite addrs_app. apply NoDup_snoc; now rewrite addrs_app.
    + eapply changes_trans; [eapply changes_weaken; [apply snoc_changes | intros a []] | apply list_set_changes |].
      intros a [<-|[]]. left. rewrite in_app_iff. right. left. reflexivity.
  Qed.

  Lemma first_or_ne : forall cs ds q q', cs <> [] -> first_or (cs ++ ds) q = first_or cs q'.
  Proof. intros [|[a y] cs] ds q q' N; [congruence|reflexivity]. Qed.
  Lemma vals_app : forall cs ds, vals (cs ++ ds) = vals cs ++ vals ds.
  Proof. intros. apply map_app. Qed.
  Lemma combine_ne : forall (A : list nat) (v : list T), v <> [] -> vals (combine A v) = v -> combine A v <> [].
  Proof. intros A v N E C. rewrite C in E. cbn in E. congruence. Qed.
  Lemma last_or_ne : forall cs p p', cs <> [] -> last_or cs p = last_or cs p'.
  Proof. intros [|[a y] cs] p p' N; [congruence|reflexivity]. Qed.

  (** After a PushBack through the copy, and then one through the original. *)
  Lemma push_back_copy : forall h l A xs x y, list_shows h l A xs -> xs <> [] -> Z.of_nat (length xs) + 1 < 2 ^ 64 ->
    exists h' r a, PushBack l x h = Ret (r, h') /\ list_shows h' r (A ++ [a]) (xs ++ [x]) /\
      forward h' (head l) (A ++ [a]) (xs ++ [x]) /\ backward h' (tail l) (rev A) (rev xs) /\
      exists h2 l2 b, PushBack l y h' = Ret (l2, h2) /\ list_shows h2 l2 (A ++ [b]) (xs ++ [y]) /\
        forward h2 (head r) (A ++ [b]) (xs ++ [y]) /\ backward h2 (tail r) (rev (A ++ [a])) (rev (xs ++ [x])).
  Proof.
    intros h l A xs x y S NE B. destruct (shows_own h l A xs S) as (O & EA & EV). set (cs := combine A xs) in *.
    assert (NC : cs <> []) by (apply combine_ne; auto).
    assert (LC : length cs = length xs) by (rewrite <- EV; unfold vals; now rewrite map_length).
    pose proof O as (D & Hd & Tl & Ln & ND).
    destruct (PushBack_spec h l cs x O ltac:(lia)) as (h1 & r & E1 & O1 & C1).
    pose proof O1 as (D1 & Hd1 & Tl1 & Ln1 & ND1).
    exists h1, r, (length h). split; [exact E1|].
    assert (S1 := own_shows _ _ _ O1). rewrite addrs_app, vals_app, EA, EV in S1. cbn [addrs vals map fst snd] in S1.
    split; [exact S1|]. destruct S1 as (F1 & B1 & L1).
    assert (HH : head r = head l). { rewrite Hd1, Hd. now apply first_or_ne. }
    split; [now rewrite <- HH|].
    apply dll_app in D1 as D1'. destruct D1' as [Da Db]. cbn [dll first_or] in Da, Db. destruct Db as [Db _].
    split. { rewrite Tl, <- EA, <- EV. eapply dll_backward. exact Da. }
    destruct (PushBack_any h1 l cs _ y NC Da Hd Tl Ln ND ltac:(lia)) as (h2 & l2 & E2 & O2 & C2).
    pose proof O2 as (D2 & Hd2 & Tl2 & Ln2 & ND2).
    exists h2, l2, (length h1). split; [exact E2|].
    assert (S2 := own_shows _ _ _ O2). rewrite addrs_app, vals_app, EA, EV in S2. cbn [addrs vals map fst snd] in S2.
    split; [exact S2|]. destruct S2 as (F2 & B2 & L2).
    assert (HH2 : head l2 = head r). { rewrite Hd2, HH, Hd. now apply first_or_ne. }
    split; [now rewrite <- HH2|].
    rewrite Tl1, last_or_snoc, !rev_app_distr. cbn [rev app].
    apply dll_app in D2 as D2'. destruct D2' as [Dc _].
    assert (Nx : nth_error h2 (length h) = Some (mkNode x None (last_or cs None))).
    { destruct C2 as [_ C2]. rewrite C2; [exact Db | | ].
      - apply nth_error_Some. congruence.
      - rewrite addrs_app in ND1. apply NoDup_snoc_inv in ND1. tauto. }
    change x with (value (mkNode x None (last_or cs None))). apply backward_node; [exact Nx|]. cbn [prev].
    rewrite <- EA, <- EV. eapply dll_backward. exact Dc.
  Qed.

  Lemma push_back_copy_empty : forall h l x, list_shows h l [] [] ->
    exists h' r a, PushBack l x h = Ret (r, h') /\ list_shows h' r [a] [x] /\ list_shows h' l [] [].
  Proof.
    intros h l x S. destruct (shows_own h l [] [] S) as (O & _ & _). cbn [combine] in O.
    destruct (PushBack_spec h l [] x O) as (h1 & r & E1 & O1 & C1). { cbn [length]. lia. }
    exists h1, r, (length h). split; [exact E1|]. split; [apply (own_shows _ _ _ O1)|].
    destruct O as (_ & Hd & Tl & Ln & _). unfold list_shows. rewrite Hd, Tl. cbn [first_or last_or rev].
    split; [constructor|]. split; [constructor|]. exact Ln.
  Qed.

  (** PushFront through the copy. *)
  Lemma push_front_copy : forall h l A xs x, list_shows h l A xs -> xs <> [] -> Z.of_nat (length xs) + 1 < 2 ^ 64 ->
    exists h' r a, PushFront l x h = Ret (r, h') /\ list_shows h' r (a :: A) (x :: xs) /\
      forward h' (head l) A xs /\ backward h' (tail l) (rev (a :: A)) (rev (x :: xs)).
  Proof.
    intros h l A xs x S NE B. destruct (shows_own h l A xs S) as (O & EA & EV). set (cs := combine A xs) in *.
    assert (NC : cs <> []) by (apply combine_ne; auto).
    assert (LC : length cs = length xs) by (rewrite <- EV; unfold vals; now rewrite map_length).
    pose proof O as (D & Hd & Tl & Ln & ND).
    destruct (PushFront_spec h l cs x O ltac:(lia)) as (h1 & r & E1 & O1 & C1).
    pose proof O1 as (D1 & Hd1 & Tl1 & Ln1 & ND1). cbn [dll first_or last_or] in *.
    exists h1, r, (length h). split; [exact E1|].
    assert (S1 := own_shows _ _ _ O1). cbn [addrs vals map fst snd] in S1. fold (addrs cs) in S1. fold (vals cs) in S1. rewrite EA, EV in S1.
    split; [exact S1|]. destruct S1 as (F1 & B1 & L1). destruct D1 as [Da Db]. split.
    - rewrite Hd, <- EA, <- EV. eapply dll_forward. exact Db.
    - replace (tail l) with (tail r); [exact B1|]. rewrite Tl1, Tl. now apply last_or_ne.
  Qed.

  (** The last element, taken through the copy and again through the original. *)
  Lemma pop_back_copy : forall h l A t xs y, list_shows h l (A ++ [t]) (xs ++ [y]) -> Z.of_nat (length xs) + 1 < 2 ^ 64 ->
    exists h' r, PopBack l h = Ret (r, Some y, h') /\ list_shows h' r A xs /\ PopBack l h' = Ret (r, Some y, h').
  Proof.
    intros h l A t xs y S B. destruct (shows_own h l _ _ S) as (O & EA & EV).
    assert (LA : length A = length xs).
    { assert (Q : length (A ++ [t]) = length (xs ++ [y])). { apply (f_equal (@length _)) in EA. apply (f_equal (@length _)) in EV. unfold addrs, vals in *. rewrite map_length in EA, EV. congruence. } rewrite !app_length in Q. cbn in Q. lia. }
    assert (CB : combine (A ++ [t]) (xs ++ [y]) = combine A xs ++ [(t, y)]).
    { clear -LA. revert xs LA. induction A as [|a A IH]; intros [|x xs] H; cbn in H; try discriminate; [reflexivity|].
      cbn [app combine]. f_equal. apply IH. lia. }
    rewrite CB in O, EA, EV. set (cs := combine A xs) in *.
    rewrite addrs_app in EA. rewrite vals_app in EV. cbn [addrs vals map fst snd] in EA, EV.
    apply app_inj_tail in EA. destruct EA as [EA _]. apply app_inj_tail in EV. destruct EV as [EV _].
    assert (LC : length cs = length xs) by (rewrite <- EV; unfold vals; now rewrite map_length).
    pose proof O as (D & Hd & Tl & Ln & ND).
    apply dll_app in D. destruct D as [D1 D2]. cbn [dll first_or] in D1, D2. destruct D2 as [D2 _].
    destruct (PopBack_snoc h l cs t y O ltac:(lia)) as (h1 & r & E1 & O1 & C1).
    exists h1, r. split; [exact E1|]. split. { assert (Z := own_shows _ _ _ O1). now rewrite EA, EV in Z. }
    rewrite addrs_app in ND. apply NoDup_snoc_inv in ND. destruct ND as [ND1 ND2].
    assert (T1 : nth_error h1 t = Some (mkNode y None (last_or cs None))).
    { destruct C1 as [_ C1]. rewrite C1; auto. apply nth_error_Some. congruence. }
    unfold PopBack in *. rewrite Tl, last_or_snoc in *.
    rewrite (mb_Ret _ _ _ _ _ _ _ _ (load_spec _ _ _ D2)) in E1. rewrite (mb_Ret _ _ _ _ _ _ _ _ (load_spec _ _ _ T1)).
    cbn [value next prev] in *. destruct (last_or cs None) as [u|] eqn:LU.
    - destruct cs as [|[u' z] cs' _] using rev_ind; [discriminate|]. rewrite last_or_snoc in LU. inversion LU; subst u'.
      cbn [when] in *. apply dll_app in D1. destruct D1 as [_ D3]. cbn [dll first_or] in D3. destruct D3 as [D3 _].
      pose proof O1 as (D4 & _). apply dll_app in D4. destruct D4 as [_ D4]. cbn [dll first_or] in D4. destruct D4 as [D4 _].
      rewrite (mb_Ret _ _ _ _ _ _ tt _ (set_next_spec _ _ _ _ D3)) in E1.
      rewrite (mb_Ret _ _ _ _ _ _ tt _ (set_next_spec _ _ _ _ D4)). unfold mret in *. cbn [value prev].
      rewrite (list_set_same _ _ _ D4). inversion E1. reflexivity.
    - cbn [when] in *. unfold mret, mbind in *. inversion E1. reflexivity.
  Qed.
End ListRef.
