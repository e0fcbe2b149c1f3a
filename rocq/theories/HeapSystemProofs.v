(** HeapSystemProofs.v -- the heaps of a program are the rooms of the specification. *)
From Coq Require Import Permutation.
From Verif Require Import Base BaseLemmas VecModel VecSpec VecProofs VecSortProofs HeapModel HeapSpec HeapProofs AnyCmpProofs HeapSystemSpec HeapSystemModel.

Section Heaps.
  Context {T : Type}.
  Variable zero : T.
  Variable extra : nat -> nat -> nat.
  Variable cmp : T -> T -> ordering.
  Hypothesis TP : total_preorder cmp.

  Definition rep (h : BinaryHeap T) (r : room T) : Prop :=
    Permutation (vec h) (bag r) /\ capacity h = cap r /\ length (vec h) <= capacity h /\ (ordered r -> heap cmp (vec h)).

  Lemma heap_small (d : list T) : length d <= 1 -> heap cmp d.
  Proof.
    intros L i Hi a b Ha. exfalso. assert (i < length d) by (apply nth_error_Some; congruence). lia.
  Qed.
  Lemma room_for_refl c n : n <= c -> room_for c n c.
  Proof. intros L. unfold room_for. destruct (Nat.leb_spec n c); [reflexivity|lia]. Qed.
  Lemma room_for_trans c n1 c1 n2 c2 : n1 <= n2 -> room_for c n1 c1 -> room_for c1 n2 c2 -> room_for c n2 c2.
  Proof.
    unfold room_for. intros L A B. destruct (Nat.leb_spec n1 c), (Nat.leb_spec n2 c), (Nat.leb_spec n2 c1); lia.
  Qed.
  Lemma room_for_le c n c' : room_for c n c' -> n <= c'.
  Proof. unfold room_for. destruct (Nat.leb_spec n c); lia. Qed.

  Lemma push_rep h r x : rep h r -> exists h' c, HPush extra cmp h x = Ret h' /\
    room_for (cap r) (S (length (bag r))) c /\ rep h' (mkRoom (x :: bag r) c (ordered r)).
  Proof.
    intros (P & C & L & H). destruct (HPush_any extra cmp h x) as (h' & E & Q). exists h', (capacity h'). split; [exact E|].
    assert (C' : capacity h' = capacity (extend extra h [x])).
    { unfold HPush in E. cbv zeta in E. destruct (SiftUp cmp (vec (extend extra h [x])) 0 (HLen h)); try discriminate. cbn [bind] in E. now inversion E. }
    assert (RF : room_for (cap r) (S (length (bag r))) (capacity h')).
    { rewrite C', <- C, <- (Permutation_length P). unfold extend, room_for, HLen. cbn [capacity length]. rewrite Nat.add_1_r.
      destruct (Nat.leb_spec (S (length (vec h))) (capacity h)); lia. }
    split; [exact RF|]. unfold rep. cbn [bag cap ordered]. split; [rewrite <- Q; now constructor|]. split; [reflexivity|]. split.
    - rewrite <- (Permutation_length Q). cbn [length]. rewrite (Permutation_length P). exact (room_for_le _ _ _ RF).
    - intros O. destruct (HPush_spec extra cmp TP h x (H O)) as (h1 & E1 & _ & H1 & _). assert (h1 = h') by congruence. now subst h1.
  Qed.

  Lemma pushes_rep l : forall h r, rep h r -> exists h' c, oloop (HPush extra cmp) l h = Ret h' /\
    room_for (cap r) (length (bag r) + length l) c /\ rep h' (mkRoom (l ++ bag r) c (ordered r)).
  Proof.
    induction l as [|x l IH]; intros h r R; cbn [oloop].
    - exists h, (cap r). split; [reflexivity|]. destruct R as (P & C & L & H). split.
      + apply room_for_refl. cbn [length]. rewrite <- (Permutation_length P). lia.
      + unfold rep. cbn [bag cap ordered app]. auto.
    - destruct (push_rep h r x R) as (h1 & c1 & E1 & F1 & R1). rewrite E1. cbn [bind].
      destruct (IH h1 _ R1) as (h2 & c2 & E2 & F2 & (P2 & C2 & L2 & H2)). exists h2, c2. split; [exact E2|]. cbn [bag cap ordered length] in *. split.
      + apply room_for_trans with (S (length (bag r))) c1; [lia|exact F1|]. now replace (length (bag r) + S (length l)) with (S (length (bag r)) + length l) by lia.
      + unfold rep. cbn [bag cap ordered] in *. split; [|auto]. rewrite P2. cbn [app]. symmetry. apply Permutation_middle.
  Qed.

  Lemma reserve_rep h r n : rep h r -> exists r', reserved zero cmp r n r' /\ rep (HReserve zero extra h n) r'.
  Proof.
    intros R. assert (R' := R). destruct R' as (P & C & L & H). assert (PL := Permutation_length P). unfold HReserve, HLen.
    destruct (Nat.ltb_spec (capacity h) (length (vec h) + n)) as [A|A].
    - eexists. split; [apply zeros with (c := capacity (extend extra h (repeat zero n))); [lia|]|].
      + unfold extend, HLen. cbn [capacity]. rewrite repeat_length. destruct (Nat.leb_spec (length (vec h) + n) (capacity h)); lia.
      + unfold rep. cbn [bag cap ordered]. unfold extend, HLen. cbn [vec capacity]. rewrite repeat_length. split; [rewrite P; apply Permutation_app_comm|].
        split; [reflexivity|]. split; [rewrite app_length, repeat_length; destruct (Nat.leb_spec (length (vec h) + n) (capacity h)); lia|].
        intros (O & F). specialize (H O). intros i Hi a b Ha Hb. assert (PI := par_lt i Hi).
        destruct (Nat.lt_ge_cases i (length (vec h))) as [I|I].
        * rewrite nth_error_app1 in Ha by exact I. rewrite nth_error_app1 in Hb by lia. exact (H i Hi a b Ha Hb).
        * rewrite nth_error_app2 in Ha by exact I. apply nth_error_In, repeat_spec in Ha. subst a.
          apply nth_error_In in Hb. apply in_app_or in Hb. destruct Hb as [Hb|Hb].
          -- rewrite Forall_forall in F. apply F. now rewrite <- P.
          -- apply repeat_spec in Hb. subst b. now apply le_refl.
    - exists r. split; [constructor; lia|exact R].
  Qed.

  Lemma pop_cap h h' o : HPop cmp h = Ret (h', o) -> capacity h' = capacity h.
  Proof.
    unfold HPop. destruct (vec h) as [|y q] eqn:Ev; [intros E; now inversion E|]. rewrite <- Ev.
    destruct (idx (vec h) (HLen h - 1)); try discriminate. cbn [bind]. cbv zeta.
    destruct (negb _); [|intros E; now inversion E].
    destruct (idx (firstn (HLen h - 1) (vec h)) 0); try discriminate. cbn [bind].
    destruct (upd _ 0 a); try discriminate. cbn [bind]. destruct (SiftDownToBottom cmp _ 0); try discriminate. cbn [bind].
    intros E. now inversion E.
  Qed.
  Lemma pop_rep h r : rep h r -> exists h' o r', HPop cmp h = Ret (h', o) /\ (forall i, room_step zero cmp r (Pop i) r' (Popped o)) /\ rep h' r'.
  Proof.
    intros R. assert (R' := R). destruct R' as (P & C & L & H). assert (A := HPop_any cmp h). destruct (vec h) as [|x q] eqn:Ev.
    - exists h, None, r. split; [exact A|]. split; [|exact R]. intros i. constructor. apply Permutation_nil. exact P.
    - destruct A as (h' & E & Q). eexists h', (Some x), _. split; [exact E|]. split.
      + intros i. apply s_pop with (rest := vec h').
        * now rewrite <- P.
        * intros O. assert (G := HPop_spec cmp TP h). rewrite Ev in G. destruct (G (H O)) as (h1 & y & E1 & _ & (G1 & G2) & _).
          assert (y = x) by congruence. subst y. split; [now rewrite <- P|]. intros z Hz. apply G2. now rewrite P.
      + unfold rep. cbn [bag cap ordered]. assert (C' := pop_cap _ _ _ E). split; [reflexivity|]. split; [congruence|]. split.
        * apply Permutation_length in Q. cbn [length] in *. lia.
        * intros [O|S]; [|now apply heap_small]. assert (G := HPop_spec cmp TP h). rewrite Ev in G.
          destruct (G (H O)) as (h1 & y & E1 & _ & _ & H1 & _). assert (h1 = h') by congruence. now subst h1.
  Qed.

  Lemma sorted_cap fuel : forall h s i h' l, sorted_loop cmp fuel h s i = Ret (h', l) -> capacity h' = capacity h.
  Proof.
    induction fuel as [|fuel IH]; intros h s i h' l E; cbn [sorted_loop] in E; [discriminate|].
    destruct (negb (HIsEmpty h)); [|now inversion E]. destruct (HPop cmp h) as [[h1 o]| |] eqn:Ep; try discriminate. cbn [bind fst snd] in E.
    destruct (of_option o); try discriminate. cbn [bind] in E.
    destruct (if (i <? 0)%Z then Panic else upd s (Z.to_nat i) a); try discriminate. cbn [bind] in E.
    apply IH in E. rewrite E. exact (pop_cap _ _ _ Ep).
  Qed.
  Lemma sorted_rep h r : rep h r -> exists h' l r', HIntoSortedVec zero cmp h = Ret (h', l) /\
    (forall i, room_step zero cmp r (Sorted i) r' (Listed l)) /\ rep h' r'.
  Proof.
    intros (P & C & L & H). unfold HIntoSortedVec.
    destruct (sorted_any cmp (HLen h + 1) h (repeat zero (HLen h)) []) as (h' & l & E & V & Q); [lia|apply repeat_length|].
    rewrite app_nil_r in E, Q. eexists h', l, _. split; [exact E|]. split.
    - intros i. apply s_sorted; [now rewrite <- P|]. intros O.
      destruct (sorted_loop_spec cmp TP (HLen h + 1) h (repeat zero (HLen h)) []) as (h1 & l1 & E1 & _ & _ & A);
        [exact (H O)|lia|apply repeat_length|constructor|intros x y _ []|]. rewrite app_nil_r in E1. assert (l1 = l) by congruence. now subst l1.
    - apply sorted_cap in E. unfold rep. cbn [bag cap ordered]. rewrite V. split; [reflexivity|]. split; [congruence|]. split; [cbn; lia|].
      intros _. apply heap_small. cbn. lia.
  Qed.

  Lemma self_rep base n : forall i frozen h r, rep h r -> incl (bag r) base ->
    match frozen with Some a => incl a base /\ i + n <= length a | None => i + n <= length (vec h) end ->
    exists h' added c, append_self_loop extra cmp n i frozen h = Ret h' /\ length added = n /\ incl added base /\
      room_for (cap r) (length (bag r) + n) c /\ rep h' (mkRoom (added ++ bag r) c (ordered r)).
  Proof.
    induction n as [|n IH]; intros i frozen h r R I F; cbn [append_self_loop].
    - exists h, [], (cap r). split; [reflexivity|]. split; [reflexivity|]. split; [intros y []|]. destruct R as (P & C & L & H). split.
      + apply room_for_refl. rewrite <- (Permutation_length P). lia.
      + unfold rep. cbn [bag cap ordered app]. auto.
    - assert (X : exists x, idx (match frozen with Some a => a | None => vec h end) i = Ret x /\ In x base).
      { assert (LT : i < length (match frozen with Some a => a | None => vec h end)) by (destruct frozen; lia).
        destruct (nth_error_lt _ _ _ LT) as (x & Hx). exists x. split; [now apply idx_nth_error|]. apply nth_error_In in Hx.
        destruct frozen as [a|]; [apply F; exact Hx|]. apply I. destruct R as (P & _). now rewrite <- P. }
      destruct X as (x & Ex & Ix). rewrite Ex. cbn [bind]. cbv zeta.
      destruct (push_rep h r x R) as (h1 & c1 & E1 & F1 & R1). rewrite E1. cbn [bind].
      assert (LH : length (vec h1) = S (length (vec h))).
      { destruct R1 as (P1 & _). destruct R as (P & _). rewrite (Permutation_length P1), (Permutation_length P). reflexivity. }
      edestruct (IH (i + 1) (match frozen with Some a => Some a | None => if capacity h <? HLen h + 1 then Some (vec h) else None end) h1 _ R1)
        as (h2 & added & c2 & E2 & L2 & I2 & F2 & (P2 & C2 & B2 & H2)).
      + intros y [<-|Hy]; [exact Ix|now apply I].
      + destruct frozen as [a|]; [split; [apply F|lia]|]. destruct (capacity h <? HLen h + 1); [|lia].
        split; [|lia]. intros y Hy. apply I. destruct R as (P & _). now rewrite <- P.
      + exists h2, (x :: added), c2. cbn [bag cap ordered length] in *. split; [exact E2|]. split; [lia|]. split; [intros y [<-|Hy]; auto|]. split.
        * apply room_for_trans with (S (length (bag r))) c1; [lia|exact F1|]. now replace (length (bag r) + S n) with (S (length (bag r)) + n) by lia.
        * unfold rep. cbn [bag cap ordered] in *. split; [|auto]. rewrite P2. cbn [app]. symmetry. apply Permutation_middle.
  Qed.

  Lemma Forall2_nth {A B} (R : A -> B -> Prop) l l' i a : Forall2 R l l' -> nth_error l i = Some a -> exists b, nth_error l' i = Some b /\ R a b.
  Proof.
    intros F. revert i. induction F as [|x y l l' Rxy F IH]; intros i E; [destruct i; discriminate|].
    destruct i; cbn in *; [inversion E; subst; eauto|auto].
  Qed.
  Lemma Forall2_none {A B} (R : A -> B -> Prop) l l' i : Forall2 R l l' -> nth_error l i = None -> nth_error l' i = None.
  Proof.
    intros F. revert i. induction F as [|x y l l' Rxy F IH]; intros i E; [now destruct i|]. destruct i; cbn in *; [discriminate|auto].
  Qed.
  Lemma Forall2_set {A B} (R : A -> B -> Prop) l l' i a b : Forall2 R l l' -> R a b -> Forall2 R (list_set l i a) (list_set l' i b).
  Proof.
    intros F Rab. revert i. induction F as [|x y l l' Rxy F IH]; intros i; cbn [list_set]; [constructor|]. destruct i; constructor; auto.
  Qed.

  Lemma one hs rs i o (k : BinaryHeap T -> out (list (BinaryHeap T) * sys_answer T)) : Forall2 rep hs rs -> subject o = Some i ->
    (forall h r, nth_error hs i = Some h -> rep h r -> exists hs' a r', k h = Ret (hs', a) /\ room_step zero cmp r o r' a /\
       exists h', hs' = list_set hs i h' /\ rep h' r') ->
    exists hs' a rs', with_heap hs i k = Ret (hs', a) /\ sys_step zero cmp rs o rs' a /\ Forall2 rep hs' rs'.
  Proof.
    intros F S K. unfold with_heap. destruct (nth_error hs i) as [h|] eqn:E.
    - destruct (Forall2_nth _ _ _ _ _ F E) as (r & Er & R). destruct (K h r eq_refl R) as (hs' & a & r' & E1 & S1 & h' & -> & R1).
      exists (list_set hs i h'), a, (list_set rs i r'). split; [exact E1|]. split; [eapply y_one; eauto|]. now apply Forall2_set.
    - exists hs, NoHeap, rs. split; [reflexivity|]. split; [|exact F]. eapply y_none; [exact S|]. exact (Forall2_none _ _ _ _ F E).
  Qed.

  Lemma sexec_rep hs rs o : Forall2 rep hs rs ->
    exists hs' a rs', sexec zero extra cmp hs o = Ret (hs', a) /\ sys_step zero cmp rs o rs' a /\ Forall2 rep hs' rs'.
  Proof.
    intros F. assert (START : forall h r, start zero o = Some r -> rep h r ->
      exists hs' a rs', Ret (hs ++ [h], Nothing) = Ret (hs', a) /\ sys_step zero cmp rs o rs' a /\ Forall2 rep hs' rs').
    { intros h r S R. eexists _, _, _. split; [reflexivity|]. split; [apply y_new; exact S|]. apply Forall2_app; auto. }
    destruct o; cbn [sexec]; try (eapply one; [exact F|reflexivity|]; intros h r Eh R).
    - eapply START; [reflexivity|]. split; [reflexivity|]. cbn. split; [reflexivity|]. split; [lia|]. intros _. apply heap_small. cbn. lia.
    - eapply START; [reflexivity|]. split; [reflexivity|]. cbn. split; [reflexivity|]. split; [lia|]. intros _. apply heap_small. cbn. lia.
    - eapply START; [reflexivity|]. split; [reflexivity|]. cbn. split; [reflexivity|]. rewrite repeat_length. split; [lia|].
      intros _ i Hi a b Ha Hb. apply nth_error_In, repeat_spec in Ha. apply nth_error_In, repeat_spec in Hb. subst. now apply le_refl.
    - destruct (push_rep h r x R) as (h' & c & E & RF & R'). rewrite E. cbn [bind]. eexists _, _, _. split; [reflexivity|].
      split; [constructor; exact RF|]. eauto.
    - destruct (pop_rep h r R) as (h' & o & r' & E & S & R'). rewrite E. cbn [bind fst snd]. eexists _, _, _. split; [reflexivity|]. split; [apply S|]. eauto.
    - eexists _, _, _. split; [reflexivity|]. split; [constructor|]. eexists. split; [reflexivity|].
      split; [reflexivity|]. cbn. split; [reflexivity|]. split; [lia|]. intros _. apply heap_small. cbn. lia.
    - destruct (reserve_rep h r n R) as (r' & S & R'). eexists _, _, _. split; [reflexivity|]. split; [constructor; exact S|]. eauto.
    - unfold with_heap at 1. destruct (nth_error hs i) as [h|] eqn:Ei.
      2:{ exists hs, NoHeap, rs. split; [reflexivity|]. split; [|exact F]. apply y_append_none. left. exact (Forall2_none _ _ _ _ F Ei). }
      unfold with_heap. destruct (nth_error hs j) as [other|] eqn:Ej.
      2:{ exists hs, NoHeap, rs. split; [reflexivity|]. split; [|exact F]. apply y_append_none. right. exact (Forall2_none _ _ _ _ F Ej). }
      destruct (Forall2_nth _ _ _ _ _ F Ei) as (r & Er & R). destruct (Forall2_nth _ _ _ _ _ F Ej) as (q & Eq & Q).
      assert (LR : HLen h = length (bag r)) by (apply Permutation_length; apply R).
      assert (LQ : HLen other = length (bag q)) by (apply Permutation_length; apply Q).
      destruct (Nat.eqb_spec i j) as [->|N].
      + unfold HAppendSelf. cbv zeta. destruct (reserve_rep h r (HLen h + HLen h) R) as (r1 & S & R1).
        destruct (self_rep (bag r1) (HLen (HReserve zero extra h (HLen h + HLen h))) 0 None _ r1 R1) as (h' & added & c & E & L & I & RF & R2);
          [apply incl_refl|unfold HLen; lia|].
        rewrite E. cbn [bind]. eexists _, _, _. split; [reflexivity|]. rewrite LR in S.
        assert (L1 : HLen (HReserve zero extra h (HLen h + HLen h)) = length (bag r1)) by (apply Permutation_length; apply R1).
        split; [apply y_append_self with (r := r) (r1 := r1) (added := added) (c := c); [exact Er|exact S|congruence|exact I|now rewrite L]|]. now apply Forall2_set.
      + unfold HAppend. destruct (reserve_rep h r (HLen h + HLen other) R) as (r1 & S & R1).
        destruct (pushes_rep (vec other) _ r1 R1) as (h' & c & E & RF & (P2 & C2 & B2 & H2)). rewrite E. cbn [bind fst snd].
        rewrite LR, LQ in S.
        eexists _, _, _. split; [reflexivity|]. split; [eapply y_append; [exact N|exact Er|exact Eq|exact S|]|].
        * fold (HLen other) in RF. rewrite LQ in RF. exact RF.
        * rewrite (list_set_same (list_set hs i h') j other) by (rewrite nth_error_list_set_neq by exact N; exact Ej).
          apply Forall2_set; [exact F|]. unfold rep. cbn [bag cap ordered] in *. split; [|auto]. rewrite P2. destruct Q as (PQ & _). now rewrite PQ.
    - eexists _, _, _. split; [reflexivity|]. assert (LR : HLen h = length (bag r)) by (apply Permutation_length; apply R).
      rewrite LR. split; [constructor|]. exists h. now rewrite list_set_same.
    - eexists _, _, _. split; [reflexivity|]. assert (LR : HLen h = length (bag r)) by (apply Permutation_length; apply R).
      unfold HIsEmpty. rewrite LR. split; [constructor|]. exists h. now rewrite list_set_same.
    - eexists _, _, _. split; [reflexivity|]. unfold HCapacity. destruct R as (P & C & L & H). rewrite C. split; [constructor|].
      exists h. rewrite list_set_same by exact Eh. split; [reflexivity|]. split; auto.
    - destruct (sorted_rep h r R) as (h' & l & r' & E & S & R'). rewrite E. cbn [bind fst snd]. eexists _, _, _. split; [reflexivity|]. split; [apply S|]. eauto.
  Qed.
  Lemma srun_rep ops : forall hs rs, Forall2 rep hs rs ->
    exists hs' l rs', srun zero extra cmp hs ops = Ret (hs', l) /\ sys_run zero cmp rs ops rs' l /\ Forall2 rep hs' rs'.
  Proof.
    induction ops as [|o ops IH]; intros hs rs F; cbn [srun].
    - exists hs, [], rs. split; [reflexivity|]. split; [constructor|exact F].
    - destruct (sexec_rep hs rs o F) as (h1 & a & r1 & E & S & F1). rewrite E. cbn [bind fst snd].
      destruct (IH h1 r1 F1) as (h2 & l & r2 & E2 & S2 & F2). rewrite E2. cbn [bind fst snd]. exists h2, (a :: l), r2.
      split; [reflexivity|]. split; [econstructor; eauto|exact F2].
  Qed.
End Heaps.
