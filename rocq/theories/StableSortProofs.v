(** StableSortProofs.v -- the library's stable sort is the stable sort. *)
From Coq Require Import Permutation Sorted Wf_nat.
From Verif Require Import Base BaseLemmas CmpSpec VecModel VecSpec VecProofs VecSortProofs StableSortModel.

Section Swaps.
  Context {T : Type}.
  Implicit Types P Q X Y Z : list T.

  Lemma nth_mid P x Q : nth_error (P ++ x :: Q) (length P) = Some x.
  Proof. rewrite nth_error_app2 by lia. now rewrite Nat.sub_diag. Qed.
  Lemma seq_set_mid P x y Q : seq_set (P ++ x :: Q) (length P) y = P ++ y :: Q.
  Proof.
    unfold seq_set. rewrite firstn_app, skipn_app, Nat.sub_diag, firstn_all. cbn [firstn]. rewrite app_nil_r.
    replace (S (length P) - length P) with 1 by lia. rewrite skipn_all2 by lia. reflexivity.
  Qed.
  Lemma swap_mid P x Y y Q i j : i = length P -> j = length P + S (length Y) ->
    swap_data (P ++ x :: Y ++ y :: Q) i j = Ret (P ++ y :: Y ++ x :: Q) /\
    swap_data (P ++ x :: Y ++ y :: Q) j i = Ret (P ++ y :: Y ++ x :: Q).
  Proof.
    intros -> ->. assert (N1 : nth_error (P ++ x :: Y ++ y :: Q) (length P) = Some x) by apply nth_mid.
    assert (A : forall z, P ++ z :: Y ++ y :: Q = (P ++ z :: Y) ++ y :: Q) by (intros z; rewrite <- app_assoc; reflexivity).
    assert (LA : forall z, length (P ++ z :: Y) = length P + S (length Y)) by (intros z; rewrite app_length; reflexivity).
    assert (N2 : nth_error (P ++ x :: Y ++ y :: Q) (length P + S (length Y)) = Some y) by (rewrite A, <- (LA x); apply nth_mid).
    split.
    - rewrite (swap_data_spec _ _ _ _ _ N1 N2). f_equal. rewrite seq_set_mid, A, <- (LA y), seq_set_mid, <- app_assoc. reflexivity.
    - rewrite (swap_data_spec _ _ _ _ _ N2 N1). f_equal. rewrite A, <- (LA x), seq_set_mid, <- app_assoc. cbn [app]. apply seq_set_mid.
  Qed.

  (** *** Exchanging two blocks *)
  Lemma oloop_shift {A} (f g : A -> nat -> out A) l : forall s, (forall s i, f s (S i) = g s i) -> oloop f (map S l) s = oloop g l s.
  Proof. induction l as [|i l IH]; intros s E; cbn [map oloop]; [reflexivity|]. rewrite E. destruct (g s i); cbn [bind]; auto. Qed.
  Lemma swapRange_spec X : forall P M Y Q a b, length X = length Y -> a = length P -> b = length P + length X + length M ->
    swapRange (P ++ X ++ M ++ Y ++ Q) a b (length X) = Ret (P ++ Y ++ M ++ X ++ Q).
  Proof.
    induction X as [|x X IH]; intros P M Y Q a b L -> ->; destruct Y as [|y Y]; try discriminate; cbn [app length].
    - reflexivity.
    - cbn in L. injection L as L. unfold swapRange. cbn [seq oloop]. rewrite !Nat.add_0_r, <- seq_shift.
      assert (E := proj1 (swap_mid P x (X ++ M) y (Y ++ Q) (length P) (length P + S (length X) + length M) eq_refl ltac:(rewrite app_length; lia))).
      rewrite <- !app_assoc in E. rewrite E. cbn [bind].
      rewrite oloop_shift with (g := fun d i => swap_data d (length (P ++ [y]) + i) (length (P ++ [y]) + length X + length (M ++ [x]) + i)).
      2:{ intros s i. rewrite !app_length. cbn [length]. f_equal; lia. }
      assert (I := IH (P ++ [y]) (M ++ [x]) Y Q _ _ L eq_refl eq_refl). unfold swapRange in I. rewrite <- !app_assoc in I. cbn [app] in I. exact I.
  Qed.

  Lemma rotate_loop_spec fuel : forall P X Y Q m i j, length X + length Y < fuel -> X <> [] -> Y <> [] ->
    m = length P + length X -> i = length X -> j = length Y ->
    rotate_loop fuel (P ++ X ++ Y ++ Q) m i j = Ret (P ++ Y ++ X ++ Q).
  Proof.
    induction fuel as [|fuel IH]; intros P X Y Q m i j F NX NY -> -> ->; [lia|]. cbn [rotate_loop].
    assert (LX : length X <> 0) by (destruct X; cbn; congruence). assert (LY : length Y <> 0) by (destruct Y; cbn; congruence).
    destruct (Nat.eqb_spec (length X) (length Y)) as [E|N].
    - assert (S := swapRange_spec X P [] Y Q (length P + length X - length X) (length P + length X) E ltac:(lia) ltac:(cbn; lia)). exact S.
    - destruct (Nat.ltb_spec (length Y) (length X)) as [G|G].
      + assert (EX : X = firstn (length Y) X ++ skipn (length Y) X) by (symmetry; apply firstn_skipn).
        set (X1 := firstn (length Y) X) in *. set (X2 := skipn (length Y) X) in *.
        assert (L1 : length X1 = length Y) by (unfold X1; rewrite firstn_length; lia).
        assert (L2 : length X2 = length X - length Y) by (unfold X2; now rewrite skipn_length).
        assert (S := swapRange_spec X1 P X2 Y Q (length P + length X - length X) (length P + length X) L1 ltac:(lia) ltac:(lia)).
        rewrite L1 in S. rewrite EX at 1. rewrite <- !app_assoc. rewrite S. cbn [bind].
        assert (R := IH (P ++ Y) X2 X1 Q (length P + length X) (length X - length Y) (length Y)).
        rewrite <- !app_assoc in R. rewrite R; [|lia| | |rewrite app_length; lia|lia|lia].
        * f_equal. rewrite EX at 1. now rewrite <- !app_assoc.
        * intros E. rewrite E in L2. cbn in L2. lia.
        * intros E. rewrite E in L1. cbn in L1. lia.
      + set (k := length Y - length X). assert (EY : Y = firstn k Y ++ skipn k Y) by (symmetry; apply firstn_skipn).
        set (Y1 := firstn k Y) in *. set (Y2 := skipn k Y) in *.
        assert (L1 : length Y1 = length Y - length X) by (unfold Y1, k; rewrite firstn_length; lia).
        assert (L2 : length Y2 = length X) by (unfold Y2, k; rewrite skipn_length; lia).
        assert (S := swapRange_spec X P Y1 Y2 Q (length P + length X - length X) (length P + length X + length Y - length X) (eq_sym L2) ltac:(lia) ltac:(lia)).
        rewrite EY at 1. rewrite <- !app_assoc. rewrite S. cbn [bind]. unfold k.
        assert (R := IH P Y2 Y1 (X ++ Q) (length P + length X) (length X) (length Y - length X)).
        rewrite R; [|lia| | |lia|lia|lia].
        * f_equal. rewrite EY at 1. now rewrite <- !app_assoc.
        * intros E. rewrite E in L2. cbn in L2. lia.
        * intros E. rewrite E in L1. cbn in L1. lia.
  Qed.
  Lemma rotate_spec P X Y Q a m b : X <> [] -> Y <> [] -> a = length P -> m = length P + length X -> b = length P + length X + length Y ->
    rotate (P ++ X ++ Y ++ Q) a m b = Ret (P ++ Y ++ X ++ Q).
  Proof. intros NX NY -> -> ->. unfold rotate. apply rotate_loop_spec; auto; lia. Qed.

  (** One element past a block, either way. *)
  Lemma move_right X : forall P x Q a, a = length P ->
    oloop (fun d k => swap_data d k (k + 1)) (seq a (length X)) (P ++ x :: X ++ Q) = Ret (P ++ X ++ x :: Q).
  Proof.
    induction X as [|y X IH]; intros P x Q a ->; cbn [length seq oloop app]; [reflexivity|].
    assert (E := proj1 (swap_mid P x [] y (X ++ Q) (length P) (length P + 1) eq_refl ltac:(cbn; lia))). cbn [app] in E. rewrite E. cbn [bind].
    assert (I := IH (P ++ [y]) x Q (S (length P)) ltac:(rewrite app_length; cbn; lia)). rewrite <- !app_assoc in I. exact I.
  Qed.
  Lemma move_left X : forall P x Q i, i = length P ->
    oloop (fun d k => swap_data d k (k - 1)) (rev (seq (i + 1) (length X))) (P ++ X ++ x :: Q) = Ret (P ++ x :: X ++ Q).
  Proof.
    induction X as [|y X IH] using rev_ind; intros P x Q i ->; [reflexivity|].
    rewrite app_length, Nat.add_1_r. cbn [length]. rewrite Nat.add_1_r, seq_S, rev_app_distr. cbn [rev app oloop].
    assert (E := proj2 (swap_mid (P ++ X) y [] x Q (length P + length X) (S (length P) + length X) ltac:(rewrite app_length; lia) ltac:(rewrite app_length; cbn; lia))).
    cbn [app] in E. rewrite <- !app_assoc in *. cbn [app] in *. replace (S (length P) + length X - 1) with (length P + length X) by lia. rewrite E. cbn [bind].
    assert (I := IH P x (y :: Q) (length P) eq_refl). rewrite Nat.add_1_r in I. exact I.
  Qed.
End Swaps.

Section Search.
  (** For any function, not only a monotone one. *)
  Lemma search_spec (f : nat -> out bool) (g : nat -> bool) fuel : forall i j, j - i < fuel -> i <= j -> (forall h, i <= h < j -> f h = Ret (g h)) ->
    exists r, search fuel f i j = Ret r /\ i <= r <= j /\ (r < j -> g r = false) /\ (i < r -> g (r - 1) = true).
  Proof.
    induction fuel as [|fuel IH]; intros i j F L E; [lia|]. cbn [search]. destruct (Nat.ltb_spec i j) as [C|C].
    - cbv zeta. assert (H : i <= (i + j) / 2 < j).
      { split; [apply Nat.div_le_lower_bound; lia|apply Nat.div_lt_upper_bound; lia]. }
      set (h := (i + j) / 2) in *. rewrite E by exact H. cbn [bind]. destruct (g h) eqn:G.
      + destruct (IH (h + 1) j) as (r & Er & B & R1 & R2); [lia|lia|intros; apply E; lia|]. exists r. split; [exact Er|]. split; [lia|]. split; [exact R1|].
        intros _. destruct (Nat.eq_dec r (h + 1)) as [->|N]; [now replace (h + 1 - 1) with h by lia|apply R2; lia].
      + destruct (IH i h) as (r & Er & B & R1 & R2); [lia|lia|intros; apply E; lia|]. exists r. split; [exact Er|]. split; [lia|]. split; [|exact R2].
        intros _. destruct (Nat.eq_dec r h) as [->|N]; [exact G|apply R1; lia].
    - exists i. split; [reflexivity|]. split; [lia|]. split; lia.
  Qed.
End Search.

Section Merge.
  Context {T : Type}.
  Variable less : T -> T -> bool.
  Implicit Types X Y Z : list T.

  (** Merging: of two equal heads the first list's. *)
  Fixpoint merge (X : list T) : list T -> list T :=
    fix go (Y : list T) : list T :=
      match X, Y with
      | [], _ => Y
      | _, [] => X
      | x :: X', y :: Y' => if less y x then y :: go Y' else x :: merge X' Y
      end.
  Lemma merge_cons x X y Y : merge (x :: X) (y :: Y) = if less y x then y :: merge (x :: X) Y else x :: merge X (y :: Y).
  Proof. reflexivity. Qed.
  Lemma merge_nil_l Y : merge [] Y = Y.
  Proof. now destruct Y. Qed.
  Lemma merge_nil_r X : merge X [] = X.
  Proof. now destruct X. Qed.
  Lemma merge_perm X : forall Y, Permutation (X ++ Y) (merge X Y).
  Proof.
    induction X as [|x X IHX]; intros Y; [rewrite merge_nil_l; reflexivity|].
    induction Y as [|y Y IHY]; [rewrite merge_nil_r, app_nil_r; reflexivity|]. rewrite merge_cons. destruct (less y x).
    - rewrite <- IHY. symmetry. apply Permutation_middle.
    - cbn [app]. constructor. apply IHX.
  Qed.
  Lemma merge_split X1 X2 Y2 : forall Y1, (forall y x, In y Y1 -> In x X2 -> less y x = true) -> (forall x y, In x X1 -> In y Y2 -> less y x = false) ->
    merge (X1 ++ X2) (Y1 ++ Y2) = merge X1 Y1 ++ merge X2 Y2.
  Proof.
    induction X1 as [|x X1 IHX]; intros Y1.
    - induction Y1 as [|y Y1 IHY]; intros A B; [reflexivity|]. cbn [app] in *. rewrite merge_nil_l. destruct X2 as [|x X2].
      + rewrite !merge_nil_l. reflexivity.
      + rewrite merge_cons, (A y x) by (now left). cbn [app]. f_equal. rewrite IHY; [now rewrite merge_nil_l|intros; apply A; [now right|auto]|exact B].
    - induction Y1 as [|y Y1 IHY]; intros A B.
      + cbn [app]. rewrite merge_nil_r. destruct Y2 as [|y Y2]; [rewrite !merge_nil_r; reflexivity|].
        rewrite merge_cons, (B x y) by (now left). cbn [app]. f_equal. assert (I := IHX [] ). cbn [app] in I. rewrite I; [now rewrite merge_nil_r|intros ? ? []|].
        intros x' y' Hx Hy. apply B; [now right|exact Hy].
      + cbn [app]. rewrite !merge_cons. destruct (less y x).
        * cbn [app]. f_equal. apply IHY; [intros; apply A; [now right|auto]|exact B].
        * cbn [app]. f_equal. apply (IHX (y :: Y1)); [exact A|intros; apply B; [now right|auto]].
  Qed.
  Lemma merge_past X Y : (forall x y, In x X -> In y Y -> less y x = false) -> merge X Y = X ++ Y.
  Proof.
    intros H. assert (S := merge_split X [] Y []). cbn [app] in S. rewrite app_nil_r in S. rewrite S; [|intros ? ? []|exact H].
    now rewrite merge_nil_r, merge_nil_l.
  Qed.
  Lemma merge_before X Y : (forall y x, In y Y -> In x X -> less y x = true) -> merge X Y = Y ++ X.
  Proof.
    intros H. assert (S := merge_split [] X [] Y). cbn [app] in S. rewrite app_nil_r in S. rewrite S; [|exact H|intros ? ? []].
    now rewrite merge_nil_r, merge_nil_l.
  Qed.
End Merge.

Section Stable.
  Context {T : Type}.
  Variable cmp : T -> T -> ordering.
  Let less a b := is_less (cmp a b).
  Let lessO a b := Ret (less a b).
  Implicit Types P Q X Y Z : list T.
  Notation merge := (merge less).
  Notation TP := (total_preorder cmp).

  Lemma asc_app X Y : ascending cmp (X ++ Y) -> ascending cmp X /\ ascending cmp Y /\ forall x y, In x X -> In y Y -> le_by cmp x y.
  Proof.
    unfold ascending. induction X as [|a X IH]; cbn [app]; intros H.
    - split; [constructor|]. split; [exact H|]. intros x y [].
    - inversion H as [|? ? H1 H2]; subst. destruct (IH H1) as (A & B & C). rewrite Forall_forall in H2. split.
      + constructor; [exact A|]. apply Forall_forall. intros z Hz. apply H2, in_or_app. now left.
      + split; [exact B|]. intros x y [<-|Hx] Hy; [apply H2, in_or_app; now right|auto].
  Qed.
  Lemma le_not_less : TP -> forall a b, le_by cmp a b <-> less b a = false.
  Proof.
    intros tp a b. unfold le_by, less, is_less. rewrite (tp_flip _ tp a b). destruct (cmp a b); cbn; split; congruence.
  Qed.
  Lemma merge_ascending X : TP -> ascending cmp X -> forall Y, ascending cmp Y -> ascending cmp (merge X Y).
  Proof.
    intros tp. unfold ascending. induction X as [|x X IHX]; intros HX; [intros Y HY; now rewrite merge_nil_l|].
    induction Y as [|y Y IHY]; intros HY; [now rewrite merge_nil_r|]. rewrite merge_cons.
    inversion HX as [|? ? HX1 HX2]; inversion HY as [|? ? HY1 HY2]; subst. rewrite Forall_forall in HX2, HY2.
    destruct (less y x) eqn:L.
    - constructor; [now apply IHY|]. apply Forall_forall. intros z Hz. rewrite <- merge_perm in Hz. cbn [app] in Hz.
      assert (YX : le_by cmp y x) by (now apply less_le). destruct Hz as [<-|Hz]; [exact YX|]. apply in_app_or in Hz.
      destruct Hz as [Hz|Hz]; [eapply (tp_trans _ tp); [exact YX|now apply HX2]|now apply HY2].
    - apply (le_not_less tp) in L. constructor; [now apply IHX|]. apply Forall_forall. intros z Hz. rewrite <- merge_perm in Hz. apply in_app_or in Hz.
      destruct Hz as [Hz|[<-|Hz]]; [now apply HX2|exact L|]. eapply (tp_trans _ tp); [exact L|now apply HY2].
  Qed.
  Let eqv x y := match cmp x y with Equal => true | _ => false end.
  Lemma filter_none (p : T -> bool) X : (forall x, In x X -> p x = false) -> filter p X = [].
  Proof. induction X as [|x X IH]; intros H; cbn; [reflexivity|]. rewrite H by (now left). apply IH. intros; apply H; now right. Qed.
  Lemma merge_filter z X : TP -> ascending cmp X -> forall Y, filter (eqv z) (merge X Y) = filter (eqv z) (X ++ Y).
  Proof.
    intros tp. unfold ascending. induction X as [|x X IHX]; intros HX; [intros Y; now rewrite merge_nil_l|].
    induction Y as [|y Y IHY]; [now rewrite merge_nil_r, app_nil_r|]. rewrite merge_cons. inversion HX as [|? ? HX1 HX2]; subst. rewrite Forall_forall in HX2.
    destruct (less y x) eqn:L; [|cbn [filter app]; now rewrite IHX].
    cbn [filter] in *. rewrite IHY. rewrite !filter_app. destruct (eqv z y) eqn:Ez.
    - assert (N : filter (eqv z) (x :: X) = []).
      { apply filter_none. intros u Hu. unfold eqv in *. destruct (cmp z u) eqn:Eu; try reflexivity. exfalso.
        apply less_true in L. destruct (cmp z y) eqn:Cy; try discriminate.
        assert (UY : cmp u y <> Greater). { apply (tp_trans _ tp u z y); [rewrite (tp_flip _ tp z u), Eu; discriminate|rewrite Cy; discriminate]. }
        assert (XU : cmp x u <> Greater). { destruct Hu as [<-|Hu]; [rewrite (tp_refl _ tp); discriminate|now apply HX2]. }
        assert (XY := tp_trans _ tp x u y XU UY). rewrite (tp_flip _ tp y x), L in XY. now apply XY. }
      rewrite N. cbn [app]. cbn [filter]. now rewrite Ez.
    - cbn [filter]. now rewrite Ez.
  Qed.

  (** *** What has been done to a part of the slice *)
  Definition done (l d : list T) : Prop := Permutation l d /\ (TP -> stably_sorted cmp l d).
  Lemma done_merge l1 d1 l2 d2 Z : done l1 d1 -> done l2 d2 -> Permutation (d1 ++ d2) Z ->
    (TP -> ascending cmp d1 -> ascending cmp d2 -> Z = merge d1 d2) -> done (l1 ++ l2) Z.
  Proof.
    intros (P1 & S1) (P2 & S2) PZ EZ. assert (P : Permutation (l1 ++ l2) Z) by (rewrite P1, P2; exact PZ).
    split; [exact P|]. intros tp. destruct (S1 tp) as (_ & A1 & F1). destruct (S2 tp) as (_ & A2 & F2). split; [exact P|].
    rewrite (EZ tp A1 A2). split; [now apply merge_ascending|]. intros x. fold (eqv x). rewrite merge_filter by assumption.
    rewrite !filter_app. unfold eqv. now rewrite (F1 x), (F2 x).
  Qed.
  Lemma done_one x : done [x] [x].
  Proof. split; [reflexivity|]. intros _. split; [reflexivity|]. split; [repeat constructor|intros z; reflexivity]. Qed.
  Lemma done_nil : done [] [].
  Proof. split; [reflexivity|]. intros _. split; [reflexivity|]. split; [constructor|intros z; reflexivity]. Qed.
  Lemma done_asc l d : done l d -> TP -> ascending cmp d.
  Proof. intros (_ & S) tp. apply (S tp). Qed.
  Lemma done_length l d : done l d -> length l = length d.
  Proof. intros (P & _). now apply Permutation_length. Qed.

  Lemma less_at_nth d i j z : i < length d -> j < length d -> less_at lessO d i j = Ret (less (nth i d z) (nth j d z)).
  Proof.
    intros I J. unfold less_at. rewrite (idx_nth_error _ _ _ (nth_error_nth' d z I)). cbn [bind].
    rewrite (idx_nth_error _ _ _ (nth_error_nth' d z J)). reflexivity.
  Qed.

  (** *** Insertion sort *)
  Lemma shift_left_spec X : forall P x Q n j, n = length X -> j = length P + length X ->
    exists Z, shift_left lessO n (P ++ X ++ x :: Q) j = Ret (P ++ Z ++ Q) /\ Permutation (X ++ [x]) Z /\
      (TP -> ascending cmp X -> Z = merge X [x]).
  Proof.
    induction X as [|y X IH] using rev_ind; intros P x Q n j -> ->.
    - cbn [length shift_left app]. exists [x]. split; [reflexivity|]. split; [reflexivity|]. intros _ _. now rewrite merge_nil_l.
    - rewrite app_length. cbn [length]. rewrite Nat.add_1_r. cbn [shift_left]. rewrite <- !app_assoc. cbn [app].
      rewrite (less_at_nth _ _ _ y) by (rewrite !app_length; cbn; lia). cbn [bind].
      assert (N1 : nth (length P + S (length X)) (P ++ X ++ y :: x :: Q) y = x).
      { replace (P ++ X ++ y :: x :: Q) with ((P ++ X ++ [y]) ++ x :: Q) by (rewrite <- !app_assoc; reflexivity).
        replace (length P + S (length X)) with (length (P ++ X ++ [y])) by (rewrite !app_length; cbn; lia). apply nth_middle. }
      assert (N2 : nth (length P + S (length X) - 1) (P ++ X ++ y :: x :: Q) y = y).
      { rewrite app_assoc. replace (length P + S (length X) - 1) with (length (P ++ X)) by (rewrite app_length; lia). apply nth_middle. }
      rewrite N1, N2. destruct (less x y) eqn:L.
      + assert (E := proj2 (swap_mid (P ++ X) y [] x Q (length P + S (length X) - 1) (length P + S (length X)) ltac:(rewrite app_length; lia) ltac:(rewrite app_length; cbn; lia))).
        rewrite <- !app_assoc in E. cbn [app] in E. rewrite E. cbn [bind].
        destruct (IH P x (y :: Q) (length X) (length P + S (length X) - 1) eq_refl ltac:(lia)) as (Z & EZ & PZ & SZ).
        exists (Z ++ [y]). rewrite EZ, <- app_assoc. split; [reflexivity|]. split.
        * rewrite <- PZ. rewrite <- !app_assoc. apply Permutation_app_head. constructor.
        * intros tp A. apply asc_app in A. destruct A as (A & _ & _). rewrite (SZ tp A).
          assert (S := merge_split less X [y] [] [x]). cbn [app] in S. rewrite S; [now rewrite merge_nil_r| |intros ? ? _ []].
          intros a b [<-|[]] [<-|[]]. exact L.
      + exists (X ++ [y; x]). rewrite <- !app_assoc. split; [reflexivity|]. split; [reflexivity|].
        intros tp A. rewrite merge_past; [rewrite <- app_assoc; reflexivity|]. apply asc_app in A. destruct A as (_ & _ & A).
        intros a b Ha [<-|[]]. apply in_app_or in Ha. destruct Ha as [Ha|[<-|[]]]; [|exact L].
        apply (le_not_less tp). eapply (tp_trans _ tp); [apply A; [exact Ha|now left]|]. now apply (le_not_less tp).
  Qed.
  Lemma insertions R : forall P l d Q a i, done l d -> d <> [] -> a = length P -> i = length P + length d ->
    exists Z, oloop (fun e i => shift_left lessO (i - a) e i) (seq i (length R)) (P ++ d ++ R ++ Q) = Ret (P ++ Z ++ Q) /\ done (l ++ R) Z.
  Proof.
    induction R as [|x R IH]; intros P l d Q a i D ND -> ->; cbn [length seq oloop app].
    - exists d. rewrite app_nil_r. split; [reflexivity|exact D].
    - destruct (shift_left_spec d P x (R ++ Q) (length P + length d - length P) (length P + length d) ltac:(lia) eq_refl) as (Z & EZ & PZ & SZ).
      rewrite EZ. cbn [bind].
      destruct (IH P (l ++ [x]) Z Q (length P) (S (length P + length d))) as (Z' & E' & D').
      + apply (done_merge l d [x] [x] Z D (done_one x) PZ). intros tp A _. now apply SZ.
      + intros ->. apply Permutation_length in PZ. rewrite app_length in PZ. cbn in PZ. lia.
      + reflexivity.
      + apply Permutation_length in PZ. rewrite app_length in PZ. cbn in PZ. lia.
      + exists Z'. split; [exact E'|]. now rewrite <- app_assoc in D'.
  Qed.
  Lemma insertionSort_spec P L Q a b : a = length P -> b = length P + length L ->
    exists Z, insertionSort lessO (P ++ L ++ Q) a b = Ret (P ++ Z ++ Q) /\ done L Z.
  Proof.
    intros -> ->. unfold insertionSort. destruct L as [|x R].
    - cbn [length app]. replace (length P + 0 - (length P + 1)) with 0 by lia. cbn [seq oloop]. exists []. split; [reflexivity|apply done_nil].
    - cbn [length]. replace (length P + S (length R) - (length P + 1)) with (length R) by lia.
      destruct (insertions R P [x] [x] Q (length P) (length P + 1) (done_one x)) as (Z & EZ & DZ); [discriminate|reflexivity|reflexivity|]. exists Z. split; [exact EZ|exact DZ].
  Qed.

  (** *** Merging in place *)
  Lemma nth_in_X P X Y Q h z : length P <= h < length P + length X -> nth h (P ++ X ++ Y ++ Q) z = nth (h - length P) X z.
  Proof. intros H. rewrite app_nth2 by lia. now rewrite app_nth1 by lia. Qed.
  Lemma nth_in_Y P X Y Q h z : length P + length X <= h < length P + length X + length Y -> nth h (P ++ X ++ Y ++ Q) z = nth (h - length P - length X) Y z.
  Proof. intros H. rewrite app_nth2 by lia. rewrite app_nth2 by lia. now rewrite app_nth1 by lia. Qed.
  Lemma asc_nth X z i j : ascending cmp X -> i < j -> j < length X -> le_by cmp (nth i X z) (nth j X z).
  Proof.
    intros A L J. destruct (nth_split X z (n := j)) as (X1 & X2 & E & L1); [lia|]. rewrite E in A. apply asc_app in A. destruct A as (_ & _ & A). apply A.
    - rewrite E. rewrite app_nth1 by lia. apply nth_In. lia.
    - now left.
  Qed.
  Lemma In_firstn X n y z : In y (firstn n X) -> exists i, i < n /\ i < length X /\ nth i X z = y.
  Proof.
    intros H. apply (In_nth _ _ z) in H. destruct H as (i & L & E). rewrite firstn_length in L. exists i. split; [lia|]. split; [lia|].
    rewrite <- E. rewrite <- (firstn_skipn n X) at 1. rewrite app_nth1; [reflexivity|]. rewrite firstn_length. lia.
  Qed.
  Lemma In_skipn X n y z : In y (skipn n X) -> exists i, n <= i < length X /\ nth i X z = y.
  Proof.
    intros H. apply (In_nth _ _ z) in H. destruct H as (i & L & E). rewrite skipn_length in L. exists (n + i). split; [lia|].
    rewrite <- E. rewrite <- (firstn_skipn n X) at 1. rewrite app_nth2; rewrite firstn_length; [|lia]. f_equal. lia.
  Qed.
  Lemma le_refl' : TP -> forall a, le_by cmp a a.
  Proof. intros tp a. unfold le_by. rewrite (tp_refl _ tp). discriminate. Qed.
  Lemma asc_nth_le X z i j : TP -> ascending cmp X -> i <= j -> j < length X -> le_by cmp (nth i X z) (nth j X z).
  Proof. intros tp A L J. destruct (Nat.eq_dec i j) as [->|N]; [now apply le_refl'|apply asc_nth; [exact A|lia|exact J]]. Qed.
  (** y < x' and x' <= x, or y' <= y and y' < x. *)
  Lemma less_le_trans : TP -> forall a b c, less a b = true -> le_by cmp b c -> less a c = true.
  Proof.
    intros tp a b c L B. destruct (less a c) eqn:E; [reflexivity|]. apply (le_not_less tp) in E.
    assert (K : le_by cmp b a) by (eapply (tp_trans _ tp); eauto). apply (le_not_less tp) in K. congruence.
  Qed.
  Lemma le_less_trans : TP -> forall a b c, le_by cmp a b -> less b c = true -> less a c = true.
  Proof.
    intros tp a b c L B. destruct (less a c) eqn:E; [reflexivity|]. apply (le_not_less tp) in E.
    assert (K : le_by cmp c b) by (eapply (tp_trans _ tp); eauto). apply (le_not_less tp) in K. congruence.
  Qed.

  Lemma symMerge_spec fuel : forall P X Y Q a m b, length X + length Y < fuel -> X <> [] -> Y <> [] ->
    a = length P -> m = length P + length X -> b = length P + length X + length Y ->
    exists Z, symMerge lessO fuel (P ++ X ++ Y ++ Q) a m b = Ret (P ++ Z ++ Q) /\ Permutation (X ++ Y) Z /\
      (TP -> ascending cmp X -> ascending cmp Y -> Z = merge X Y).
  Proof.
    induction fuel as [|fuel IH]; intros P X Y Q a m b F NX NY Ea Em Eb; [lia|]. cbn [symMerge].
    assert (LX : 0 < length X) by (destruct X; cbn; [congruence|lia]). assert (LY : 0 < length Y) by (destruct Y; cbn; [congruence|lia]).
    assert (LD : length (P ++ X ++ Y ++ Q) = b + length Q) by (rewrite !app_length; lia).
    destruct X as [|z X0] eqn:EqX; [congruence|]. rewrite <- EqX in *. clear NX EqX X0.
    destruct (Nat.eqb_spec (m - a) 1) as [C1|C1]; [|destruct (Nat.eqb_spec (b - m) 1) as [C2|C2]].
    - (* one element in X *)
      destruct X as [|x X]; [cbn in LX; lia|]. destruct X; [|cbn in *; lia]. cbn [length] in *.
      destruct (search_spec (fun h => less_at lessO (P ++ [x] ++ Y ++ Q) h a) (fun h => less (nth (h - m) Y z) x) (b - m + 1) m b) as (r & Er & B & R1 & R2); [lia|lia| |].
      { intros h Hh. rewrite (less_at_nth _ _ _ z) by lia. do 2 f_equal.
        - rewrite nth_in_Y by (cbn; lia). f_equal. cbn. lia.
        - rewrite nth_in_X by (cbn; lia). replace (a - length P) with 0 by lia. reflexivity. }
      rewrite Er. cbn [bind]. set (Y1 := firstn (r - m) Y). set (Y2 := skipn (r - m) Y).
      assert (EY : Y = Y1 ++ Y2) by (symmetry; apply firstn_skipn). assert (L1 : length Y1 = r - m) by (unfold Y1; rewrite firstn_length; lia).
      exists (Y1 ++ x :: Y2). split; [|split].
      + assert (M := move_right Y1 P x (Y2 ++ Q) a Ea). rewrite L1 in M. replace (r - 1 - a) with (r - m) by lia. rewrite EY. cbn [app]. rewrite <- !app_assoc. exact M.
      + rewrite EY at 1. cbn [app]. apply Permutation_middle.
      + intros tp _ A. rewrite EY. symmetry. assert (S := merge_split less [] [x] Y2 Y1). cbn [app] in S. rewrite S.
        * rewrite merge_nil_l. f_equal. apply (merge_past less [x]). intros x' y [<-|[]] Hy. destruct (In_skipn _ _ _ z Hy) as (i & Hi & <-).
          apply (le_not_less tp). eapply (tp_trans _ tp); [apply (le_not_less tp); apply R1; lia|]. apply asc_nth_le; auto; lia.
        * intros y x' Hy [<-|[]]. destruct (In_firstn _ _ _ z Hy) as (i & Hi & Hi' & <-). eapply (le_less_trans tp); [|apply R2; lia].
          apply asc_nth_le; auto; lia.
        * intros ? ? [].
    - (* one element in Y *)
      destruct Y as [|y Y]; [cbn in LY; lia|]. destruct Y; [|cbn in *; lia]. cbn [length] in *.
      destruct (search_spec (fun h => c <- less_at lessO (P ++ X ++ [y] ++ Q) m h ;; Ret (negb c)) (fun h => negb (less y (nth (h - a) X z))) (m - a + 1) a m) as (r & Er & B & R1 & R2); [lia|lia| |].
      { intros h Hh. rewrite (less_at_nth _ _ _ z) by lia. cbn [bind]. do 3 f_equal.
        - rewrite nth_in_Y by (cbn; lia). replace (m - length P - length X) with 0 by lia. reflexivity.
        - rewrite nth_in_X by lia. f_equal. lia. }
      rewrite Er. cbn [bind]. set (X1 := firstn (r - a) X). set (X2 := skipn (r - a) X).
      assert (EX : X = X1 ++ X2) by (symmetry; apply firstn_skipn). assert (L1 : length X1 = r - a) by (unfold X1; rewrite firstn_length; lia).
      assert (L2 : length X2 = m - r) by (unfold X2; rewrite skipn_length; lia).
      exists (X1 ++ y :: X2). split; [|split].
      + assert (M := move_left X2 (P ++ X1) y Q r ltac:(rewrite app_length; lia)). rewrite L2, <- !app_assoc in M. rewrite EX. cbn [app]. rewrite <- !app_assoc. exact M.
      + rewrite EX at 1. rewrite <- app_assoc. apply Permutation_app_head. symmetry. apply Permutation_cons_append.
      + intros tp A _. rewrite EX. symmetry. assert (S := merge_split less X1 X2 [y] []). cbn [app] in S. rewrite S.
        * rewrite merge_nil_r. f_equal. apply (merge_before less X2 [y]). intros y' x [<-|[]] Hx. destruct (In_skipn _ _ _ z Hx) as (i & Hi & <-).
          eapply (less_le_trans tp); [|apply (asc_nth_le X z (r - a)); auto; lia]. apply negb_false_iff, R1. lia.
        * intros ? ? [].
        * intros x y' Hx [<-|[]]. destruct (In_firstn _ _ _ z Hx) as (i & Hi & Hi' & <-). apply (le_not_less tp).
          eapply (tp_trans _ tp); [apply (asc_nth_le X z i (r - 1 - a)); auto; lia|]. apply (le_not_less tp). apply negb_true_iff. replace (r - 1 - a) with (r - 1 - a) by lia. apply R2. lia.
    - (* the general case *)
      cbv zeta. assert (MID : a + 2 <= (a + b) / 2 <= b - 2).
      { split; [apply Nat.div_le_lower_bound; lia|]. assert ((a + b) / 2 < b - 1); [apply Nat.div_lt_upper_bound; lia|lia]. }
      remember ((a + b) / 2) as mid eqn:Hmid.
      assert (LR : exists lo r, (if mid <? m then (mid + m - b, mid) else (a, m)) = (lo, r) /\ lo <= r /\ a <= lo /\ r <= m /\ r <= mid /\ mid + m <= lo + b /\
                (lo = a \/ lo + b = mid + m) /\ (r = m \/ r = mid)).
      { assert (D := Nat.div_mod (a + b) 2 ltac:(lia)). rewrite <- Hmid in D. assert (D2 := Nat.mod_upper_bound (a + b) 2 ltac:(lia)). clear Hmid.
        destruct (Nat.ltb_spec mid m); eexists _, _; (split; [reflexivity|]); lia. }
      clear Hmid. destruct LR as (lo & r & -> & LR1 & LR2 & LR3 & LR4 & LR5 & LR6 & LR7).
      destruct (search_spec (fun c => x <- less_at lessO (P ++ X ++ Y ++ Q) (mid + m - 1 - c) c ;; Ret (negb x))
                  (fun c => negb (less (nth (mid + m - 1 - c - m) Y z) (nth (c - a) X z))) (r - lo + 1) lo r) as (s & Es & B & R1 & R2); [lia|lia| |].
      { clear LR6 LR7 C1 C2. intros h Hh. rewrite (less_at_nth _ _ _ z) by lia. cbn [bind]. do 3 f_equal.
        - rewrite nth_in_Y by lia. f_equal. lia.
        - rewrite nth_in_X by lia. f_equal. lia. }
      rewrite Es. cbn [bind]. remember (mid + m - s) as e eqn:He.
      assert (Ee : e + s = mid + m) by lia. clear He.
      assert (O1 : a <= s) by lia. assert (O2 : s <= m) by lia. assert (O3 : m <= e) by lia. assert (O4 : e <= b) by lia. assert (O5 : s <= mid) by lia. assert (O6 : mid <= e) by lia.
      assert (T1 : s < r \/ s = m \/ e = m) by lia. assert (T2 : lo < s \/ s = a \/ e = b) by lia.
      assert (R1' : s < r -> less (nth (e - 1 - m) Y z) (nth (s - a) X z) = true).
      { intros H. apply negb_false_iff. rewrite <- (R1 H). do 3 f_equal. clear - Ee O1 O2 O3. lia. }
      assert (R2' : lo < s -> less (nth (e - m) Y z) (nth (s - 1 - a) X z) = false).
      { intros H. apply negb_true_iff. rewrite <- (R2 H). do 3 f_equal. clear - Ee O1 O2 O3 H. lia. }
      assert (F' : length X + length Y < S fuel) by exact F. clear R1 R2 LR1 LR2 LR3 LR4 LR5 LR6 LR7 B Es C1 C2 LD NY.
      set (X1 := firstn (s - a) X). set (X2 := skipn (s - a) X). set (Y1 := firstn (e - m) Y). set (Y2 := skipn (e - m) Y).
      assert (EX : X = X1 ++ X2) by (symmetry; apply firstn_skipn). assert (EY : Y = Y1 ++ Y2) by (symmetry; apply firstn_skipn).
      assert (LX1 : length X1 + a = s) by (unfold X1; rewrite firstn_length; lia). assert (LX2 : length X2 + s = m) by (unfold X2; rewrite skipn_length; lia).
      assert (LY1 : length Y1 + m = e) by (unfold Y1; rewrite firstn_length; lia). assert (LY2 : length Y2 + e = b) by (unfold Y2; rewrite skipn_length; lia).
      assert (RO : (if (s <? m) && (m <? e) then rotate (P ++ X ++ Y ++ Q) s m e else Ret (P ++ X ++ Y ++ Q)) = Ret (P ++ (X1 ++ Y1) ++ (X2 ++ Y2) ++ Q)).
      { rewrite EX, EY, <- !app_assoc. destruct (Nat.ltb_spec s m) as [S1|S1]; [destruct (Nat.ltb_spec m e) as [S2|S2]|]; cbn [andb].
        - assert (R := rotate_spec (P ++ X1) X2 Y1 (Y2 ++ Q) s m e). rewrite <- !app_assoc in R. apply R; [intros E; rewrite E in LX2; cbn in LX2; lia|intros E; rewrite E in LY1; cbn in LY1; lia|rewrite app_length; lia..].
        - assert (Y1 = []) by (destruct Y1; [reflexivity|cbn in LY1; lia]). rewrite H. reflexivity.
        - assert (X2 = []) by (destruct X2; [reflexivity|cbn in LX2; lia]). rewrite H. reflexivity. }
      rewrite RO. cbn [bind].
      assert (H1 : exists Z1, (if (a <? s) && (s <? mid) then symMerge lessO fuel (P ++ (X1 ++ Y1) ++ (X2 ++ Y2) ++ Q) a s mid else Ret (P ++ (X1 ++ Y1) ++ (X2 ++ Y2) ++ Q))
                   = Ret (P ++ Z1 ++ (X2 ++ Y2) ++ Q) /\ Permutation (X1 ++ Y1) Z1 /\ (TP -> ascending cmp X1 -> ascending cmp Y1 -> Z1 = merge X1 Y1)).
      { destruct (Nat.ltb_spec a s) as [S1|S1]; [destruct (Nat.ltb_spec s mid) as [S2|S2]|]; cbn [andb].
        - destruct (IH P X1 Y1 ((X2 ++ Y2) ++ Q) a s mid) as (Z1 & E1 & P1 & S'); try lia.
          + intros E. rewrite E in LX1. cbn in LX1. lia.
          + intros E. rewrite E in LY1. cbn in LY1. lia.
          + exists Z1. rewrite <- !app_assoc in *. auto.
        - assert (N : Y1 = []) by (destruct Y1; [reflexivity|cbn in LY1; lia]). exists X1. rewrite N, app_nil_r, merge_nil_r. auto.
        - assert (N : X1 = []) by (destruct X1; [reflexivity|cbn in LX1; lia]). exists Y1. rewrite N, merge_nil_l. auto. }
      destruct H1 as (Z1 & E1 & P1 & S1). rewrite E1. cbn [bind].
      assert (LZ1 : length Z1 + a = mid) by (apply Permutation_length in P1; rewrite app_length in P1; lia).
      assert (H2 : exists Z2, (if (mid <? e) && (e <? b) then symMerge lessO fuel (P ++ Z1 ++ (X2 ++ Y2) ++ Q) mid e b else Ret (P ++ Z1 ++ (X2 ++ Y2) ++ Q))
                   = Ret (P ++ Z1 ++ Z2 ++ Q) /\ Permutation (X2 ++ Y2) Z2 /\ (TP -> ascending cmp X2 -> ascending cmp Y2 -> Z2 = merge X2 Y2)).
      { destruct (Nat.ltb_spec mid e) as [S2|S2]; [destruct (Nat.ltb_spec e b) as [S3|S3]|]; cbn [andb].
        - destruct (IH (P ++ Z1) X2 Y2 Q mid e b) as (Z2 & E2 & P2 & S'); try (rewrite app_length; lia); try lia.
          + intros E. rewrite E in LX2. cbn in LX2. lia.
          + intros E. rewrite E in LY2. cbn in LY2. lia.
          + exists Z2. rewrite <- !app_assoc in *. auto.
        - assert (N : Y2 = []) by (destruct Y2; [reflexivity|cbn in LY2; lia]). exists X2. rewrite N, app_nil_r, merge_nil_r. auto.
        - assert (N : X2 = []) by (destruct X2; [reflexivity|cbn in LX2; lia]). exists Y2. rewrite N, merge_nil_l. auto. }
      destruct H2 as (Z2 & E2 & P2 & S2). exists (Z1 ++ Z2). split; [|split].
      + rewrite E2, <- app_assoc. reflexivity.
      + rewrite EX, EY, <- P1, <- P2, <- !app_assoc. apply Permutation_app_head. rewrite !app_assoc. apply Permutation_app_tail. apply Permutation_app_comm.
      + intros tp AX AY. assert (AX' := AX). assert (AY' := AY). rewrite EX in AX'. rewrite EY in AY'. apply asc_app in AX', AY'. destruct AX' as (A1 & A2 & _), AY' as (B1 & B2 & _).
        rewrite (S1 tp A1 B1), (S2 tp A2 B2), EX, EY. symmetry. apply merge_split.
        * intros y x Hy Hx. destruct (In_firstn _ _ _ z Hy) as (i & Hi & Hi' & <-). destruct (In_skipn _ _ _ z Hx) as (j & Hj & <-).
          assert (SR : s < r) by lia. specialize (R1' SR).
          eapply (le_less_trans tp); [apply (asc_nth_le Y z i (e - 1 - m)); auto; lia|].
          eapply (less_le_trans tp); [exact R1'|]. apply asc_nth_le; auto; lia.
        * intros x y Hx Hy. destruct (In_firstn _ _ _ z Hx) as (i & Hi & Hi' & <-). destruct (In_skipn _ _ _ z Hy) as (j & Hj & <-).
          assert (SL : lo < s) by lia. specialize (R2' SL). apply (le_not_less tp). apply (le_not_less tp) in R2'.
          eapply (tp_trans _ tp); [apply (asc_nth_le X z i (s - 1 - a)); auto; lia|].
          eapply (tp_trans _ tp); [exact R2'|]. apply asc_nth_le; auto; lia.
  Qed.

  (** *** The passes *)
  Inductive blocked (size : nat) : list T -> list T -> Prop :=
  | last_block : forall l d, length l <= size -> done l d -> blocked size l d
  | full_block : forall l1 d1 l2 d2, length l1 = size -> done l1 d1 -> blocked size l2 d2 -> blocked size (l1 ++ l2) (d1 ++ d2).
  Lemma blocked_length size l d : blocked size l d -> length l = length d.
  Proof. induction 1; [now apply done_length|]. rewrite !app_length, IHblocked. f_equal. now apply done_length. Qed.

  Lemma blocks_spec fuel : forall L P n, length L < fuel -> n = length P + length L ->
    exists d Z R, blocks lessO fuel (P ++ L) (length P) (length P + 20) n = Ret (P ++ d, length P + length Z) /\
      d = Z ++ R /\ length R < 20 /\ length d = length L /\
      forall R', done R R' -> blocked 20 L (Z ++ R').
  Proof.
    induction fuel as [|fuel IH]; intros L P n F ->; [lia|]. cbn [blocks]. destruct (Nat.leb_spec (length P + 20) (length P + length L)) as [C|C].
    - assert (EL : L = firstn 20 L ++ skipn 20 L) by (symmetry; apply firstn_skipn). set (L1 := firstn 20 L) in *. set (L2 := skipn 20 L) in *.
      assert (LL1 : length L1 = 20) by (unfold L1; rewrite firstn_length; lia). assert (LL2 : length L2 = length L - 20) by (unfold L2; now rewrite skipn_length).
      destruct (insertionSort_spec P L1 L2 (length P) (length P + 20) eq_refl ltac:(lia)) as (Z1 & E1 & D1). rewrite <- EL in E1. rewrite E1. cbn [bind].
      assert (LZ := done_length _ _ D1).
      destruct (IH L2 (P ++ Z1) (length P + length L) ltac:(lia) ltac:(rewrite app_length; lia)) as (d & Z & R & E & Ed & LR & Ld & B).
      rewrite app_length in E. rewrite <- LZ, LL1, <- !app_assoc in E. rewrite E. exists (Z1 ++ d), (Z1 ++ Z), R. split.
      + f_equal. f_equal. rewrite app_length. lia.
      + split; [rewrite Ed; now rewrite app_assoc|]. split; [exact LR|]. split; [rewrite app_length; lia|]. intros R' DR. rewrite <- app_assoc, EL.
        apply full_block; auto.
    - exists L, [], L. split; [cbn; now rewrite Nat.add_0_r|]. split; [reflexivity|]. split; [lia|]. split; [reflexivity|].
      intros R' DR. cbn [app]. apply last_block; [lia|exact DR].
  Qed.

  Lemma two_blocks size l d : 0 < size -> blocked size l d -> size < length l ->
    exists l1 d1 l2 d2, l = l1 ++ l2 /\ d = d1 ++ d2 /\ length l1 = size /\ done l1 d1 /\ blocked size l2 d2 /\ l2 <> [].
  Proof.
    intros S0 B L. destruct B as [l d H D|l1 d1 l2 d2 H D B]; [lia|]. exists l1, d1, l2, d2. do 5 (split; [auto; fail|]). intros ->. rewrite app_nil_r in L. lia.
  Qed.
  Lemma merge_pass_spec size : 0 < size -> forall fuel P l d n N, length l < fuel -> n = length P + length d -> N = n ->
    blocked size l d -> exists d', merge_pass lessO fuel (P ++ d) size (length P) (length P + 2 * size) n = Ret (P ++ d') /\ blocked (2 * size) l d'.
  Proof.
    intros S0. induction fuel as [|fuel IH]; intros P l d n N F En _ B; [lia|]. cbn [merge_pass]. assert (LB := blocked_length _ _ _ B).
    destruct (Nat.leb_spec (length P + 2 * size) n) as [C|C].
    - destruct (two_blocks size l d S0 B) as (l1 & d1 & l2 & d2 & -> & -> & L1 & D1 & B2 & N2); [lia|].
      assert (LD1 := done_length _ _ D1). rewrite !app_length in *.
      assert (K : exists l3 d3 l4 d4, l2 = l3 ++ l4 /\ d2 = d3 ++ d4 /\ length l3 = size /\ done l3 d3 /\ blocked size l4 d4).
      { inversion B2 as [l d H D E1 E2|l3 d3 l4 d4 H D B4 E1 E2]; subst.
        - exists l2, d2, [], []. rewrite !app_nil_r. split; [reflexivity|]. split; [reflexivity|]. split; [lia|]. split; [exact D|]. apply last_block; [cbn; lia|apply done_nil].
        - exists l3, d3, l4, d4. auto 6. }
      destruct K as (l3 & d3 & l4 & d4 & -> & -> & L3 & D3 & B4). assert (LD3 := done_length _ _ D3). rewrite !app_length in *.
      destruct (symMerge_spec (n + 1) P d1 d3 d4 (length P) (length P + size) (length P + 2 * size)) as (Z & EZ & PZ & SZ); try lia.
      { intros ->. cbn in LD1. lia. } { intros ->. cbn in LD3. lia. }
      rewrite EZ. cbn [bind]. assert (DZ := done_merge _ _ _ _ Z D1 D3 PZ SZ). assert (LZ := done_length _ _ DZ). rewrite app_length in LZ.
      destruct (IH (P ++ Z) l4 d4 n n) as (d' & E' & B'); [lia|rewrite app_length; lia|reflexivity|exact B4|].
      rewrite app_length in E'. replace (length P + length Z) with (length P + 2 * size) in E' by lia. rewrite <- !app_assoc in E'. rewrite E'.
      exists (Z ++ d'). split; [reflexivity|]. rewrite app_assoc. apply full_block; [rewrite app_length; lia|exact DZ|exact B'].
    - destruct (Nat.ltb_spec (length P + size) n) as [C2|C2].
      + destruct (two_blocks size l d S0 B) as (l1 & d1 & l2 & d2 & -> & -> & L1 & D1 & B2 & N2); [lia|].
        assert (LD1 := done_length _ _ D1). assert (LB2 := blocked_length _ _ _ B2). rewrite !app_length in *.
        assert (D2 : done l2 d2). { inversion B2 as [l d H D E1 E2|l3 d3 l4 d4 H D B4 E1 E2]; subst; [exact D|]. rewrite !app_length in *. lia. }
        assert (0 < length l2) by (destruct l2; [congruence|cbn; lia]).
        destruct (symMerge_spec (n + 1) P d1 d2 [] (length P) (length P + size) n) as (Z & EZ & PZ & SZ); try lia.
        { intros ->. cbn in LD1. lia. } { intros ->. cbn in LB2. lia. }
        rewrite !app_nil_r in EZ. exists Z. split; [exact EZ|]. apply last_block; [rewrite app_length; lia|]. exact (done_merge _ _ _ _ Z D1 D2 PZ SZ).
      + exists d. split; [reflexivity|]. inversion B as [l0 d0 H D E1 E2|l1 d1 l2 d2 H D B2 E1 E2]; subst.
        * apply last_block; [lia|exact D].
        * rewrite app_length in *. assert (LB2 := blocked_length _ _ _ B2). rewrite app_length in *.
          assert (l2 = []) by (destruct l2; [reflexivity|cbn in *; lia]). assert (d2 = []) by (destruct d2; [reflexivity|cbn in *; lia]). subst.
          rewrite !app_nil_r. apply last_block; [lia|exact D].
  Qed.
  Lemma passes_spec fuel : forall size l d, 0 < size -> length l < fuel + size -> 0 < fuel -> blocked size l d ->
    exists d', passes lessO fuel d size (length l) = Ret d' /\ done l d'.
  Proof.
    induction fuel as [|fuel IH]; intros size l d S0 F F0 B; [lia|]. cbn [passes]. assert (LB := blocked_length _ _ _ B).
    destruct (Nat.ltb_spec size (length l)) as [C|C].
    - destruct (merge_pass_spec size S0 (length l + 1) [] l d (length l) (length l)) as (d' & E & B'); [lia|exact LB|reflexivity|exact B|].
      cbn [app length Nat.add] in E. rewrite E. cbn [bind]. apply (IH (2 * size) l d'); [lia|lia|lia|exact B'].
    - exists d. split; [reflexivity|]. inversion B as [l0 d0 H D E1 E2|l1 d1 l2 d2 H D B2 E1 E2]; subst; [exact D|].
      rewrite app_length in *. assert (LB2 := blocked_length _ _ _ B2). rewrite app_length in *.
      assert (l2 = []) by (destruct l2; [reflexivity|cbn in *; lia]). assert (d2 = []) by (destruct d2; [reflexivity|cbn in *; lia]). subst.
      now rewrite !app_nil_r.
  Qed.

  Lemma SliceStable_done l : exists d, SliceStable lessO l = Ret d /\ done l d.
  Proof.
    unfold SliceStable. cbv zeta. destruct (blocks_spec (length l + 1) l [] (length l)) as (d & Z & R & E & Ed & LR & Ld & B); [lia|reflexivity|].
    cbn [app length Nat.add] in E. rewrite E. cbn [bind fst snd].
    destruct (insertionSort_spec Z R [] (length Z) (length l) eq_refl) as (R' & E' & D'); [rewrite <- Ld, Ed, app_length; reflexivity|].
    rewrite !app_nil_r in E'. rewrite Ed, E'. cbn [bind]. apply passes_spec; [lia|lia|lia|]. now apply B.
  Qed.
End Stable.
