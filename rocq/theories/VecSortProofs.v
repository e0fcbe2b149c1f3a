(** VecSortProofs.v -- sorting, binary search, iterators, text of a vector. *)
From Coq Require Import Permutation Sorted.
From Verif Require Import Base BaseLemmas Effect CmpSpec VecModel VecSpec VecHistory VecProofs.

Section Sort.
  Context {T : Type}.
  Variable cmp : T -> T -> ordering.
  Hypothesis TP : total_preorder cmp.
  Let less a b := is_less (cmp a b).
  Let eqv x y := match cmp x y with Equal => true | _ => false end.

  Lemma insert_perm : forall (lt : T -> T -> bool) x l, Permutation (x :: l) (insert_sorted lt x l).
  Proof.
    intros lt x. induction l as [|y l IH]; cbn; [reflexivity|].
    destruct (lt y x); [|reflexivity]. rewrite perm_swap. now constructor.
  Qed.
  Lemma sort_perm : forall (lt : T -> T -> bool) l, Permutation l (stable_sort lt l).
  Proof.
    intros lt. induction l as [|x l IH]; cbn; [reflexivity|].
    rewrite <- insert_perm. now constructor.
  Qed.

  Lemma less_true : forall a b, less a b = true -> cmp a b = Less.
  Proof. unfold less, is_less. intros a b. destruct (cmp a b); congruence. Qed.
  Lemma less_le : forall a b, less a b = true -> le_by cmp a b.
  Proof. intros a b H. unfold le_by. rewrite (less_true _ _ H). discriminate. Qed.
  Lemma not_less_le : forall a b, less a b = false -> le_by cmp b a.
  Proof. intros a b H. unfold le_by, less, is_less in *. rewrite (tp_flip _ TP a b). destruct (cmp a b); cbn; congruence. Qed.

  Lemma insert_ascending : forall x l, ascending cmp l -> ascending cmp (insert_sorted less x l).
  Proof.
    intros x. induction l as [|y l IH]; intros H; cbn.
    - repeat constructor.
    - inversion H as [|? ? H1 H2]; subst. destruct (less y x) eqn:E.
      + constructor; [apply IH; auto|].
        rewrite Forall_forall in *. intros z Hz. apply Permutation_in with (l' := x :: l) in Hz; [|symmetry; apply insert_perm].
        destruct Hz as [<-|Hz]; [now apply less_le | auto].
      + constructor; [auto|]. constructor; [now apply not_less_le|].
        rewrite Forall_forall in *. intros z Hz. eapply (tp_trans _ TP); [apply not_less_le; eauto | now apply H2].
  Qed.
  Lemma sort_ascending : forall l, ascending cmp (stable_sort less l).
  Proof. induction l; cbn; [constructor | now apply insert_ascending]. Qed.

  (** Equal elements: x may only pass elements strictly smaller than it. *)
  Lemma insert_filter : forall z x l, filter (eqv z) (insert_sorted less x l) = filter (eqv z) (x :: l).
  Proof.
    intros z x. induction l as [|y l IH]; cbn [insert_sorted]; [reflexivity|].
    destruct (less y x) eqn:E; [|reflexivity].
    cbn [filter] in *. rewrite IH.
    destruct (eqv z y) eqn:Ey, (eqv z x) eqn:Ex; try reflexivity.
    exfalso. unfold eqv in Ey, Ex. apply less_true in E.
    destruct (cmp z y) eqn:Czy; try discriminate. destruct (cmp z x) eqn:Czx; try discriminate.
    (* x <= z <= y, but y < x *)
    assert (K : cmp x y <> Greater).
    { apply (tp_trans _ TP x z y).
      - rewrite (tp_flip _ TP z x), Czx. discriminate.
      - rewrite Czy. discriminate. }
    rewrite (tp_flip _ TP y x), E in K. now apply K.
  Qed.
  Lemma sort_stable : forall l, stable cmp l (stable_sort less l).
  Proof.
    intros l z. fold (eqv z). induction l as [|x l IH]; cbn [stable_sort]; [reflexivity|].
    rewrite insert_filter. cbn [filter]. now rewrite IH.
  Qed.

  Lemma stably_sorted_unique : forall l1 l2,
    Permutation l1 l2 -> ascending cmp l1 -> ascending cmp l2 -> stable cmp l1 l2 -> l1 = l2.
  Proof.
    induction l1 as [|a r1 IH]; intros l2 P S1 S2 St.
    - now apply Permutation_nil in P.
    - destruct l2 as [|b r2]; [symmetry in P; now apply Permutation_nil in P|].
      inversion S1 as [|? ? H1 F1]; inversion S2 as [|? ? H2 F2]; subst.
      rewrite Forall_forall in F1, F2.
      assert (Ab : cmp a b <> Greater).
      { assert (I : In b (a :: r1)) by (eapply Permutation_in; [symmetry; exact P | now left]).
        destruct I as [<-|I]; [rewrite (tp_refl _ TP); discriminate | now apply F1]. }
      assert (Ba : cmp b a <> Greater).
      { assert (I : In a (b :: r2)) by (eapply Permutation_in; [exact P | now left]).
        destruct I as [<-|I]; [rewrite (tp_refl _ TP); discriminate | now apply F2]. }
      assert (E : cmp a b = Equal).
      { rewrite (tp_flip _ TP a b) in Ba. destruct (cmp a b); cbn in *; congruence. }
      assert (Eab : a = b).
      { specialize (St a). cbn [filter] in St. rewrite E, (tp_refl _ TP) in St. now inversion St. }
      subst b. f_equal. apply IH; auto.
      + now apply Permutation_cons_inv in P.
      + intros x. specialize (St x). cbn [filter] in St. destruct (cmp x a); [auto | now inversion St | auto].
  Qed.

  (** If equal elements are identical, being sorted is enough. *)
  Lemma sorted_unique : (forall a b, cmp a b = Equal -> a = b) -> forall l1 l2,
    Permutation l1 l2 -> ascending cmp l1 -> ascending cmp l2 -> l1 = l2.
  Proof.
    intros Id. induction l1 as [|a r1 IH]; intros l2 P S1 S2.
    - now apply Permutation_nil in P.
    - destruct l2 as [|b r2]; [symmetry in P; now apply Permutation_nil in P|].
      inversion S1 as [|? ? H1 F1]; inversion S2 as [|? ? H2 F2]; subst.
      rewrite Forall_forall in F1, F2.
      assert (Ab : cmp a b <> Greater).
      { assert (I : In b (a :: r1)) by (eapply Permutation_in; [symmetry; exact P | now left]).
        destruct I as [<-|I]; [rewrite (tp_refl _ TP); discriminate | now apply F1]. }
      assert (Ba : cmp b a <> Greater).
      { assert (I : In a (b :: r2)) by (eapply Permutation_in; [exact P | now left]).
        destruct I as [<-|I]; [rewrite (tp_refl _ TP); discriminate | now apply F2]. }
      assert (E : cmp a b = Equal).
      { rewrite (tp_flip _ TP a b) in Ba. destruct (cmp a b); cbn in *; congruence. }
      apply Id in E. subst b. f_equal. apply IH; auto. now apply Permutation_cons_inv in P.
  Qed.

  Lemma ascending_split : forall value l, ascending cmp l -> split_by (fun x => cmp x value) l.
  Proof.
    intros value l S i j x y Hij Hx Hy.
    assert (L : le_by cmp x y).
    { revert i j Hij Hx Hy. induction S as [|a l S IH F]; intros [|i] [|j] Hij Hx Hy; cbn in *; try discriminate; try lia.
      - inversion Hx; inversion Hy; subst. unfold le_by. rewrite (tp_refl _ TP). discriminate.
      - inversion Hx; subst. rewrite Forall_forall in F. apply F. eapply nth_error_In; eauto.
      - eapply IH; [|eauto|eauto]. lia. }
    unfold le_by in L.
    destruct (cmp x value) eqn:Ex, (cmp y value) eqn:Ey; cbn [rank]; try lia; exfalso.
    - (* x = value, y < value: x <= y gives value <= y *)
      assert (K : cmp value y <> Greater).
      { apply (tp_trans _ TP value x y); [|auto]. rewrite (tp_flip _ TP x value), Ex. discriminate. }
      rewrite (tp_flip _ TP y value), Ey in K. now apply K.
    - assert (K : cmp x value <> Greater).
      { apply (tp_trans _ TP x y value); [auto|]. rewrite Ey. discriminate. }
      now apply K.
    - assert (K : cmp x value <> Greater).
      { apply (tp_trans _ TP x y value); [auto|]. rewrite Ey. discriminate. }
      now apply K.
  Qed.

  Lemma ascending_nth : forall l, (forall i j x y, i < j -> nth_error l i = Some x -> nth_error l j = Some y -> le_by cmp x y) ->
    ascending cmp l.
  Proof.
    induction l as [|a l IH]; intros H; constructor.
    - apply IH. intros i j x y Hij Hx Hy. apply (H (S i) (S j)); auto. lia.
    - apply Forall_forall. intros y Hy. apply In_nth_error in Hy. destruct Hy as (j & Hj).
      apply (H 0 (S j)); auto. lia.
  Qed.
End Sort.

(** *** Binary search *)
Section Search.
  Context {T : Type}.
  Variable f : T -> ordering.
  Variable d : list T.

  Lemma search_loop_total : forall fuel low high,
    (0 <= low <= high + 1)%Z -> (high < Z.of_nat (length d))%Z -> (high - low + 1 < Z.of_nat fuel)%Z ->
    exists r, search_loop fuel (fun x => Ret (f x)) d low high = Ret r /\
      match r with
      | Some i => exists x, nth_error d i = Some x /\ f x = Equal
      | None => split_by f d ->
          (forall i x, (Z.of_nat i < low)%Z -> nth_error d i = Some x -> f x = Less) ->
          (forall i x, (high < Z.of_nat i)%Z -> nth_error d i = Some x -> f x = Greater) ->
          forall i x, nth_error d i = Some x -> f x <> Equal
      end.
  Proof.
    induction fuel as [|fuel IH]; intros low high Hl Hh Hf.
    - cbn [search_loop]. exfalso. lia.
    - cbn [search_loop]. destruct (Z.leb_spec low high).
      2:{ eexists. split; [reflexivity|]. cbn. intros _ Lo Hi i x Hx.
          destruct (Z.lt_ge_cases (Z.of_nat i) low).
          - rewrite (Lo i x) by auto. discriminate.
          - rewrite (Hi i x) by (auto; lia). discriminate. }
      pose proof (Z.div_mod (low + high) 2 ltac:(lia)) as DM. pose proof (Z.mod_pos_bound (low + high) 2 ltac:(lia)) as MB.
      set (mid := ((low + high) / 2)%Z) in *.
      assert (Bm : (low <= mid <= high)%Z) by lia.
      destruct (nth_error d (Z.to_nat mid)) as [y|] eqn:Hy; [|apply nth_error_None in Hy; lia].
      rewrite (idx_nth_error _ _ _ Hy). cbn [bind].
      destruct (f y) eqn:Fy.
      + destruct (IH (mid + 1)%Z high) as (r & E & R); [lia|lia|lia|]. exists r. split; [exact E|].
        destruct r as [i|]; [exact R|]. intros Sp Lo Hi. apply R; auto.
        intros i x Hi' Hx. assert (rank (f x) <= rank (f y))%Z by (apply (Sp i (Z.to_nat mid)); auto; lia).
        rewrite Fy in H0. destruct (f x); cbn in *; [reflexivity | lia | lia].
      + eexists. split; [reflexivity|]. cbn. eauto.
      + destruct (IH low (mid - 1)%Z) as (r & E & R); [lia|lia|lia|]. exists r. split; [exact E|].
        destruct r as [i|]; [exact R|]. intros Sp Lo Hi. apply R; auto.
        intros i x Hi' Hx. assert (rank (f y) <= rank (f x))%Z by (apply (Sp (Z.to_nat mid) i); auto; lia).
        rewrite Fy in H0. destruct (f x); cbn in *; [lia | lia | reflexivity].
  Qed.

  Lemma search_data_spec : exists r, search_data (fun x => Ret (f x)) d = Ret r /\
    match r with
    | Some i => exists x, nth_error d i = Some x /\ f x = Equal
    | None => split_by f d -> forall i x, nth_error d i = Some x -> f x <> Equal
    end.
  Proof.
    unfold search_data. destruct (search_loop_total (length d + 1) 0 (Z.of_nat (length d) - 1)) as (r & E & R); try lia.
    exists r. split; [exact E|]. destruct r; [exact R|]. intros Sp. apply R; auto.
    - intros. lia.
    - intros i x Hi Hx. assert (i < length d) by (apply nth_error_Some; congruence). lia.
  Qed.
End Search.

(** The comparison is only called on elements, so a missing Cmp panics exactly on
    a non-empty vector. *)
Lemma search_no_cmp : forall T (d : list T) value,
  search_data (fun x => c <- of_option (@None (T -> T -> ordering)) ;; Ret (c x value)) d
  = match d with [] => Ret None | _ => Panic end.
Proof.
  intros T [|x d] value; [reflexivity|]. unfold search_data. cbn [length Nat.add]. cbn [search_loop].
  destruct (Z.leb_spec 0 (Z.of_nat (S (length d)) - 1)); [|lia].
  destruct (nth_error (x :: d) (Z.to_nat ((0 + (Z.of_nat (S (length d)) - 1)) / 2))) eqn:E; unfold idx; rewrite E; reflexivity.
Qed.

(** *** Iterators *)
Section Iter.
  Context {T : Type}.
  Variable zero : T.

  Lemma iter_loop_spec : forall A (f : A -> T -> out A) d fuel p a, length d < p + fuel -> 0 < fuel ->
    iter_loop fuel f (mkIter d p) a = oloop f (skipn p d) a.
  Proof.
    intros A f d. induction fuel as [|fuel IH]; intros p a H F; cbn [iter_loop].
    - exfalso. lia.
    - unfold Next. cbn [iv position]. destruct (Nat.leb_spec (length d) p).
      + rewrite skipn_all2 by auto. reflexivity.
      + destruct (nth_error d p) as [x|] eqn:E; [|apply nth_error_None in E; lia].
        rewrite (idx_nth_error _ _ _ E). cbn [bind fst snd].
        rewrite (skipn_nth _ _ _ _ E). cbn [oloop]. destruct (f a x); cbn [bind]; [|reflexivity|reflexivity].
        rewrite IH by lia. now rewrite Nat.add_1_r.
  Qed.
  Lemma iterate_spec : forall A (f : A -> T -> out A) d p a, iterate f (mkIter d p) a = oloop f (skipn p d) a.
  Proof.
    intros A f d p a. unfold iterate. cbn [iv]. apply iter_loop_spec; lia.
  Qed.

  Lemma oloop_fold : forall A B (f : A -> B -> A) l a, oloop (fun a x => Ret (f a x)) l a = Ret (fold_left f l a).
  Proof. intros A B f. induction l; intros; cbn [oloop fold_left bind]; auto. Qed.

  Lemma fold_snoc : forall A B (g : A -> B) l acc, fold_left (fun d x => d ++ [g x]) l acc = acc ++ map g l.
  Proof.
    intros A B g. induction l; intros; cbn [fold_left map]; [now rewrite app_nil_r|].
    rewrite IHl, <- app_assoc. reflexivity.
  Qed.
  Lemma fold_filter : forall A (p : A -> bool) l acc,
    fold_left (fun d x => if p x then d ++ [x] else d) l acc = acc ++ filter p l.
  Proof.
    intros A p. induction l; intros; cbn [fold_left filter]; [now rewrite app_nil_r|].
    rewrite IHl. destruct (p a); [now rewrite <- app_assoc | reflexivity].
  Qed.

  (** Rev writes the remaining elements backwards into the tail. *)
  Lemma rev_loop : forall l pre post i,
    i = (Z.of_nat (length pre + length l) - 1)%Z ->
    oloop (fun st x => let '(d, i) := st in
           if (i <? 0)%Z then Panic else d' <- upd d (Z.to_nat i) x ;; Ret (d', (i - 1)%Z)) l
      (pre ++ repeat zero (length l) ++ post, i)
    = Ret (pre ++ rev l ++ post, (i - Z.of_nat (length l))%Z).
  Proof.
    induction l as [|x l IH]; intros pre post i Hi; cbn [oloop].
    - cbn [length repeat rev app] in *. repeat f_equal. lia.
    - cbn [length] in *. destruct (Z.ltb_spec i 0); [lia|].
      rewrite upd_Ret by (rewrite !app_length, repeat_length; lia). cbn [bind].
      assert (E : list_set (pre ++ repeat zero (S (length l)) ++ post) (Z.to_nat i) x
                  = pre ++ repeat zero (length l) ++ (x :: post)).
      { replace (Z.to_nat i) with (length pre + length l) by lia.
        replace (repeat zero (S (length l)) ++ post) with (repeat zero (length l) ++ zero :: post).
        - rewrite app_assoc. 
          rewrite (list_set_firstn_skipn _ (length pre + length l)) by (rewrite !app_length, repeat_length; cbn [length]; lia).
          rewrite firstn_exact by (rewrite app_length, repeat_length; lia).
          rewrite skipn_app, app_length, repeat_length.
          rewrite skipn_all2 by (rewrite app_length, repeat_length; lia).
          replace (S (length pre + length l) - (length pre + length l)) with 1 by lia.
          cbn [skipn app]. now rewrite <- app_assoc.
        - change (zero :: post) with ([zero] ++ post). rewrite app_assoc. f_equal.
          change [zero] with (repeat zero 1). rewrite <- repeat_app. f_equal. lia. }
      rewrite E. rewrite IH by lia. cbn [rev]. rewrite <- app_assoc.
      replace (i - 1 - Z.of_nat (length l))%Z with (i - Z.of_nat (S (length l)))%Z by lia. reflexivity.
  Qed.

  Lemma It_Rev_spec : forall d p, p <= length d ->
    It_Rev zero (mkIter d p) = Ret (IntoIter (repeat zero p ++ rev (skipn p d))).
  Proof.
    intros d p H. unfold It_Rev. cbn [iv]. rewrite iterate_spec.
    assert (Lr : length (skipn p d) = length d - p) by apply skipn_length.
    pose proof (rev_loop (skipn p d) (repeat zero p) [] (Z.of_nat (length d) - 1)%Z) as R.
    rewrite !app_nil_r in R. rewrite <- repeat_app in R. rewrite Lr in R.
    replace (p + (length d - p)) with (length d) in R by lia.
    rewrite R by (rewrite repeat_length; lia). reflexivity.
  Qed.

  (** *** Text *)
  Lemma display_loop_spec : forall (display : T -> list Z) d i n buf, i + length d = n ->
    display_loop (Some display) d i n buf = Ret (buf ++ comma_separated (map display d)).
  Proof.
    intros display. induction d as [|x d IH]; intros i n buf H; cbn [display_loop].
    - cbn. now rewrite app_nil_r.
    - cbn [of_option bind]. cbn [length] in H. rewrite IH by lia. f_equal. cbn [map].
      destruct (Nat.eqb_spec i (n - 1)); cbn [negb].
      + destruct d; [|cbn [length] in H; lia]. cbn [map comma_separated]. now rewrite app_nil_r.
      + destruct d as [|y d]; [cbn [length] in H; lia|]. cbn [map].
        change (comma_separated (display x :: display y :: map display d))
          with (display x ++ [44; 32]%Z ++ comma_separated (display y :: map display d)).
        rewrite <- !app_assoc. reflexivity.
  Qed.
End Iter.
