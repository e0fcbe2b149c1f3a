(** AnyCmpProofs.v -- the heap rearranges, whatever the comparison is. *)
From Coq Require Import Permutation.
From Verif Require Import Base BaseLemmas VecModel VecSpec VecProofs VecSortProofs HeapModel HeapProofs AnyCmpSpec AnyCmpModel.

Section Any.
  Context {T : Type}.
  Variable zero : T.
  Variable extra : nat -> nat -> nat.
  Variable cmp : T -> T -> ordering.

  Lemma SiftUp_any d start pos : pos < length d -> exists d' p, SiftUp cmp d start pos = Ret (d', p) /\ Permutation d d'.
  Proof.
    intros L. unfold SiftUp. destruct (nth_error_lt _ d pos L) as (x & Hx). rewrite (idx_nth_error _ _ _ Hx). cbn [bind].
    apply sift_up_loop_perm; lia.
  Qed.
  Lemma HPush_any h x : exists h', HPush extra cmp h x = Ret h' /\ Permutation (x :: vec h) (vec h').
  Proof.
    unfold HPush. cbv zeta. destruct (SiftUp_any (vec (extend extra h [x])) 0 (HLen h)) as (d & p & E & P).
    { unfold extend, HLen. cbn [vec]. rewrite app_length. cbn. lia. }
    rewrite E. cbn [bind fst]. eexists. split; [reflexivity|]. cbn [vec]. rewrite <- P. cbn [extend vec]. apply Permutation_cons_append.
  Qed.
  Lemma down_any fuel : forall d pos, length d < pos + fuel -> pos < length d ->
    exists d' pos', sift_down_loop cmp fuel d (length d) pos (2 * pos + 1) = Ret (d', pos', 2 * pos' + 1) /\ Permutation d d' /\ pos' < length d.
  Proof.
    induction fuel as [|fuel IH]; intros d pos F L; [lia|]. cbn [sift_down_loop].
    destruct (Nat.leb_spec (2 * pos + 1) (length d - 2)) as [C|C]; [|exists d, pos; auto].
    destruct (nth_error_lt _ d (2 * pos + 1)) as (a & Ha); [lia|]. destruct (nth_error_lt _ d (2 * pos + 1 + 1)) as (b & Hb); [lia|].
    rewrite (idx_nth_error _ _ _ Ha). cbn [bind]. rewrite (idx_nth_error _ _ _ Hb). cbn [bind]. cbv zeta.
    set (c := match cmp a b with Greater => 2 * pos + 1 | _ => 2 * pos + 1 + 1 end).
    assert (Lc : pos < c < length d) by (unfold c; destruct (cmp a b); lia).
    destruct (swap_data_exchanged T d pos c) as (d1 & E1 & _ & P1); [lia|lia|]. rewrite E1. cbn [bind].
    assert (L1 := Permutation_length P1). rewrite L1.
    destruct (IH d1 c) as (d2 & p2 & E2 & P2 & L2); [lia|lia|]. rewrite E2. exists d2, p2. split; [reflexivity|]. split; [now rewrite P1|lia].
  Qed.
  Lemma SiftDown_any d : 0 < length d -> exists d', SiftDownToBottom cmp d 0 = Ret d' /\ Permutation d d'.
  Proof.
    intros L. unfold SiftDownToBottom. cbv zeta. destruct (nth_error_lt _ d 0 L) as (x & Hx). rewrite (idx_nth_error _ _ _ Hx). cbn [bind].
    destruct (down_any (length d + 1) d 0) as (d1 & p1 & E1 & P1 & L1); [lia|lia|]. rewrite E1. cbn [bind].
    assert (LP := Permutation_length P1).
    assert (Q : exists d2 p2, (if 2 * p1 + 1 =? length d - 1 then d' <- swap_data d1 p1 (2 * p1 + 1);; Ret (d', 2 * p1 + 1) else Ret (d1, p1)) = Ret (d2, p2)
                  /\ Permutation d1 d2 /\ p2 < length d).
    { destruct (Nat.eqb_spec (2 * p1 + 1) (length d - 1)) as [E|E]; [|exists d1, p1; auto].
      destruct (swap_data_exchanged T d1 p1 (2 * p1 + 1)) as (d2 & E2 & _ & P2); [lia|lia|]. rewrite E2. cbn [bind]. exists d2, (2 * p1 + 1). split; [reflexivity|]. split; [exact P2|lia]. }
    destruct Q as (d2 & p2 & E2 & P2 & L2). rewrite E2. cbn [bind]. assert (LP2 := Permutation_length P2).
    destruct (SiftUp_any d2 0 p2) as (d3 & p3 & E3 & P3); [lia|]. rewrite E3. cbn [bind fst]. exists d3. split; [reflexivity|]. now rewrite P1, P2.
  Qed.
  (** What Pop gives is the first element of the slice. *)
  Lemma HPop_any h :
    match vec h with
    | [] => HPop cmp h = Ret (h, None)
    | x :: _ => exists h', HPop cmp h = Ret (h', Some x) /\ Permutation (vec h) (x :: vec h')
    end.
  Proof.
    destruct h as [d c]. cbn [vec]. unfold HPop, HLen. cbn [vec capacity].
    destruct d as [|x0 r]; [reflexivity|]. destruct (exists_last (l := x0 :: r)) as (q & z & Eq); [discriminate|]. rewrite Eq.
    rewrite app_length. cbn [length]. replace (length q + 1 - 1) with (length q) by lia.
    assert (NZ : nth_error (q ++ [z]) (length q) = Some z) by (rewrite nth_error_app2 by lia; now rewrite Nat.sub_diag).
    assert (FQ : firstn (length q) (q ++ [z]) = q) by (rewrite firstn_app, Nat.sub_diag, firstn_all, app_nil_r; reflexivity).
    destruct (q ++ [z]) as [|q0 q1] eqn:EQ; [destruct q; discriminate|]. rewrite <- EQ in *. cbv zeta.
    rewrite (idx_nth_error _ _ _ NZ). cbn [bind]. rewrite FQ. destruct q as [|y q'].
    - cbn [length Nat.eqb negb app] in *. injection Eq as -> ->. eexists. split; [reflexivity|]. reflexivity.
    - cbn [length Nat.eqb negb]. injection Eq as <- _. unfold idx. cbn [nth_error of_option bind]. rewrite upd_Ret by (cbn; lia). cbn [bind list_set].
      destruct (SiftDown_any (z :: q')) as (d' & E & P); [cbn; lia|]. rewrite E. cbn [bind]. eexists. split; [reflexivity|]. cbn [vec].
      cbn [app]. constructor. rewrite <- P. symmetry. apply Permutation_cons_append.
  Qed.
  Lemma sorted_any fuel : forall h pre post, HLen h < fuel -> length pre = HLen h ->
    exists h' l, sorted_loop cmp fuel h (pre ++ post) (Z.of_nat (HLen h) - 1)%Z = Ret (h', l) /\ vec h' = [] /\ Permutation (vec h ++ post) l.
  Proof.
    induction fuel as [|fuel IH]; intros h pre post F LP; [lia|]. cbn [sorted_loop]. assert (P := HPop_any h). unfold HIsEmpty, HLen in *.
    destruct (vec h) as [|x r] eqn:Ev; cbn [length Nat.eqb negb] in *.
    - destruct pre; [|discriminate]. exists h, post. auto.
    - destruct P as (h' & E & P). rewrite E. cbn [bind fst snd of_option].
      destruct (Z.ltb_spec (Z.of_nat (S (length r)) - 1) 0); [lia|]. replace (Z.to_nat (Z.of_nat (S (length r)) - 1)) with (length r) by lia.
      rewrite upd_Ret by (rewrite app_length; lia). cbn [bind].
      assert (L' : length (vec h') = length r) by (apply Permutation_length in P; cbn [length] in P; lia).
      assert (LS : list_set (pre ++ post) (length r) x = firstn (length r) pre ++ (x :: post)).
      { rewrite list_set_firstn_skipn by (rewrite app_length; lia). rewrite firstn_app, skipn_app. replace (length r - length pre) with 0 by lia.
        replace (S (length r) - length pre) with 0 by lia. rewrite firstn_O, app_nil_r. rewrite (skipn_all2 pre) by lia. reflexivity. }
      rewrite LS. replace (Z.of_nat (S (length r)) - 1 - 1)%Z with (Z.of_nat (length (vec h')) - 1)%Z by lia.
      destruct (IH h' (firstn (length r) pre) (x :: post)) as (h2 & l & E2 & V2 & P2); [lia|rewrite firstn_length; lia|].
      exists h2, l. split; [exact E2|]. split; [exact V2|]. rewrite <- P2, P. cbn [app]. apply Permutation_middle.
  Qed.
  Lemma skip_nth (d : list T) : forall i y, nth_error d i = Some y -> skipn i d = y :: skipn (S i) d.
  Proof. induction d as [|a d IH]; intros [|i] y H; try discriminate; cbn in *; [congruence|now apply IH]. Qed.
  Lemma set_bag (d : list T) i x : i < length d -> exists y rest, Permutation d (y :: rest) /\ Permutation (list_set d i x) (x :: rest).
  Proof.
    intros L. destruct (nth_error_lt _ d i L) as (y & Hy). exists y, (firstn i d ++ skipn (S i) d). rewrite list_set_firstn_skipn by auto. split.
    - rewrite <- (firstn_skipn i d) at 1. rewrite (skip_nth d i y Hy). symmetry. apply Permutation_middle.
    - symmetry. apply Permutation_middle.
  Qed.
  Lemma step_any h bag o : Permutation (vec h) bag -> exists h' a bag', aexec zero extra cmp h o = Ret (h', a) /\ bag_step bag o bag' a /\ Permutation (vec h') bag'.
  Proof.
    intros P. destruct o; cbn [aexec].
    - destruct (HPush_any h x) as (h' & E & Q). rewrite E. cbn [bind]. exists h', Nothing, (x :: bag). split; [reflexivity|]. split; [constructor|]. rewrite <- Q. now constructor.
    - assert (Q := HPop_any h). destruct (vec h) as [|x r] eqn:Ev.
      + rewrite Q. cbn [bind fst snd]. apply Permutation_nil in P. subst bag. eexists _, _, []. split; [reflexivity|]. split; [constructor|]. now rewrite Ev.
      + destruct Q as (h' & E & Q). rewrite E. cbn [bind fst snd]. eexists _, _, (vec h'). split; [reflexivity|]. split; [|reflexivity]. constructor. now rewrite <- P.
    - eexists _, _, bag. split; [reflexivity|]. split; [|exact P]. unfold HLen. rewrite (Permutation_length P). constructor.
    - eexists _, _, []. split; [reflexivity|]. split; [constructor|reflexivity].
    - unfold HIntoSortedVec. destruct (sorted_any (HLen h + 1) h (repeat zero (HLen h)) []) as (h' & l & E & V & Q); [lia|apply repeat_length|].
      rewrite app_nil_r in E, Q. rewrite E. cbn [bind fst snd]. eexists _, _, []. split; [reflexivity|]. split; [constructor; now rewrite <- P|now rewrite V].
    - unfold write, HIntoVec. destruct (Nat.lt_ge_cases i (length (vec h))) as [L|L].
      + rewrite upd_Ret by exact L. destruct (set_bag (vec h) i x L) as (y & rest & Q1 & Q2). eexists _, _, (x :: rest). split; [reflexivity|]. split; [|exact Q2].
        apply b_write with y; [now rewrite <- (Permutation_length P)|now rewrite <- P].
      + assert (E : upd (vec h) i x = Panic). { unfold upd. destruct (Nat.ltb_spec i (length (vec h))); [lia|reflexivity]. }
        rewrite E. eexists _, _, bag. split; [reflexivity|]. split; [constructor; now rewrite <- (Permutation_length P)|exact P].
  Qed.
  Lemma run_any ops : forall h bag, Permutation (vec h) bag -> exists h' l bag', arun zero extra cmp h ops = Ret (h', l) /\ bag_run bag ops bag' l /\ Permutation (vec h') bag'.
  Proof.
    induction ops as [|o ops IH]; intros h bag P; cbn [arun].
    - exists h, [], bag. split; [reflexivity|]. split; [constructor|exact P].
    - destruct (step_any h bag o P) as (h1 & a & b1 & E & S & P1). rewrite E. cbn [bind fst snd]. destruct (IH h1 b1 P1) as (h2 & l & b2 & E2 & R & P2).
      rewrite E2. cbn [bind fst snd]. eexists _, _, b2. split; [reflexivity|]. split; [econstructor; eauto|exact P2].
  Qed.
End Any.
