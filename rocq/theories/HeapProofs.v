(** HeapProofs.v -- the heap invariant and its preservation. *)
From Coq Require Import Permutation Sorted FinFun.
From Verif Require Import Base BaseLemmas CmpSpec VecModel VecSpec VecProofs VecSortProofs HeapModel HeapSpec.

Definition par (i : nat) : nat := (i - 1) / 2.
Lemma par_eq : forall i, exists r, i - 1 = 2 * par i + r /\ r < 2.
Proof.
  intros i. exists ((i - 1) mod 2). unfold par. split; [apply Nat.div_mod; lia | apply Nat.mod_upper_bound; lia].
Qed.
Lemma par_lt : forall i, 0 < i -> par i < i.
Proof. intros. destruct (par_eq i) as (r & ? & ?). lia. Qed.
Lemma par_children : forall c p, 0 < c -> par c = p -> c = 2 * p + 1 \/ c = 2 * p + 2.
Proof. intros. destruct (par_eq c) as (r & ? & ?). lia. Qed.
Lemma par_1 : forall p, par (2 * p + 1) = p.
Proof. intros. destruct (par_eq (2 * p + 1)) as (r & ? & ?). lia. Qed.
Lemma par_2 : forall p, par (2 * p + 2) = p.
Proof. intros. destruct (par_eq (2 * p + 2)) as (r & ? & ?). lia. Qed.

Lemma swap_data_exchanged : forall T (d : list T) i j, i < length d -> j < length d ->
  exists d', swap_data d i j = Ret d' /\ exchanged d d' i j /\ Permutation d d'.
Proof.
  intros T d i j Li Lj.
  destruct (nth_error d i) as [x|] eqn:Hi; [|apply nth_error_None in Hi; lia].
  destruct (nth_error d j) as [y|] eqn:Hj; [|apply nth_error_None in Hj; lia].
  rewrite (swap_data_spec _ _ _ _ _ Hi Hj). eexists. split; [reflexivity|].
  assert (E : exchanged d (seq_set (seq_set d i y) j x) i j).
  { assert (L2 : j < length (seq_set d i y)) by (rewrite seq_set_length; auto).
    unfold exchanged. rewrite !nth_error_seq_set by auto. rewrite !seq_set_length by auto. rewrite !Nat.eqb_refl.
    split; [reflexivity|]. split; [|split; [congruence|]].
    - destruct (Nat.eqb_spec i j); congruence.
    - intros k Hk1 Hk2. rewrite !nth_error_seq_set by auto.
      destruct (Nat.eqb_spec k j), (Nat.eqb_spec k i); congruence. }
  split; [exact E|]. destruct E as (L & E1 & E2 & E3).
  apply Permutation_nth_error. split; [auto|].
  exists (fun k => if k =? i then j else if k =? j then i else k). split.
  - intros a b. destruct (Nat.eqb_spec a i), (Nat.eqb_spec b i), (Nat.eqb_spec a j), (Nat.eqb_spec b j); intros; subst; congruence.
  - intros k. destruct (Nat.eqb_spec k i); [now subst|]. destruct (Nat.eqb_spec k j); [now subst|]. auto.
Qed.

Section Heap.
  Context {T : Type}.
  Variable zero : T.
  Variable extra : nat -> nat -> nat.
  Variable cmp : T -> T -> ordering.
  Hypothesis TP : total_preorder cmp.
  Notation le := (le_by cmp).

  Lemma le_trans : forall a b c, le a b -> le b c -> le a c.
  Proof. intros a b c. apply (tp_trans _ TP). Qed.
  Lemma le_refl : forall a, le a a.
  Proof. intros a. unfold le_by. rewrite (tp_refl _ TP). discriminate. Qed.

  Definition le_at (d : list T) (i j : nat) : Prop :=
    forall x y, nth_error d i = Some x -> nth_error d j = Some y -> le x y.
  Definition heap (d : list T) : Prop := forall i, 0 < i -> le_at d i (par i).

  (** While sifting up: everything in order but the element at pos. *)
  Definition up_inv (d : list T) (pos : nat) : Prop :=
    (forall i, 0 < i -> i <> pos -> le_at d i (par i)) /\
    (forall c, 0 < c -> par c = pos -> 0 < pos -> le_at d c (par pos)).

  Lemma nth_error_lt : forall A (l : list A) i, i < length l -> exists x, nth_error l i = Some x.
  Proof. intros. destruct (nth_error l i) eqn:E; eauto. apply nth_error_None in E. lia. Qed.

  Lemma sift_up_loop_spec : forall fuel d elt pos, pos < fuel -> nth_error d pos = Some elt -> up_inv d pos ->
    exists d' pos', sift_up_loop cmp fuel d 0 elt pos = Ret (d', pos') /\ Permutation d d' /\ heap d'.
  Proof.
    induction fuel as [|fuel IH]; intros d elt pos Hf He [A B]; [lia|]. cbn [sift_up_loop].
    assert (Lp : pos < length d) by (apply nth_error_Some; congruence).
    destruct (Nat.ltb_spec 0 pos) as [Hp|Hp].
    - fold (par pos). pose proof (par_lt pos Hp) as Pl.
      destruct (nth_error_lt _ d (par pos)) as (y & Hy); [lia|].
      rewrite (idx_nth_error _ _ _ Hy). cbn [bind].
      assert (Done : le elt y -> exists d' pos', Ret (d, pos) = Ret (d', pos') /\ Permutation d d' /\ heap d').
      { intros Le. exists d, pos. split; [reflexivity|]. split; [reflexivity|]. intros i Hi.
        destruct (Nat.eq_dec i pos) as [->|N]; [|auto]. intros a b Ha Hb. congruence. }
      destruct (cmp elt y) eqn:C.
      + apply Done. unfold le_by. rewrite C. discriminate.
      + apply Done. unfold le_by. rewrite C. discriminate.
      + destruct (swap_data_exchanged T d pos (par pos) Lp) as (d' & E & (L & X1 & X2 & X3) & P); [lia|].
        rewrite E. cbn [bind].
        assert (Ge : le y elt) by (unfold le_by; rewrite (tp_flip _ TP elt y), C; discriminate).
        destruct (IH d' elt (par pos)) as (d2 & pos2 & E2 & P2 & H2).
        * lia.
        * congruence.
        * split.
          -- intros i Hi Hn a b Ha Hb. destruct (Nat.eq_dec i pos) as [->|Np].
             ++ rewrite X1 in Ha. rewrite X2 in Hb. congruence.
             ++ rewrite X3 in Ha by auto. destruct (Nat.eq_dec (par i) pos) as [Ep|Ep].
                ** rewrite Ep, X1 in Hb. eapply B; eauto.
                ** destruct (Nat.eq_dec (par i) (par pos)) as [Eq|Eq].
                   --- rewrite Eq, X2 in Hb. eapply le_trans; [eapply (A i Hi Np)|]; [eauto| rewrite Eq; eauto |]. congruence.
                   --- rewrite X3 in Hb by auto. eapply A; eauto.
          -- intros c Hc Ec Hpp a b Ha Hb. pose proof (par_lt (par pos) Hpp) as Pl2.
             rewrite X3 in Hb by lia.
             assert (Yb : le y b) by (eapply (A (par pos)); eauto; lia).
             destruct (Nat.eq_dec c pos) as [->|Np].
             ++ rewrite X1 in Ha. congruence.
             ++ rewrite X3 in Ha; [|auto|pose proof (par_lt c Hc); lia].
                eapply le_trans; [|exact Yb]. eapply (A c Hc Np); eauto. rewrite Ec. exact Hy.
        * exists d2, pos2. split; [exact E2|]. split; [now rewrite P | exact H2].
    - exists d, pos. split; [reflexivity|]. split; [reflexivity|].
      intros i Hi. apply A; lia.
  Qed.

  Lemma SiftUp_spec : forall d pos, pos < length d -> up_inv d pos ->
    exists d' pos', SiftUp cmp d 0 pos = Ret (d', pos') /\ Permutation d d' /\ heap d'.
  Proof.
    intros d pos L U. unfold SiftUp. destruct (nth_error_lt _ d pos L) as (x & Hx).
    rewrite (idx_nth_error _ _ _ Hx). cbn [bind]. apply sift_up_loop_spec; auto. lia.
  Qed.

  Lemma push_list : forall d x, heap d -> exists d' pos', SiftUp cmp (d ++ [x]) 0 (length d) = Ret (d', pos') /\
    Permutation (x :: d) d' /\ heap d'.
  Proof.
    intros d x H. destruct (SiftUp_spec (d ++ [x]) (length d)) as (d' & pos' & E & P & Hd).
    - rewrite app_length. cbn. lia.
    - split.
      + intros i Hi Hn a b Ha Hb.
        assert (Li : i < length d).
        { assert (i < length (d ++ [x])) by (apply nth_error_Some; congruence). rewrite app_length in *. cbn in *. lia. }
        pose proof (par_lt i Hi). rewrite nth_error_app1 in Ha, Hb by lia. eapply H; eauto.
      + intros c Hc Ec Hp a b Ha Hb. exfalso.
        assert (c < length (d ++ [x])) by (apply nth_error_Some; congruence). rewrite app_length in *. cbn [length] in *.
        pose proof (par_lt c Hc). lia.
    - exists d', pos'. split; [exact E|]. split; [|exact Hd]. rewrite <- P. apply Permutation_cons_append.
  Qed.

  Lemma HPush_spec : forall h x, heap (vec h) -> exists h',
    HPush extra cmp h x = Ret h' /\ Permutation (x :: vec h) (vec h') /\ heap (vec h') /\
    capacity h' = capacity (extend extra h [x]).
  Proof.
    intros h x H. unfold HPush. cbv zeta. destruct (push_list (vec h) x H) as (d' & p & E & P & Hd).
    unfold extend at 1. cbn [vec]. unfold HLen in *. rewrite E. cbn [bind fst].
    eexists. split; [reflexivity|]. cbn [vec capacity]. auto.
  Qed.

  (** While sifting down: the hole's children may be out of order with it. *)
  Definition down_inv (d : list T) (pos : nat) : Prop :=
    (forall i, 0 < i -> i <> pos -> par i <> pos -> le_at d i (par i)) /\
    (forall c, 0 < c -> par c = pos -> 0 < pos -> le_at d c (par pos)).

  (** Moving the hole to its greater child. *)
  Lemma down_move : forall d pos c d', down_inv d pos -> pos < length d -> c < length d -> 0 < c -> par c = pos ->
    (forall s, 0 < s -> s <> c -> par s = pos -> le_at d s c) ->
    exchanged d d' pos c -> down_inv d' c.
  Proof.
    intros d pos c d' [A B] Lp Lc Hc Pc Sib (L & X1 & X2 & X3).
    pose proof (par_lt c Hc) as Pl. split.
    - intros i Hi Hn Hp a b Ha Hb. destruct (Nat.eq_dec i pos) as [->|Np].
      + rewrite X1 in Ha. pose proof (par_lt pos Hi). rewrite X3 in Hb by lia. eapply (B c Hc Pc Hi); eauto.
      + rewrite X3 in Ha by auto. destruct (Nat.eq_dec (par i) pos) as [Ep|Ep].
        * rewrite Ep, X1 in Hb. eapply (Sib i); eauto.
        * rewrite X3 in Hb by auto. eapply A; eauto.
    - intros k Hk Pk _ a b Ha Hb. rewrite Pc, X1 in Hb.
      pose proof (par_lt k Hk). rewrite X3 in Ha by lia. eapply (A k Hk); eauto; [lia|lia|]. now rewrite Pk.
  Qed.

  Lemma sift_down_loop_spec : forall fuel d pos, length d < pos + fuel -> pos < length d -> down_inv d pos ->
    exists d' pos', sift_down_loop cmp fuel d (length d) pos (2 * pos + 1) = Ret (d', pos', 2 * pos' + 1) /\
      Permutation d d' /\ down_inv d' pos' /\ pos' < length d /\
      length d <= 2 * pos' + 2.
  Proof.
    induction fuel as [|fuel IH]; intros d pos Hf Lp D; [lia|]. cbn [sift_down_loop].
    destruct (Nat.leb_spec (2 * pos + 1) (length d - 2)) as [H|H].
    - destruct (Nat.le_gt_cases (length d) (2 * pos + 2)) as [Short|Long].
      { exfalso. lia. }
      destruct (nth_error_lt _ d (2 * pos + 1)) as (a & Ha); [lia|].
      destruct (nth_error_lt _ d (2 * pos + 1 + 1)) as (b & Hb); [lia|].
      rewrite (idx_nth_error _ _ _ Ha), (idx_nth_error _ _ _ Hb). cbn [bind].
      set (c := match cmp a b with Greater => 2 * pos + 1 | _ => 2 * pos + 1 + 1 end).
      assert (Hc : 0 < c /\ par c = pos /\ c < length d /\ pos < c /\ forall s, 0 < s -> s <> c -> par s = pos -> le_at d s c).
      { assert (Hc1 : c = 2 * pos + 1 /\ le b a \/ c = 2 * pos + 2 /\ le a b).
        { unfold c, le_by. rewrite (tp_flip _ TP a b). destruct (cmp a b); [right|right|left]; (split; [lia|cbn; discriminate]). }
        replace (2 * pos + 1 + 1) with (2 * pos + 2) in Hb by lia.
        destruct Hc1 as [[-> Le]|[-> Le]].
        - rewrite par_1. repeat split; try lia. intros s Hs Hn Ps x y Hx Hy.
          destruct (par_children s pos Hs Ps) as [->| ->]; [lia|]. congruence.
        - rewrite par_2. repeat split; try lia. intros s Hs Hn Ps x y Hx Hy.
          destruct (par_children s pos Hs Ps) as [->| ->]; [|lia]. congruence. }
      destruct Hc as (C0 & Cp & Cl & Cgt & Sib).
      destruct (swap_data_exchanged T d pos c Lp Cl) as (d' & E & X & P). rewrite E. cbn [bind].
      assert (D' : down_inv d' c) by (eapply (down_move d pos c d'); eauto).
      pose proof (Permutation_length P) as PL. rewrite PL.
      destruct (IH d' c) as (d2 & pos2 & E2 & P2 & D2 & L2 & S2); [lia|lia|auto|].
      exists d2, pos2. split; [exact E2|]. split; [now rewrite P|]. repeat split; auto; try apply D2; lia.
    - exists d, pos. split; [reflexivity|]. repeat split; auto; try apply D; lia.
  Qed.

  Lemma SiftDown_spec : forall d, 0 < length d -> (forall i, 0 < i -> par i <> 0 -> le_at d i (par i)) ->
    exists d', SiftDownToBottom cmp d 0 = Ret d' /\ Permutation d d' /\ heap d'.
  Proof.
    intros d L H. unfold SiftDownToBottom. destruct (nth_error_lt _ d 0 L) as (x & Hx).
    rewrite (idx_nth_error _ _ _ Hx). cbn [bind].
    destruct (sift_down_loop_spec (length d + 1) d 0) as (d1 & pos & E1 & P1 & D1 & L1 & S1).
    - lia.
    - exact L.
    - split; [intros; apply H; auto | intros; lia].
    - rewrite E1. cbn [bind].
      pose proof (Permutation_length P1) as PL.
      (* the last move, if there is exactly one child *)
      assert (Q : exists d2 pos2, (if 2 * pos + 1 =? length d - 1 then d' <- swap_data d1 pos (2 * pos + 1);; Ret (d', 2 * pos + 1) else Ret (d1, pos)) = Ret (d2, pos2)
                  /\ Permutation d1 d2 /\ down_inv d2 pos2 /\ pos2 < length d /\ length d <= 2 * pos2 + 1).
      { destruct (Nat.eqb_spec (2 * pos + 1) (length d - 1)) as [E|E].
        - destruct (swap_data_exchanged T d1 pos (2 * pos + 1)) as (d2 & E2 & X & P2); [lia|lia|].
          rewrite E2. cbn [bind]. exists d2, (2 * pos + 1). split; [reflexivity|]. split; [exact P2|].
          split; [|lia]. eapply (down_move d1 pos (2 * pos + 1) d2); eauto; try lia; [apply par_1|].
          intros s Hs Hn Ps a b Ha Hb. destruct (par_children s pos Hs Ps) as [->| ->]; [lia|].
          assert (2 * pos + 2 < length d1) by (apply nth_error_Some; congruence). lia.
        - exists d1, pos. split; [reflexivity|]. split; [reflexivity|]. split; [exact D1|]. lia. }
      destruct Q as (d2 & pos2 & E2 & P2 & [A B] & L2 & S2). rewrite E2. cbn [bind].
      pose proof (Permutation_length P2) as PL2.
      destruct (SiftUp_spec d2 pos2) as (d3 & pos3 & E3 & P3 & H3); [lia| |].
      + split; [|exact B]. intros i Hi Hn a b Ha Hb. destruct (Nat.eq_dec (par i) pos2) as [Ep|Ep].
        * assert (i < length d2) by (apply nth_error_Some; congruence).
          destruct (par_children i pos2 Hi Ep); lia.
        * eapply A; eauto.
      + rewrite E3. cbn [bind fst]. exists d3. split; [reflexivity|]. split; [|exact H3]. now rewrite P1, P2.
  Qed.

  Lemma heap_root : forall d x, heap d -> nth_error d 0 = Some x -> forall y, In y d -> le y x.
  Proof.
    intros d x H Hx.
    assert (G : forall n i, i < n -> forall y, nth_error d i = Some y -> le y x).
    { induction n; intros i Hi y Hy; [lia|]. destruct (Nat.eq_dec i 0) as [->|N].
      - assert (y = x) by congruence. subst. apply le_refl.
      - assert (Hi0 : 0 < i) by lia. pose proof (par_lt i Hi0).
        assert (i < length d) by (apply nth_error_Some; congruence).
        destruct (nth_error_lt _ d (par i)) as (z & Hz); [lia|].
        eapply le_trans; [apply (H i Hi0); eauto|]. apply (IHn (par i)); auto. lia. }
    intros y Hy. apply In_nth_error in Hy. destruct Hy as (i & Hi). eapply (G (S i) i); eauto.
  Qed.

  Lemma HPop_spec : forall h, heap (vec h) ->
    match vec h with
    | [] => HPop cmp h = Ret (h, None)
    | _ => exists h' x, HPop cmp h = Ret (h', Some x) /\ Permutation (vec h) (x :: vec h') /\
             greatest cmp (vec h) x /\ heap (vec h') /\ capacity h' = capacity h
    end.
  Proof.
    intros [d c] H. cbn [vec] in *. unfold HPop, HLen. cbn [vec capacity].
    destruct d as [|x0 r] eqn:Ed; [reflexivity|]. rewrite <- Ed in *.
    set (n := length d). assert (Ln : 0 < n) by (unfold n; rewrite Ed; cbn; lia).
    destruct (nth_error_lt _ d (n - 1)) as (item & Hi); [unfold n in *; lia|].
    rewrite (idx_nth_error _ _ _ Hi). cbn [bind].
    assert (Fl : length (firstn (n - 1) d) = n - 1) by (rewrite firstn_length; unfold n; lia).
    assert (Dd : d = firstn (n - 1) d ++ [item]).
    { pose proof (firstn_S _ d (n - 1) item Hi) as F. replace (S (n - 1)) with n in F by lia.
      rewrite <- F. unfold n. symmetry. apply firstn_all. }
    cbv zeta. rewrite Fl. destruct (Nat.eqb_spec (n - 1) 0) as [E|E]; cbn [negb].
    - exists (mkHeap (firstn (n - 1) d) c), item. split; [reflexivity|]. cbn [vec capacity].
      assert (F0 : firstn (n - 1) d = []) by (rewrite E; reflexivity). rewrite F0 in *. cbn [app] in Dd.
      split; [rewrite Dd; reflexivity|]. split; [|split; [|reflexivity]].
      + rewrite Dd. split; [now left|]. intros y [->|[]]. apply le_refl.
      + intros i Hi0 a b Ha. destruct i; discriminate.
    - set (rest := firstn (n - 1) d) in *.
      destruct (nth_error_lt _ rest 0) as (top & Ht); [lia|].
      rewrite (idx_nth_error _ _ _ Ht). cbn [bind].
      rewrite upd_Ret by lia. cbn [bind].
      assert (Htd : nth_error d 0 = Some top).
      { rewrite Dd, nth_error_app1 by lia. exact Ht. }
      assert (Hr : rest = top :: skipn 1 rest).
      { destruct rest; [discriminate|]. cbn in *. congruence. }
      assert (Hs : list_set rest 0 item = item :: skipn 1 rest) by (rewrite Hr; reflexivity).
      destruct (SiftDown_spec (list_set rest 0 item)) as (d' & Es & P & Hd).
      + rewrite list_set_length. lia.
      + intros i Hi0 Hp a b Ha Hb. pose proof (par_lt i Hi0).
        rewrite nth_error_list_set_neq in Ha, Hb by lia.
        eapply (H i Hi0).
        * rewrite Dd, nth_error_app1; [exact Ha|]. apply nth_error_Some. congruence.
        * rewrite Dd, nth_error_app1; [exact Hb|]. apply nth_error_Some. congruence.
      + rewrite Es. cbn [bind]. exists (mkHeap d' c), top. split; [reflexivity|]. cbn [vec capacity].
        split; [|split; [|split; [exact Hd | reflexivity]]].
        * rewrite <- P, Hs. rewrite Dd at 1. rewrite Hr at 1. cbn [app]. constructor.
          symmetry. apply Permutation_cons_append.
        * split; [eapply nth_error_In; eauto|]. intros y Hy. apply (heap_root d top H Htd y Hy).
  Qed.

  (** A heap pops its elements in descending order. *)
  Lemma sorted_loop_spec : forall fuel h pre post, heap (vec h) -> HLen h < fuel ->
    length pre = HLen h -> ascending cmp post -> (forall x y, In x (vec h) -> In y post -> le x y) ->
    exists h' l, sorted_loop cmp fuel h (pre ++ post) (Z.of_nat (HLen h) - 1)%Z = Ret (h', l) /\
      vec h' = [] /\ Permutation (vec h ++ post) l /\ ascending cmp l.
  Proof.
    induction fuel as [|fuel IH]; intros h pre post H Hf Lp A Le; [lia|]. cbn [sorted_loop].
    pose proof (HPop_spec h H) as P. unfold HIsEmpty.
    destruct (vec h) as [|x0 r] eqn:Ev.
    - assert (L0 : HLen h = 0) by (unfold HLen; rewrite Ev; reflexivity). rewrite L0 in *. cbn [Nat.eqb negb].
      exists h, (pre ++ post). destruct pre; [|discriminate]. cbn [app]. repeat split; auto.
    - assert (L0 : HLen h = S (length r)) by (unfold HLen; rewrite Ev; reflexivity).
      destruct (Nat.eqb_spec (HLen h) 0); [lia|]. cbn [negb].
      destruct P as (h' & x & E & P & [Gx Gall] & Hh' & _). rewrite E. cbn [bind fst snd of_option].
      destruct (Z.ltb_spec (Z.of_nat (HLen h) - 1) 0); [lia|].
      replace (Z.to_nat (Z.of_nat (HLen h) - 1)) with (HLen h - 1) by lia.
      rewrite upd_Ret by (rewrite app_length; lia). cbn [bind].
      assert (Lh' : HLen h' = HLen h - 1).
      { apply Permutation_length in P. rewrite L0. cbn [length] in P. unfold HLen. lia. }
      assert (Lset : list_set (pre ++ post) (HLen h - 1) x = firstn (HLen h - 1) pre ++ (x :: post)).
      { rewrite list_set_firstn_skipn by (rewrite app_length; lia).
        rewrite firstn_app, skipn_app. replace (HLen h - 1 - length pre) with 0 by lia.
        replace (S (HLen h - 1)) with (HLen h) by lia. replace (HLen h - length pre) with 0 by lia.
        rewrite firstn_O, app_nil_r. rewrite (skipn_all2 pre) by lia. reflexivity. }
      rewrite Lset. replace (Z.of_nat (HLen h) - 1 - 1)%Z with (Z.of_nat (HLen h') - 1)%Z by lia.
      destruct (IH h' (firstn (HLen h - 1) pre) (x :: post)) as (h2 & l & E2 & V2 & P2 & A2); auto.
      + lia.
      + rewrite firstn_length. lia.
      + constructor; [exact A|]. apply Forall_forall. intros y Hy. apply Le; auto.
      + intros a b Ha [<-|Hb].
        * apply Gall. eapply Permutation_in; [symmetry; exact P | now right].
        * apply Le; auto. eapply Permutation_in; [symmetry; exact P | now right].
      + exists h2, l. split; [exact E2|]. split; [exact V2|]. split; [|exact A2].
        rewrite <- P2, P. cbn [app]. apply Permutation_middle.
  Qed.

  Lemma push_all : forall l h, heap (vec h) -> exists h', oloop (HPush extra cmp) l h = Ret h' /\
    Permutation (vec h ++ l) (vec h') /\ heap (vec h').
  Proof.
    induction l as [|x l IH]; intros h H; cbn [oloop].
    - exists h. rewrite app_nil_r. auto.
    - destruct (HPush_spec h x H) as (h1 & E & P & H1 & _). rewrite E. cbn [bind].
      destruct (IH h1 H1) as (h2 & E2 & P2 & H2). exists h2. split; [exact E2|]. split; [|exact H2].
      rewrite <- P2, <- P. symmetry. cbn [app]. apply Permutation_middle.
  Qed.

  (** Without any order or heap assumption a push still only rearranges. *)
  Lemma sift_up_loop_perm : forall (c : T -> T -> ordering) fuel d elt pos start, pos < fuel -> pos < length d ->
    exists d' pos', sift_up_loop c fuel d start elt pos = Ret (d', pos') /\ Permutation d d'.
  Proof.
    clear TP. intros c. induction fuel as [|fuel IH]; intros d elt pos start Hf Lp; [lia|]. cbn [sift_up_loop].
    destruct (Nat.ltb_spec start pos) as [Hp|Hp]; [|exists d, pos; split; reflexivity].
    fold (par pos). assert (Pl : par pos < pos) by (apply par_lt; lia).
    destruct (nth_error_lt _ d (par pos)) as (y & Hy); [lia|].
    rewrite (idx_nth_error _ _ _ Hy). cbn [bind].
    destruct (c elt y); try (exists d, pos; split; reflexivity).
    destruct (swap_data_exchanged T d pos (par pos) Lp) as (d' & E & X & P); [lia|].
    rewrite E. cbn [bind]. pose proof (Permutation_length P).
    destruct (IH d' elt (par pos) start) as (d2 & p2 & E2 & P2); [lia|lia|].
    exists d2, p2. split; [exact E2 | now rewrite P].
  Qed.
  Lemma push_all_perm : forall (c : T -> T -> ordering) l h, exists h', oloop (HPush extra c) l h = Ret h' /\
    Permutation (vec h ++ l) (vec h').
  Proof.
    clear TP. intros c. induction l as [|x l IH]; intros h; cbn [oloop].
    - exists h. rewrite app_nil_r. split; reflexivity.
    - unfold HPush at 1. cbv zeta. unfold SiftUp, extend, HLen. cbn [vec capacity].
      assert (Hx : nth_error (vec h ++ [x]) (length (vec h)) = Some x).
      { rewrite nth_error_app2 by lia. now rewrite Nat.sub_diag. }
      rewrite (idx_nth_error _ _ _ Hx). cbn [bind].
      destruct (sift_up_loop_perm c (length (vec h) + 1) (vec h ++ [x]) x (length (vec h)) 0) as (d' & p' & E & P);
        [lia | rewrite app_length; cbn; lia |].
      rewrite E. cbn [bind fst]. match goal with |- context [oloop _ l ?h1] => destruct (IH h1) as (h2 & E2 & P2) end.
      exists h2. split; [exact E2|]. rewrite <- P2. cbn [vec]. rewrite <- P, <- app_assoc. reflexivity.
  Qed.
End Heap.
