(** VecProps.v -- properties C33 to C39 of Vec. *)
From Coq Require Import Permutation Sorted.
From Verif Require Import Base BaseLemmas Effect CmpSpec VecModel VecSpec VecHistory VecProofs VecSortProofs.

(** *** C33: a vector is a sequence *)

(** Whatever the program does with any number of vectors, what it sees is what the
    list specification gives; it panics exactly when the specification says so, and
    every call returns or panics. *)
Theorem C33_history : forall (T : Type) (zero : T) extra eqb deq clone ops,
  observed (run zero extra eqb deq clone ([], []) ops) = history zero eqb deq clone [] ops
  /\ run zero extra eqb deq clone ([], []) ops <> Diverge.
Proof.
  intros. pose proof (run_history zero extra eqb deq clone ops ([], [])) as H.
  assert (S : separate (T := T) ([], [])) by (split; constructor). specialize (H S).
  change (view ([], [])) with (@nil (list T)) in H.
  destruct (history zero eqb deq clone [] ops) as [[s l]|].
  - destruct H as (w & E & _ & V). rewrite E. split; [cbn; now rewrite V | discriminate].
  - rewrite H. split; [reflexivity | discriminate].
Qed.
Print Assumptions C33_history.

(** A run with a growth in the middle, insertion, removal and a panicking index. *)
Example C33_history_nonvacuous :
  let run := run 0%Z (fun _ n => n) Z.eqb Z.eqb (fun x => x) ([], []) in
  observed (run [ONew; OPush 0 7%Z; OPush 0 8%Z; OInsert 0 1 9%Z; OClone 0; OSet 0 0 1%Z; OPop 0; OGet 1 0; OAppend 1 0; OReverse 1; OLen 0])
  = Some ([[]; [9; 1; 8; 9; 7]]%Z, [Done; Done; Done; Done; Done; Value None; Value (Some 8%Z); Value (Some 7%Z); Done; Done; Number 0])
  /\ observed (run [ONew; OPush 0 7%Z; OInsert 0 2 9%Z]) = None.
Proof. vm_compute. split; reflexivity. Qed.

(** When exactly each indexed method panics. *)
Theorem C33_panics : forall (T : Type) (zero : T) extra (m : mem T) v i j x, valid m v ->
  (Insert zero extra m v i x = Panic <-> Len v < i) /\
  (GetUnchecked m v i = Panic <-> Len v <= i) /\
  (Set_ m v i x = Panic <-> Len v <= i) /\
  (SetUnchecked m v i x = Panic <-> Len v <= i) /\
  (Swap m v i j = Panic <-> Len v <= i \/ Len v <= j) /\
  returns (Get m v i) /\ returns (Pop m v).
Proof.
  intros T zero extra m v i j x V. pose proof (contents_length m v V) as CL. unfold Len.
  assert (U : forall d : list T, bind (upd d i x) (fun d => Ret (store m v d)) = Panic <-> length d <= i).
  { intros d. unfold upd. destruct (Nat.ltb_spec i (length d)); cbn [bind]; split; intros; try lia; try discriminate; reflexivity. }
  assert (I : forall k, idx (contents m v) k = Panic <-> slen v <= k).
  { intros k. unfold idx. destruct (nth_error (contents m v) k) eqn:E; cbn [of_option].
    - assert (k < length (contents m v)) by (apply nth_error_Some; congruence). split; [discriminate | lia].
    - apply nth_error_None in E. split; [lia | reflexivity]. }
  split; [|split; [|split; [|split; [|split; [|split]]]]].
  - unfold Insert. pose proof (append_spec zero extra m v [x] V) as A. destruct (append zero extra m v [x]) as [m1 v1].
    destruct A as (_ & C & _). unfold in_place. rewrite C. destruct (Nat.le_gt_cases i (slen v)).
    + rewrite insert_data by lia. cbn [bind]. split; [discriminate | lia].
    + rewrite insert_data_panic by lia. cbn [bind]. split; [lia | reflexivity].
  - apply I.
  - unfold Set_, Len. destruct (Nat.leb_spec (slen v) i).
    + split; [auto|]. intros _. rewrite (proj2 (I i)) by auto. reflexivity.
    + unfold in_place. rewrite upd_seq_set by lia. cbn [bind]. split; [discriminate | lia].
  - unfold SetUnchecked, in_place. rewrite U, CL. reflexivity.
  - unfold Swap, in_place. destruct (nth_error (contents m v) i) as [a|] eqn:Hi.
    + destruct (nth_error (contents m v) j) as [b|] eqn:Hj.
      * rewrite (swap_data_spec _ _ _ _ _ Hi Hj). cbn [bind].
        assert (i < length (contents m v)) by (apply nth_error_Some; congruence).
        assert (j < length (contents m v)) by (apply nth_error_Some; congruence).
        split; [discriminate | lia].
      * rewrite swap_data_panic by auto. apply nth_error_None in Hj. split; [lia | reflexivity].
    + rewrite swap_data_panic by auto. apply nth_error_None in Hi. split; [lia | reflexivity].
  - unfold Get, Len. destruct (Nat.leb_spec (slen v) i); [eexists; reflexivity|].
    destruct (nth_error (contents m v) i) eqn:E; [|apply nth_error_None in E; lia].
    rewrite (idx_nth_error _ _ _ E). eexists; reflexivity.
  - unfold Pop. destruct (Nat.eqb_spec (slen v) 0); [eexists; reflexivity|].
    destruct (nth_error (contents m v) (slen v - 1)) eqn:E; [|apply nth_error_None in E; lia].
    rewrite (idx_nth_error _ _ _ E). eexists; reflexivity.
Qed.
Print Assumptions C33_panics.
Example C33_panics_nonvacuous : exists v, let m := [[1; 2; 3]%Z] in valid m v /\ Len v = 2 /\ contents m v = [1; 2]%Z.
Proof. exists (mkSlice 0 2). unfold valid. cbn. repeat split; lia. Qed.

(** The text of a vector. *)
Theorem C33_display : forall (T : Type) (display : T -> list Z) m v, valid m v ->
  Display (Some display) m v = Ret ([86; 101; 99; 91]%Z ++ comma_separated (map display (contents m v)) ++ [93]%Z).
Proof.
  intros T display m v V. unfold Display. rewrite display_loop_spec by (now apply contents_length).
  cbn [bind]. now rewrite <- app_assoc.
Qed.
Print Assumptions C33_display.
Theorem C33_display_missing : forall (T : Type) (m : mem T) v, valid m v ->
  Display None m v = if IsEmpty v then Ret [86; 101; 99; 91; 93]%Z else Panic.
Proof.
  intros T m v V. pose proof (contents_length m v V). unfold Display, IsEmpty, Len.
  destruct (contents m v); cbn [length] in *; rewrite <- H; reflexivity.
Qed.
Print Assumptions C33_display_missing.
Example C33_display_nonvacuous :
  Display (Some (fun d : Z => [48 + d]%Z)) [[1; 2]%Z] (mkSlice 0 2) = Ret [86; 101; 99; 91; 49; 44; 32; 50; 93]%Z.
Proof. reflexivity. Qed.

(** *** C34: Reserve *)

(** Exactly what Reserve does. *)
Theorem C34_characterised : forall (T : Type) (zero : T) extra m v n, valid m v -> (0 <= n < 2 ^ 64)%Z ->
  let total := ((Z.of_nat (Len v) + n) mod 2 ^ 64)%Z in
  ((total <= Z.of_nat (Capacity m v))%Z -> Reserve zero extra m v n = Ret (m, v)) /\
  ((Z.of_nat (Capacity m v) < total)%Z -> (2 ^ 63 <= n)%Z -> Reserve zero extra m v n = Panic) /\
  ((Z.of_nat (Capacity m v) < total)%Z -> (n < 2 ^ 63)%Z -> exists m' v',
     Reserve zero extra m v n = Ret (m', v') /\
     contents m' v' = contents m v ++ repeat zero (Z.to_nat n) /\
     (Z.of_nat (Len v') = Z.of_nat (Len v) + n)%Z /\ (Z.of_nat (Len v) + n <= Z.of_nat (Capacity m' v'))%Z).
Proof.
  intros T zero extra m v n V Hn total. unfold Reserve. fold total.
  split; [|split].
  - intros H. destruct (Z.ltb_spec (Z.of_nat (Capacity m v)) total); [lia | reflexivity].
  - intros H H1. destruct (Z.ltb_spec (Z.of_nat (Capacity m v)) total); [|lia].
    destruct (Z.leb_spec (2 ^ 63) n); [reflexivity | lia].
  - intros H H1. destruct (Z.ltb_spec (Z.of_nat (Capacity m v)) total); [|lia].
    destruct (Z.leb_spec (2 ^ 63) n); [lia|].
    pose proof (append_spec zero extra m v (repeat zero (Z.to_nat n)) V) as A.
    destruct (append zero extra m v (repeat zero (Z.to_nat n))) as [m' v']. destruct A as ((V' & _) & C & L).
    rewrite repeat_length in L. exists m', v'. unfold Len, Capacity. destruct V' as [_ V'].
    split; [reflexivity|]. split; [exact C|]. lia.
Qed.
Print Assumptions C34_characterised.

(** The property fails: reserving space on an empty vector makes it longer. *)
Theorem C34_reserve_refuted : forall extra, exists m' v',
  let (m, v) := VecNew 0%Z [] in
  Reserve 0%Z extra m v 10 = Ret (m', v') /\ Len v = 0 /\ Len v' = 10 /\ contents m' v' <> contents m v.
Proof. intros. eexists; eexists. cbn. repeat split; discriminate. Qed.
Print Assumptions C34_reserve_refuted.

(** It also fails the capacity guarantee when len + additional wraps. *)
Theorem C34_overflow_refuted : forall extra m v, valid m v -> Len v = 1 ->
  Reserve 0%Z extra m v (2 ^ 64 - 1) = Ret (m, v).
Proof.
  intros extra m v V L. apply (C34_characterised Z 0%Z extra m v (2 ^ 64 - 1) V ltac:(lia)).
  rewrite L. change ((Z.of_nat 1 + (2 ^ 64 - 1)) mod 2 ^ 64)%Z with 0%Z. lia.
Qed.
Print Assumptions C34_overflow_refuted.

(** What does hold: nothing changes if the capacity already suffices; and if the
    sum does not overflow, a call that returns leaves capacity for len + additional
    and the old elements as a prefix. *)
Theorem C34_reserve_partial : forall (T : Type) (zero : T) extra m v n m' v', valid m v -> (0 <= n)%Z ->
  (Z.of_nat (Len v) + n < 2 ^ 64)%Z ->
  Reserve zero extra m v n = Ret (m', v') ->
  (Z.of_nat (Len v) + n <= Z.of_nat (Capacity m' v'))%Z /\
  firstn (Len v) (contents m' v') = contents m v /\
  ((Z.of_nat (Len v) + n <= Z.of_nat (Capacity m v))%Z -> (m', v') = (m, v)).
Proof.
  intros T zero extra m v n m' v' V Hn Ho E.
  destruct (C34_characterised T zero extra m v n V ltac:(lia)) as (A & B & C).
  rewrite Z.mod_small in * by lia. pose proof (contents_length m v V) as CL. unfold Len in *.
  destruct (Z.le_gt_cases (Z.of_nat (slen v) + n) (Z.of_nat (Capacity m v))).
  - rewrite A in E by auto. inversion E; subst. split; [auto|]. split; [rewrite <- CL at 1; apply firstn_all | auto].
  - destruct (Z.le_gt_cases (2 ^ 63) n); [rewrite B in E by (auto; lia); discriminate|].
    destruct C as (m1 & v1 & E1 & C1 & L1 & L2); [lia|auto|]. rewrite E in E1. inversion E1; subst m1 v1.
    split; [auto|]. split; [|lia]. rewrite C1. apply firstn_exact. auto.
Qed.
Print Assumptions C34_reserve_partial.
Example C34_nonvacuous : exists m v, valid m v /\ Len v = 1 /\ (* capacity 3 *)
  Reserve 0%Z (fun _ _ => 0) m v 2 = Ret (m, v).
Proof. exists [[5; 0; 0]%Z], (mkSlice 0 1). split; [split; cbn; lia|]. split; reflexivity. Qed.

(** *** C35: Retain, Dedup, DedupByKey, Reverse, Fill, FillWith, Swap *)
Theorem C35_retain : forall (T : Type) (zero : T) extra m v p, valid m v ->
  let (m', v') := Retain zero extra m v p in contents m' v' = filter p (contents m v).
Proof. intros T zero extra m v p V. pose proof (Retain_spec zero extra m v p V) as H. destruct (Retain zero extra m v p). apply H. Qed.
Print Assumptions C35_retain.

(** Dedup drops each element equal to the last one kept; for an equivalence this
    leaves no equal neighbours. *)
Theorem C35_dedup : forall (T : Type) (deq : T -> T -> bool) m v, valid m v -> exists m' v',
  Dedup deq m v = Ret (m', v') /\ contents m' v' = dedup deq (contents m v) /\ no_repeats deq (contents m' v').
Proof.
  intros T deq m v V. 
  assert (Q : exists m' v', Dedup deq m v = Ret (m', v') /\ contents m' v' = dedup deq (contents m v)).
  { unfold Dedup. pose proof (contents_length m v V) as CL. destruct (Nat.leb_spec (slen v) 1) as [E|E].
    - exists m, v. split; [reflexivity|]. destruct (contents m v) as [|y [|z r]]; cbn [length] in CL; try reflexivity. lia.
    - destruct (contents m v) as [|x l] eqn:Ec; [cbn in CL; lia|].
      destruct (dedup_data_spec deq x l) as (e & E1 & E2 & E3). rewrite E1. cbn [bind fst snd]. cbn [length] in CL.
      eexists. eexists. split; [reflexivity|].
      assert (Lk : length (dedup_after deq x l) + 1 <= slen v).
      { rewrite <- CL. clear. revert x. induction l; intros; cbn; [lia|]. destruct (deq x a); [specialize (IHl x)|specialize (IHl a)]; cbn; lia. }
      rewrite reslice_store_contents by (auto; lia). rewrite Nat.add_1_r. exact E3. }
  destruct Q as (m' & v' & E & C). exists m', v'. split; [auto|]. split; [auto|]. rewrite C.
  assert (A : forall l k i x y, nth_error (k :: dedup_after deq k l) i = Some x -> nth_error (k :: dedup_after deq k l) (S i) = Some y -> deq x y = false).
  { induction l as [|z l IH]; intros k i x y Hx Hy; cbn [dedup_after] in *.
    - destruct i; discriminate.
    - destruct (deq k z) eqn:Ez; [eapply IH; eauto|]. destruct i; cbn in *.
      + inversion Hx; inversion Hy; subst. auto.
      + eapply IH; eauto. }
  destruct (contents m v) as [|k l]; [intros i x y Hx; destruct i; discriminate|].
  intros i x y. apply A.
Qed.
Print Assumptions C35_dedup.
(** Nothing is dropped but an element equal to the one before it. *)
Theorem C35_dedup_keeps_distinct : forall (T : Type) (deq : T -> T -> bool) l,
  no_repeats deq l -> dedup deq l = l.
Proof.
  intros T deq [|x l] H; [reflexivity|]. cbn. f_equal. revert x H.
  induction l as [|y l IH]; intros x H; cbn; [reflexivity|].
  rewrite (H 0 x y eq_refl eq_refl). f_equal. apply IH. intros i a b Ha Hb. apply (H (S i)); auto.
Qed.
Print Assumptions C35_dedup_keeps_distinct.

(** DedupByKey keeps the first element of every key, adjacent or not. *)
Theorem C35_dedup_by_key_characterised : forall (T K : Type) (zero : T) extra (keq : K -> K -> bool) m v key,
  valid m v -> (forall a b, keq a b = keq b a) -> (forall a b c, keq a b = true -> keq b c = true -> keq a c = true) ->
  let (m', v') := DedupByKey zero extra keq m v key in
  contents m' v' = keep_first (fun a b => keq (key a) (key b)) (contents m v).
Proof.
  intros T K zero extra keq m v key V S Tr. pose proof (DedupByKey_spec zero extra K keq m v key V) as H.
  destruct (DedupByKey zero extra keq m v key). now apply H.
Qed.
Print Assumptions C35_dedup_by_key_characterised.
(** So the documented behaviour (only consecutive elements are removed) fails. *)
Theorem C35_dedup_by_key_refuted : forall extra, exists m v, valid m v /\
  contents m v = [1; 2; 1]%Z /\
  (let (m', v') := DedupByKey 0%Z extra Z.eqb m v (fun x => x) in contents m' v' = [1; 2]%Z) /\
  dedup Z.eqb (contents m v) = [1; 2; 1]%Z.
Proof.
  intros extra. exists [[1; 2; 1]%Z], (mkSlice 0 3). split; [split; cbn; lia|]. split; [reflexivity|]. split; reflexivity.
Qed.
Print Assumptions C35_dedup_by_key_refuted.
(** It is right when equal keys are already adjacent (for instance after a sort). *)
Theorem C35_dedup_by_key_partial : forall (T K : Type) (zero : T) extra (keq : K -> K -> bool) m v key,
  valid m v -> (forall a, keq a a = true) -> (forall a b, keq a b = keq b a) -> (forall a b c, keq a b = true -> keq b c = true -> keq a c = true) ->
  (forall i j k x y z, i < j < k -> nth_error (contents m v) i = Some x -> nth_error (contents m v) j = Some y ->
     nth_error (contents m v) k = Some z -> keq (key x) (key z) = true -> keq (key x) (key y) = true) ->
  let (m', v') := DedupByKey zero extra keq m v key in
  contents m' v' = dedup (fun a b => keq (key a) (key b)) (contents m v).
Proof.
  intros T K zero extra keq m v key V R S Tr G. pose proof (C35_dedup_by_key_characterised T K zero extra keq m v key V S Tr) as H.
  destruct (DedupByKey zero extra keq m v key) as [m' v']. rewrite H. clear H.
  set (same := fun a b => keq (key a) (key b)).
  assert (Main : forall l x, (forall i j k a b c, i < j < k -> nth_error (x :: l) i = Some a -> nth_error (x :: l) j = Some b ->
     nth_error (x :: l) k = Some c -> same a c = true -> same a b = true) ->
     dedup_after same x l = filter (fun y => negb (same x y)) (keep_first same l)).
  { clear G. induction l as [|y l IH]; intros x G; cbn [dedup_after keep_first]; [reflexivity|].
    cbn [filter]. destruct (same x y) eqn:E; cbn [negb].
    - rewrite (IH x).
      + clear IH G. induction (keep_first same l) as [|z r IHr]; [reflexivity|]. cbn [filter].
        assert (Q : same y z = same x z).
        { destruct (same y z) eqn:A, (same x z) eqn:B; try reflexivity; unfold same in *; exfalso.
          - rewrite (Tr _ _ _ E A) in B. discriminate.
          - rewrite S in E. rewrite (Tr _ _ _ E B) in A. discriminate. }
        rewrite Q. destruct (same x z) eqn:B; cbn [negb]; [exact IHr|]. cbn [filter]. rewrite B. cbn [negb]. f_equal. exact IHr.
      + intros i j k a b c Hijk Ha Hb Hc. 
        (* drop y: positions 0,1.. of x::l map to 0,2.. of x::y::l *)
        set (up := fun n => match n with 0 => 0 | Datatypes.S n => Datatypes.S (Datatypes.S n) end).
        assert (U : forall n t, nth_error (x :: l) n = Some t -> nth_error (x :: y :: l) (up n) = Some t) by (intros [|n] t Ht; exact Ht).
        apply (G (up i) (up j) (up k)); auto. unfold up. destruct i, j, k; lia.
    - f_equal. rewrite (IH y) by (intros i j k a b c Hijk Ha Hb Hc; apply (G (Datatypes.S i) (Datatypes.S j) (Datatypes.S k)); auto; lia).
      assert (N : forall z, In z l -> same x z = false).
      { intros z Hz. apply In_nth_error in Hz. destruct Hz as (k & Hk).
        destruct (same x z) eqn:Q; [|reflexivity]. rewrite (G 0 1 (Datatypes.S (Datatypes.S k)) x y z) in E; auto. lia. }
      assert (I : forall z, In z (keep_first same l) -> In z l).
      { clear. induction l as [|a l IH]; cbn; [auto|]. intros z [->|Hz]; [auto|]. apply filter_In in Hz. right. apply IH, Hz. }
      assert (N' : forall z, In z (keep_first same l) -> same x z = false) by auto.
      clear - N'. induction (keep_first same l) as [|z r IHr]; [reflexivity|]. cbn [filter].
      destruct (negb (same y z)); cbn [filter]; [rewrite N' by (now left); cbn [negb]; f_equal|]; apply IHr; intros; apply N'; now right. }
  destruct (contents m v) as [|x l]; [reflexivity|]. cbn [keep_first dedup]. f_equal. symmetry. apply Main. exact G.
Qed.
Print Assumptions C35_dedup_by_key_partial.

Theorem C35_reverse_fill_swap : forall (T : Type) m v i j x y (a : T), valid m v ->
  (exists m', Reverse m v = Ret m' /\ contents m' v = rev (contents m v)) /\
  (exists m', Fill m v a = Ret m' /\ contents m' v = repeat a (Len v)) /\
  (nth_error (contents m v) i = Some x -> nth_error (contents m v) j = Some y ->
     exists m', Swap m v i j = Ret m' /\ exchanged (contents m v) (contents m' v) i j).
Proof.
  intros T m v i j x y a V. pose proof (contents_length m v V) as CL. split; [|split].
  - destruct (in_place_Ret m v reverse_data (rev (contents m v)) V) as (m2 & E2 & _ & C2);
      [apply reverse_data_spec | rewrite rev_length; auto | eauto].
  - destruct (in_place_Ret m v (fill_data a) (map (fun _ => a) (contents m v)) V) as (m2 & E2 & _ & C2);
      [apply fill_data_spec | rewrite map_length; auto |]. exists m2. split; [exact E2|]. rewrite C2. unfold Len. rewrite <- CL.
    clear. induction (contents m v); cbn; congruence.
  - intros Hi Hj.
    assert (Li : i < length (contents m v)) by (apply nth_error_Some; congruence).
    assert (Lj : j < length (contents m v)) by (apply nth_error_Some; congruence).
    assert (L2 : j < length (seq_set (contents m v) i y)) by (rewrite seq_set_length; auto).
    destruct (in_place_Ret m v (fun d => swap_data d i j) (seq_set (seq_set (contents m v) i y) j x) V) as (m2 & E2 & _ & C2);
      [now apply swap_data_spec | rewrite !seq_set_length; auto |].
    exists m2. split; [exact E2|]. rewrite C2. unfold exchanged.
    rewrite !nth_error_seq_set by auto. rewrite !seq_set_length by auto. rewrite !Nat.eqb_refl.
    split; [reflexivity|]. split; [|split; [congruence|]].
    + destruct (Nat.eqb_spec i j); congruence.
    + intros k Hk1 Hk2. rewrite !nth_error_seq_set by auto.
      destruct (Nat.eqb_spec k j), (Nat.eqb_spec k i); congruence.
Qed.
Print Assumptions C35_reverse_fill_swap.

(** FillWith calls the closure once per element, in order, and stores the results;
    a panic of the closure is passed on. *)
Fixpoint calls {S T} (f : M S T) (n : nat) : M S (list T) :=
  match n with
  | O => mret []
  | Datatypes.S n' => x <~ f ;; r <~ calls f n' ;; mret (x :: r)
  end.
Theorem C35_fill_with : forall (T S : Type) m v (f : M S T) s, valid m v ->
  match calls f (Len v) s with
  | Ret (xs, s') => exists m', FillWith m v f s = Ret (m', s') /\ contents m' v = xs
  | Panic => FillWith m v f s = Panic
  | Diverge => FillWith m v f s = Diverge
  end.
Proof.
  intros T S m v f s V. unfold FillWith, Len, mbind.
  assert (G : forall n i pre d st, length pre = i -> length d = n ->
    fill_with f n i (pre ++ d) st =
      match calls f n st with Ret (xs, s') => Ret (pre ++ xs, s') | Panic => Panic | Diverge => Diverge end).
  { induction n; intros i pre d st Hp Hd; cbn [fill_with calls].
    - unfold mret. destruct d; [reflexivity | discriminate].
    - unfold mbind. destruct (f st) as [[x s1]| |]; [|reflexivity|reflexivity].
      destruct d as [|y d]; [discriminate|].
      rewrite upd_Ret by (rewrite app_length; cbn [length]; lia).
      assert (E : list_set (pre ++ y :: d) i x = (pre ++ [x]) ++ d).
      { subst i. clear. induction pre; cbn; [reflexivity|]. now rewrite IHpre. }
      rewrite E, IHn by (rewrite ?app_length; cbn [length] in *; lia).
      destruct (calls f n s1) as [[xs s2]| |]; [|reflexivity|reflexivity]. unfold mret. now rewrite <- app_assoc. }
  specialize (G (slen v) 0 [] (contents m v) s eq_refl (contents_length m v V)). cbn [app] in G. rewrite G.
  assert (Lc : forall n st xs s', calls f n st = Ret (xs, s') -> length xs = n).
  { clear. induction n; intros st xs s' H; cbn [calls] in H; unfold mbind, mret in H.
    - now inversion H.
    - destruct (f st) as [[x s1]| |]; try discriminate. destruct (calls f n s1) as [[r s2]| |] eqn:E; try discriminate.
      inversion H; subst. cbn. f_equal. eauto. }
  destruct (calls f (slen v) s) as [[xs s']| |] eqn:E; [|reflexivity|reflexivity].
  cbn [app]. eexists. split; [reflexivity|]. apply store_spec; eauto.
Qed.
Print Assumptions C35_fill_with.
Example C35_nonvacuous : exists v, let m := [[1; 1; 2]%Z] in valid m v /\ contents m v = [1; 1; 2]%Z /\ dedup Z.eqb (contents m v) = [1; 2]%Z
  /\ calls (fun s => Ret (s, (s + 1)%Z)) 3 5%Z = Ret ([5; 6; 7]%Z, 8%Z).
Proof. exists (mkSlice 0 3). split; [split; cbn; lia|]. split; [reflexivity|]. split; reflexivity. Qed.
Example C35_grouped_nonvacuous : (* grouped keys, as dedup_by_key_partial wants them *)
  let l := [1; 1; 2; 2]%Z in
  forall i j k x y z, i < j < k -> nth_error l i = Some x -> nth_error l j = Some y -> nth_error l k = Some z ->
    Z.eqb x z = true -> Z.eqb x y = true.
Proof.
  intros l i j k x y z H Hx Hy Hz E. unfold l in *.
  destruct i as [|[|[|[|[|i]]]]], j as [|[|[|[|[|j]]]]]; try lia; cbn in Hx, Hy; try discriminate;
    destruct k as [|[|[|[|[|k]]]]]; try lia; cbn in Hz; try discriminate;
    inversion Hx; inversion Hy; inversion Hz; subst; cbn in *; congruence.
Qed.

(** *** C36: sorting *)
Theorem C36_sort : forall (T : Type) (cmp : T -> T -> ordering) m v, total_preorder cmp -> valid m v ->
  exists m', Sort (Some cmp) m v = Ret m' /\ SortBy cmp m v = Ret m' /\
    stably_sorted cmp (contents m v) (contents m' v).
Proof.
  intros T cmp m v TP V. pose proof (contents_length m v V) as CL.
  pose proof (sort_perm (fun a b => is_less (cmp a b)) (contents m v)) as P.
  destruct (in_place_Ret m v (sort_data (Some cmp)) (stable_sort (fun a b => is_less (cmp a b)) (contents m v)) V) as (m2 & E2 & _ & C2);
    [reflexivity | rewrite <- (Permutation_length P); auto |].
  exists m2. split; [exact E2|]. split; [exact E2|]. rewrite C2.
  split; [exact P|]. split; [now apply sort_ascending | now apply sort_stable].
Qed.
Print Assumptions C36_sort.
(** There is only one stably sorted arrangement, so any correct stable sort (such as
    Go's) gives the result of the model. *)
Theorem C36_stable_sort_unique : forall (T : Type) (cmp : T -> T -> ordering) l l1 l2, total_preorder cmp ->
  stably_sorted cmp l l1 -> stably_sorted cmp l l2 -> l1 = l2.
Proof.
  intros T cmp l l1 l2 TP (P1 & A1 & S1) (P2 & A2 & S2). apply (stably_sorted_unique cmp TP); auto.
  - now rewrite <- P1.
  - intros x. rewrite (S2 x). symmetry. apply S1.
Qed.
Print Assumptions C36_stable_sort_unique.
(** Every outcome of the unstable sort is an ascending permutation; if elements that
    compare equal are identical, it is the outcome of Sort. *)
Theorem C36_sort_unstable : forall (T : Type) (cmp : T -> T -> ordering) d d', total_preorder cmp ->
  SortUnstableBy cmp d d' ->
  Permutation d d' /\ ascending cmp d' /\
  ((forall a b, cmp a b = Equal -> a = b) -> sort_data (Some cmp) d = Ret d').
Proof.
  intros T cmp d d' TP [P H]. 
  assert (A : ascending cmp d').
  { apply ascending_nth. intros i j x y Hij Hx Hy. apply not_less_le; auto. eapply H; eauto. }
  split; [exact P|]. split; [exact A|]. intros Id. cbn [sort_data]. f_equal.
  apply (sorted_unique cmp TP Id); auto.
  - now rewrite <- sort_perm. 
  - now apply sort_ascending.
Qed.
Print Assumptions C36_sort_unstable.
(** Without Cmp, sorting panics unless there is nothing to compare. *)
Theorem C36_sort_missing_cmp : forall (T : Type) (m : mem T) v, valid m v ->
  (Len v <= 1 -> exists m', Sort None m v = Ret m' /\ contents m' v = contents m v) /\
  (1 < Len v -> Sort None m v = Panic).
Proof.
  intros T m v V. pose proof (contents_length m v V) as CL. unfold Len, Sort. split; intros H.
  - destruct (in_place_Ret m v (sort_data None) (contents m v) V) as (m2 & E2 & _ & C2); auto; [|eauto].
    unfold sort_data. rewrite CL, (proj2 (Nat.leb_le _ _) H). reflexivity.
  - unfold in_place, sort_data. rewrite CL, (proj2 (Nat.leb_gt _ _) H). reflexivity.
Qed.
Print Assumptions C36_sort_missing_cmp.
(** A preorder that is not an order: pairs by first component. *)
Definition cmpZ (a b : Z) : ordering := match (a ?= b)%Z with Lt => Less | Datatypes.Eq => Equal | Gt => Greater end.
Definition by_first (a b : Z * Z) : ordering := cmpZ (fst a) (fst b).
Lemma cmpZ_preorder : total_preorder cmpZ.
Proof.
  unfold cmpZ. constructor.
  - intros a. now rewrite Z.compare_refl.
  - intros a b. rewrite (Z.compare_antisym a b). destruct (a ?= b)%Z; reflexivity.
  - intros a b c. destruct (Z.compare_spec a b), (Z.compare_spec b c), (Z.compare_spec a c); intros; try congruence; lia.
Qed.
Example C36_nonvacuous : total_preorder by_first /\
  stable_sort (fun a b => is_less (by_first a b)) [(2, 1); (1, 2); (2, 3); (1, 4)]%Z = [(1, 2); (1, 4); (2, 1); (2, 3)]%Z /\
  SortUnstableBy by_first [(2, 1); (1, 2); (2, 3)]%Z [(1, 2); (2, 3); (2, 1)]%Z.
Proof.
  split; [|split].
  - constructor; intros; unfold by_first in *; [apply cmpZ_preorder | apply cmpZ_preorder | eapply (tp_trans _ cmpZ_preorder); eauto].
  - reflexivity.
  - split.
    + apply Permutation_trans with [(1, 2); (2, 1); (2, 3)]%Z; [apply perm_swap | repeat constructor].
    + intros [|[|[|i]]] [|[|[|j]]] x y H Hx Hy; cbn in Hx, Hy; try discriminate; try lia; inversion Hx; inversion Hy; subst; try reflexivity;
      exfalso; destruct j; discriminate.
Qed.

(** *** C37: binary search *)
Theorem C37_binary_search : forall (T : Type) (cmp : T -> T -> ordering) m v value,
  total_preorder cmp -> ascending cmp (contents m v) ->
  (exists i x, BinarySearch (Some cmp) m v value = Ret (Some i) /\ nth_error (contents m v) i = Some x /\ cmp x value = Equal)
  \/ (BinarySearch (Some cmp) m v value = Ret None /\ forall x, In x (contents m v) -> cmp x value <> Equal).
Proof.
  intros T cmp m v value TP A. unfold BinarySearch.
  destruct (search_data_spec (fun x => cmp x value) (contents m v)) as (r & E & R).
  cbn [of_option bind]. destruct r as [i|].
  - left. destruct R as (x & H1 & H2). eauto.
  - right. split; [exact E|]. intros x Hx. apply In_nth_error in Hx. destruct Hx as (i & Hi).
    apply (R (ascending_split cmp TP value _ A) i x Hi).
Qed.
Print Assumptions C37_binary_search.
Theorem C37_binary_search_by : forall (T : Type) (f : T -> ordering) m v, split_by f (contents m v) ->
  (exists i x, BinarySearchBy f m v = Ret (Some i) /\ nth_error (contents m v) i = Some x /\ f x = Equal)
  \/ (BinarySearchBy f m v = Ret None /\ forall x, In x (contents m v) -> f x <> Equal).
Proof.
  intros T f m v A. unfold BinarySearchBy. destruct (search_data_spec f (contents m v)) as (r & E & R).
  destruct r as [i|].
  - left. destruct R as (x & H1 & H2). eauto.
  - right. split; [exact E|]. intros x Hx. apply In_nth_error in Hx. destruct Hx as (i & Hi). eauto.
Qed.
Print Assumptions C37_binary_search_by.
(** Even on unsorted vectors and with any comparator the search ends without panic,
    and what it finds is a match. *)
Theorem C37_always_returns : forall (T : Type) (f : T -> ordering) m v, exists r,
  BinarySearchBy f m v = Ret r /\
  forall i, r = Some i -> exists x, nth_error (contents m v) i = Some x /\ f x = Equal.
Proof.
  intros T f m v. destruct (search_data_spec f (contents m v)) as (r & E & R). exists r. split; [exact E|].
  intros i ->. exact R.
Qed.
Print Assumptions C37_always_returns.
Theorem C37_missing_cmp : forall (T : Type) (m : mem T) v value,
  BinarySearch None m v value = match contents m v with [] => Ret None | _ => Panic end.
Proof. intros. apply search_no_cmp. Qed.
Print Assumptions C37_missing_cmp.
Example C37_nonvacuous : let m := [[1; 3; 5; 7]%Z] in let v := mkSlice 0 4 in
  ascending cmpZ (contents m v) /\ BinarySearch (Some cmpZ) m v 5%Z = Ret (Some 2) /\ BinarySearch (Some cmpZ) m v 4%Z = Ret None.
Proof. split; [|split; reflexivity]. cbn. repeat constructor; unfold le_by; discriminate. Qed.

(** *** C38: storage *)

(** The clone has its own array: equal elements now, and (by C33_history, whose
    histories include OClone) independent ever after. *)
Theorem C38_clone : forall (T : Type) (zero : T) clone m v, valid m v -> exists m' c,
  Clone zero (Some clone) m v = Ret (m', c) /\ contents m' c = map clone (contents m v) /\
  contents m' v = contents m v /\ valid m' v /\ valid m' c /\ arr c <> arr v.
Proof.
  intros T zero clone m v V. destruct (Clone_spec zero clone m v V) as (m' & c & E & A & Vc & C & L & F).
  exists m', c. destruct V as [V1 V2].
  split; [exact E|]. split; [exact C|]. split; [unfold contents, array; now rewrite F|].
  split; [split; [lia | unfold scap, array in *; now rewrite F]|]. split; [exact Vc|]. lia.
Qed.
Print Assumptions C38_clone.
(** A method applied to v never changes what a vector w with separate storage shows
    (here for the methods outside C33_history), and leaves the two separate. *)
Definition unaffected {T} (m : mem T) (v w : slice) (m' : mem T) (v' : slice) : Prop :=
  contents m' w = contents m w /\ valid m' w /\ valid m' v' /\ arr v' <> arr w.
Theorem C38_frame : forall (T K S : Type) (zero : T) extra (keq : K -> K -> bool) (cmp : T -> T -> ordering) (key : T -> K) (f : M S T) m v w n s,
  valid m v -> valid m w -> arr v <> arr w ->
  (forall m' v', Reserve zero extra m v n = Ret (m', v') -> unaffected m v w m' v') /\
  (let (m', v') := DedupByKey zero extra keq m v key in unaffected m v w m' v') /\
  (forall m', Sort (Some cmp) m v = Ret m' -> unaffected m v w m' v) /\
  (forall m' s', FillWith m v f s = Ret (m', s') -> unaffected m v w m' v) /\
  (forall d', length d' = Len v -> unaffected m v w (store m v d') v).
Proof.
  intros T K S zero extra keq cmp key f m v w n s V W N.
  assert (G : forall m' v', local m v m' v' -> unaffected m v w m' v').
  { intros m' v' (V' & A & L & F). destruct W as [W1 W2].
    assert (E : array m' w = array m w) by (unfold array; apply F; auto).
    split; [unfold contents; now rewrite E|]. split; [split; [lia | unfold scap in *; now rewrite E]|].
    split; [exact V'|]. destruct A; [congruence | lia]. }
  split; [|split; [|split; [|split]]].
  - intros m' v' E. apply G. unfold Reserve in E. destruct (_ <? _)%Z; [destruct (_ <=? _)%Z; [discriminate|]|].
    + pose proof (append_spec zero extra m v (repeat zero (Z.to_nat n)) V) as A.
      inversion E as [E1]. rewrite E1 in A. apply A.
    + inversion E; subst. now apply local_refl.
  - pose proof (DedupByKey_spec zero extra K keq m v key V) as H. destruct (DedupByKey zero extra keq m v key). apply G, H.
  - intros m' E. apply G. unfold Sort, in_place, sort_data in E. cbn [bind] in E. inversion E.
    apply store_spec; auto. rewrite <- (Permutation_length (sort_perm _ _)). now apply contents_length.
  - intros m' s' E. apply G. pose proof (C35_fill_with T S m v f s V) as H.
    destruct (calls f (Len v) s) as [[xs s1]| |] eqn:Ec; [|congruence|congruence].
    unfold FillWith, mbind in E. destruct (fill_with f (slen v) 0 (contents m v) s) as [[d s2]| |] eqn:Ed; try discriminate.
    unfold mret in E. inversion E; subst m' s'. apply store_spec; auto.
    assert (forall n i d st r, fill_with f n i d st = Ret r -> length (fst r) = length d) as Len_.
    { clear. induction n; intros i d st r H; cbn [fill_with] in H; unfold mbind, mret in H.
      - inversion H. reflexivity.
      - destruct (f st) as [[x s1]| |]; try discriminate. destruct (upd d i x) as [d'| |] eqn:U; try discriminate.
        rewrite (IHn _ _ _ _ H). unfold upd in U. destruct (i <? length d); inversion U. apply list_set_length. }
    pose proof (Len_ _ _ _ _ _ Ed) as Q. cbn [fst] in Q. rewrite Q. now apply contents_length.
  - intros d' L. apply G. now apply store_spec.
Qed.
Print Assumptions C38_frame.
(** Storage is shared when a Vec value is copied by Go assignment (also AsSlice):
    with spare capacity a push through one copy is overwritten by the other. *)
Theorem C38_struct_copy_shares : forall (T : Type) (zero : T) extra m v a b, valid m v -> Len v < Capacity m v ->
  let (m1, v1) := Push zero extra m v a in
  let (m2, v2) := Push zero extra m1 v b in          (* v is the copy taken before the push *)
  contents m1 v1 = contents m v ++ [a] /\ contents m2 v1 = contents m v ++ [b].
Proof.
  intros T zero extra m v a b V H. unfold Push. unfold Len, Capacity, scap in H.
  pose proof (append_spec zero extra m v [a] V) as A. unfold append in *. cbn [length] in *.
  destruct (Nat.leb_spec (slen v + 1) (length (array m v))); [|lia].
  destruct A as ((Va & _) & C & _). destruct V as [V1 V2].
  set (m1 := list_set m (arr v) (firstn (slen v) (array m v) ++ [a] ++ skipn (slen v + 1) (array m v))) in *.
  assert (Ar : array m1 v = firstn (slen v) (array m v) ++ [a] ++ skipn (slen v + 1) (array m v)).
  { unfold array at 1, m1. rewrite nth_list_set, Nat.eqb_refl, (proj2 (Nat.ltb_lt _ _) V1). reflexivity. }
  assert (La : length (array m1 v) = length (array m v)).
  { rewrite Ar, !app_length, firstn_length, skipn_length. cbn [length]. lia. }
  rewrite La. destruct (Nat.leb_spec (slen v + 1) (length (array m v))); [|lia].
  split; [exact C|]. unfold contents at 1, array at 1. cbn [arr slen].
  rewrite nth_list_set, Nat.eqb_refl. assert (L1 : arr v <? length m1 = true).
  { apply Nat.ltb_lt. unfold m1. rewrite list_set_length. auto. }
  rewrite L1. cbn [andb]. rewrite app_assoc. rewrite firstn_exact.
  - f_equal. rewrite Ar. unfold contents. apply firstn_exact. rewrite firstn_length. lia.
  - rewrite app_length, firstn_length, La. cbn [length]. lia.
Qed.
Print Assumptions C38_struct_copy_shares.
Theorem C38_eq : forall (T : Type) (eqb : T -> T -> bool) m v w, valid m v -> valid m w ->
  Eq (Some eqb) m v w = Ret (same_elements eqb (contents m v) (contents m w)).
Proof. intros. now apply Eq_spec. Qed.
Print Assumptions C38_eq.
Example C38_nonvacuous : let m := [[1; 2; 0]; [3]]%Z in let v := mkSlice 0 2 in let w := mkSlice 1 1 in
  valid m v /\ valid m w /\ arr v <> arr w /\ Len v < Capacity m v.
Proof. unfold valid. cbn. repeat split; lia. Qed.

(** *** C39: iterators.  An iterator is at position p of the elements d. *)

(** k calls of Next. *)
Fixpoint nexts {T} (k : nat) (it : VecIter T) : out (VecIter T * list (option T)) :=
  match k with
  | O => Ret (it, [])
  | S k' => p <- Next it ;; q <- nexts k' (fst p) ;; Ret (fst q, snd p :: snd q)
  end.
(** The i-th call of Next answers element p+i, and None from the end on. *)
Theorem C39_next : forall (T : Type) (d : list T) k p, exists it,
  nexts k (mkIter d p) = Ret (it, map (fun i => nth_error d (p + i)) (seq 0 k)).
Proof.
  intros T d. induction k; intros p; cbn [nexts]; [eexists; reflexivity|].
  unfold Next. cbn [iv position]. destruct (Nat.leb_spec (length d) p).
  - cbn [bind fst snd]. destruct (IHk p) as (it & E). rewrite E. cbn [bind fst snd]. eexists. repeat f_equal.
    cbn [seq map]. rewrite Nat.add_0_r, (proj2 (nth_error_None d p)) by auto. f_equal.
    rewrite <- seq_shift, map_map. apply map_ext. intros i.
    rewrite (proj2 (nth_error_None d (p + i))), (proj2 (nth_error_None d (p + S i))) by lia. reflexivity.
  - destruct (nth_error d p) as [x|] eqn:E; [|apply nth_error_None in E; lia].
    rewrite (idx_nth_error _ _ _ E). cbn [bind fst snd]. destruct (IHk (p + 1)) as (it & E1). rewrite E1. cbn [bind fst snd].
    eexists. repeat f_equal. cbn [seq map]. rewrite Nat.add_0_r, E. f_equal.
    rewrite <- seq_shift, map_map. apply map_ext. intros i. f_equal. lia.
Qed.
Print Assumptions C39_next.
(** The combinators act on exactly the remaining elements. *)
Theorem C39_combinators : forall (T : Type) (d : list T) p f g init h,
  It_Map (mkIter d p) f = Ret (IntoIter (map f (skipn p d))) /\
  It_Filter (mkIter d p) g = Ret (IntoIter (filter g (skipn p d))) /\
  It_Fold (mkIter d p) init h = Ret (fold_left h (skipn p d) init) /\
  It_CollectToVec (mkIter d p) = Ret (skipn p d).
Proof.
  intros. unfold It_Map, It_Filter, It_Fold, It_CollectToVec. rewrite !iterate_spec, !oloop_fold. cbn [bind].
  rewrite fold_snoc, fold_filter. cbn [app]. split; [|split; [|split]]; try reflexivity.
  f_equal. pose proof (fold_snoc T T (fun x => x) (skipn p d) []) as H. rewrite H. cbn [app]. apply map_id.
Qed.
Print Assumptions C39_combinators.
(** Rev is right from the start, but on an iterator that has advanced by p it
    yields p zero values first. *)
Theorem C39_rev_characterised : forall (T : Type) (zero : T) d p, p <= length d ->
  It_Rev zero (mkIter d p) = Ret (IntoIter (repeat zero p ++ rev (skipn p d))).
Proof. intros. now apply It_Rev_spec. Qed.
Print Assumptions C39_rev_characterised.
Theorem C39_rev_partial : forall (T : Type) (zero : T) d, It_Rev zero (IntoIter d) = Ret (IntoIter (rev d)).
Proof. intros. unfold IntoIter at 1. rewrite It_Rev_spec by lia. reflexivity. Qed.
Print Assumptions C39_rev_partial.
Theorem C39_rev_refuted : exists d p, p <= length d /\
  It_Rev 0%Z (mkIter d p) <> Ret (IntoIter (rev (skipn p d))).
Proof. exists [1; 2]%Z, 1. split; [cbn; lia|]. rewrite It_Rev_spec by (cbn; lia). discriminate. Qed.
Print Assumptions C39_rev_refuted.
Example C39_nonvacuous : nexts 4 (IntoIter [1; 2]%Z) = Ret (mkIter [1; 2]%Z 2, [Some 1%Z; Some 2%Z; None; None]).
Proof. reflexivity. Qed.
