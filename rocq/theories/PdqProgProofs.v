(** PdqProgProofs.v -- the unstable sort as a program of calls. *)
From Coq Require Import Permutation.
From Verif Require Import Base BaseLemmas CmpSpec VecModel VecSpec VecProofs PanicSpec PanicModel CostSpec StableSortModel PdqSortModel SortLibModel SortProgSpec SortProgModel SortProgProofs PdqProgSpec PdqProgModel.

Section Costs.
  Variable L : nat.
  (** At most c comparisons, of which [g a] are left when the result is a. *)
  Definition pays {A} (c : nat) (p : prog A) (g : A -> nat) (R : A -> Prop) : Prop :=
    forall N (Q : nat -> A -> Prop), (forall n a, R a -> N + g a <= n -> Q n a) -> fine L (N + c) p Q.
  Lemma pays_costs {A} c (p : prog A) R : pays c p (fun _ => 0) R <-> costs L c p R.
  Proof. split; intros H N Q HQ; apply H; intros; apply HQ; auto; lia. Qed.
  Lemma pays_give {A} c (a : A) g (R : A -> Prop) : R a -> g a <= c -> pays c (Give a) g R.
  Proof. intros H G N Q HQ. cbn [fine]. apply HQ; [exact H|lia]. Qed.
  Lemma pays_more {A} c c' (p : prog A) g g' (R R' : A -> Prop) : pays c p g R -> c <= c' -> (forall a, R a -> R' a /\ g' a <= g a + (c' - c)) -> pays c' p g' R'.
  Proof.
    intros H Hc HR N Q HQ. replace (N + c') with (N + (c' - c) + c) by lia. apply H. intros n a Ha Hn. destruct (HR a Ha) as [Ha' G]. apply HQ; [exact Ha'|lia].
  Qed.
  Lemma pays_after {A B} c c1 (p : prog A) (f : A -> prog B) g R1 h R2 :
    pays c1 p g R1 -> c1 <= c -> (forall a, R1 a -> pays (c - c1 + g a) (f a) h R2) -> pays c (after p f) h R2.
  Proof.
    intros Hp Hc Hf N Q HQ. apply fine_after. replace (N + c) with (N + (c - c1) + c1) by lia. apply Hp.
    intros n a Ha Hn. replace n with (n - (c - c1 + g a) + (c - c1 + g a)) by lia. apply (Hf a Ha). intros n' b Hb Hn'. apply HQ; [exact Hb|lia].
  Qed.
  Lemma costs_after_pays {A B} c c1 (p : prog A) (f : A -> prog B) g R1 R2 :
    pays c1 p g R1 -> c1 <= c -> (forall a, R1 a -> costs L (c - c1 + g a) (f a) R2) -> costs L c (after p f) R2.
  Proof. intros Hp Hc Hf. apply pays_costs. eapply pays_after; [exact Hp|exact Hc|]. intros a Ha. apply pays_costs. now apply Hf. Qed.
  Lemma pays_after_costs {A B} c c1 (p : prog A) (f : A -> prog B) R1 h R2 :
    costs L c1 p R1 -> c1 <= c -> (forall a, R1 a -> pays (c - c1) (f a) h R2) -> pays c (after p f) h R2.
  Proof. intros Hp Hc Hf. apply pays_costs in Hp. eapply pays_after; [exact Hp|exact Hc|]. intros a Ha. cbn beta. rewrite Nat.add_0_r. now apply Hf. Qed.
  Lemma costs_then {A B} c c1 (p : prog A) (f : A -> prog B) R1 R2 :
    costs L c1 p R1 -> c1 <= c -> (forall a, R1 a -> costs L (c - c1) (f a) R2) -> costs L c (after p f) R2.
  Proof. intros Hp Hc Hf. apply (costs_after L c c1 (c - c1) p f R1 R2 Hp Hf). lia. Qed.
  Lemma ask_not_costs i j : i < L -> j < L -> costs L 1 (ask_not i j) (fun _ => True).
  Proof. apply costs_ask_neg. Qed.

  (** *** Heap sort *)
  Lemma siftDown_costs fuel : forall k root hi first, hi < fuel + root -> 0 < fuel -> hi < (root + 1) * 2 ^ (k + 1) -> first + hi <= L ->
    costs L (2 * k) (p_siftDown fuel root hi first) (fun _ => True).
  Proof.
    induction fuel as [|fuel IH]; intros k root hi first F F0 K HL; [lia|]. cbn [p_siftDown]. cbv zeta.
    destruct (Nat.leb_spec hi (2 * root + 1)) as [C|C]; [now apply costs_give|].
    destruct k as [|k]; [cbn in K; lia|].
    apply costs_then with (c1 := 1) (R1 := fun c : bool => c = true -> 2 * root + 1 + 1 < hi); [|lia|].
    { destruct (Nat.ltb_spec (2 * root + 1 + 1) hi); [|now apply costs_give].
      apply costs_more with (c := 1) (R := fun _ => True); [apply costs_ask; lia|lia|auto]. }
    intros c Hc. set (child := if c then 2 * root + 1 + 1 else 2 * root + 1).
    assert (Hch : 2 * root + 1 <= child < hi) by (unfold child; destruct c; [specialize (Hc eq_refl)|]; lia). clearbody child. clear Hc c.
    apply costs_then with (c1 := 1) (R1 := fun _ => True); [apply costs_ask; lia|lia|].
    intros [|] _; cbn [negb]; [|now apply costs_give].
    apply costs_then with (c1 := 0) (R1 := fun _ => True); [apply costs_swap; lia|lia|]. intros _ _.
    replace (2 * S k - 1 - 1 - 0) with (2 * k) by lia. apply IH; [lia|lia| |lia].
    replace (S k + 1) with (S (k + 1)) in K by lia. rewrite Nat.pow_succ_r' in K. nia.
  Qed.
  Lemma sum_const {A} (l : list A) c : list_sum (map (fun _ => c) l) = c * length l.
  Proof. unfold list_sum. induction l as [|x l IH]; cbn [map fold_right length]; [lia|]. rewrite IH. lia. Qed.
  Lemma heapSort_costs a b : 1 <= b - a -> b <= L -> costs L (3 * (b - a) * (b - a)) (p_heapSort a b) (fun _ => True).
  Proof.
    intros Hs HL. unfold p_heapSort. cbv zeta. set (hi := b - a) in *. destruct (Nat.log2_spec hi ltac:(lia)) as [_ Hlog]. set (k := Nat.log2 hi) in *.
    assert (Hk : k < hi) by (apply Nat.log2_lt_lin; lia). rewrite <- (Nat.add_1_r k) in Hlog.
    assert (Hdiv : 2 * ((hi - 1) / 2) <= hi - 1) by (apply Nat.mul_div_le; lia). set (h := (hi - 1) / 2) in *.
    apply costs_then with (c1 := 2 * k * (h + 1)) (R1 := fun _ => True); [|nia|].
    { eapply costs_more; [apply (costs_each L (fun _ => 2 * k))| |auto].
      - intros i Hi. apply in_rev, in_seq in Hi. apply siftDown_costs; [lia|lia|nia|lia].
      - rewrite sum_const, rev_length, seq_length. lia. }
    intros _ _. eapply costs_more; [apply (costs_each L (fun _ => 2 * k))| |auto].
    - intros i Hi. apply in_rev, in_seq in Hi. apply costs_after with (c1 := 0) (c2 := 2 * k) (R1 := fun _ => True); [apply costs_swap; lia| |lia].
      intros _ _. apply siftDown_costs; [lia|lia|nia|lia].
    - rewrite sum_const, rev_length, seq_length. nia.
  Qed.

  (** *** Partitions *)
  Lemma scan_up_pays (f : nat -> prog bool) fuel : forall i j, j + 1 < fuel + i -> 0 < fuel -> i <= j + 2 -> (forall k, i <= k <= j -> costs L 1 (f k) (fun _ => True)) ->
    pays (j + 2 - i) (p_scan_up fuel f i j) (fun r => j + 1 - r) (fun r => i <= r /\ (r <= j + 1 \/ r = i)).
  Proof.
    induction fuel as [|fuel IH]; intros i j F F0 Hij Hf; [lia|]. cbn [p_scan_up]. destruct (Nat.leb_spec i j) as [C|C]; [|apply pays_give; lia].
    eapply pays_after_costs; [apply Hf; lia|lia|]. intros [|] _; [|apply pays_give; lia].
    eapply pays_more; [apply IH; [lia|lia|lia|intros; apply Hf; lia]|lia|]. cbn beta. lia.
  Qed.
  Lemma scan_down_pays (f : nat -> prog bool) fuel : forall i j, j + 1 < fuel + i -> 0 < fuel -> 1 <= i <= j + 2 -> (forall k, i <= k <= j -> costs L 1 (f k) (fun _ => True)) ->
    pays (j + 2 - i) (p_scan_down fuel f i j) (fun r => r + 1 - i) (fun r => r <= j /\ (i <= r + 1 \/ r = j)).
  Proof.
    induction fuel as [|fuel IH]; intros i j F F0 Hij Hf; [lia|]. cbn [p_scan_down]. destruct (Nat.leb_spec i j) as [C|C]; [|apply pays_give; lia].
    eapply pays_after_costs; [apply Hf; lia|lia|]. intros [|] _; [|apply pays_give; lia].
    eapply pays_more; [apply IH; [lia|lia|lia|intros; apply Hf; lia]|lia|]. cbn beta. lia.
  Qed.
  (** i may get past j by two: a comparison that answers differently when it is asked the
      same again stops both scans at one place. *)
  Lemma partition_loop_costs fuel : forall a b i j mv, j + 2 < fuel + i -> a + 1 <= i -> a <= j -> i <= j + 2 -> j < b -> b <= L ->
    costs L (j + 3 - i) (p_partition_loop fuel a i j mv) (fun x => a <= fst x < b).
  Proof.
    induction fuel as [|fuel IH]; intros a b i j mv F Ha Haj Hij Hj HL; [lia|]. cbn [p_partition_loop].
    eapply costs_after_pays; [apply scan_up_pays; [lia|lia|lia|intros; apply costs_ask; lia]|lia|]. cbn beta. intros i' Hi'.
    eapply costs_after_pays; [apply scan_down_pays; [lia|lia|lia|intros; apply ask_not_costs; lia]|lia|]. cbn beta. intros j' Hj'.
    destruct (Nat.ltb_spec j' i') as [C|C].
    - apply costs_then with (c1 := 0) (R1 := fun _ => True); [apply costs_swap; lia|lia|]. intros _ _. apply costs_give. cbn [fst]. lia.
    - apply costs_then with (c1 := 0) (R1 := fun _ => True); [apply costs_swap; lia|lia|]. intros _ _.
      eapply costs_more; [apply (IH a b); lia|lia|auto].
  Qed.
  Lemma partition_costs a b p : a <= p < b -> b <= L -> costs L (b - a + 1) (p_partition a b p) (fun x => a <= fst x < b).
  Proof.
    intros Hp HL. unfold p_partition. apply costs_then with (c1 := 0) (R1 := fun _ => True); [apply costs_swap; lia|lia|]. intros _ _.
    eapply costs_more; [apply (partition_loop_costs _ a b); lia|lia|auto].
  Qed.
  Lemma partitionEqual_loop_costs fuel : forall a b i j, j + 2 < fuel + i -> a + 1 <= i -> i <= b -> i <= j + 2 -> j < b -> b <= L ->
    costs L (j + 3 - i) (p_partitionEqual_loop fuel a i j) (fun x => a < x <= b).
  Proof.
    induction fuel as [|fuel IH]; intros a b i j F Ha Hib Hij Hj HL; [lia|]. cbn [p_partitionEqual_loop].
    eapply costs_after_pays; [apply scan_up_pays; [lia|lia|lia|intros; apply ask_not_costs; lia]|lia|]. cbn beta. intros i' Hi'.
    eapply costs_after_pays; [apply scan_down_pays; [lia|lia|lia|intros; apply costs_ask; lia]|lia|]. cbn beta. intros j' Hj'.
    destruct (Nat.ltb_spec j' i') as [C|C]; [apply costs_give; lia|].
    apply costs_then with (c1 := 0) (R1 := fun _ => True); [apply costs_swap; lia|lia|]. intros _ _.
    eapply costs_more; [apply (IH a b); lia|lia|auto].
  Qed.
  Lemma partitionEqual_costs a b p : a <= p < b -> b <= L -> costs L (b - a + 1) (p_partitionEqual a b p) (fun x => a < x <= b).
  Proof.
    intros Hp HL. unfold p_partitionEqual. apply costs_then with (c1 := 0) (R1 := fun _ => True); [apply costs_swap; lia|lia|]. intros _ _.
    eapply costs_more; [apply (partitionEqual_loop_costs _ a b); lia|lia|auto].
  Qed.

  (** *** The smaller parts *)
  Lemma shift_right_costs n : forall j, 1 <= j -> j + n <= L -> costs L n (p_shift_right n j) (fun _ => True).
  Proof.
    induction n as [|n IH]; intros j Hj HL; cbn [p_shift_right]; [now apply costs_give|].
    apply costs_then with (c1 := 1) (R1 := fun _ => True); [apply costs_ask; lia|lia|]. intros [|] _; [|now apply costs_give].
    apply costs_then with (c1 := 0) (R1 := fun _ => True); [apply costs_swap; lia|lia|]. intros _ _.
    eapply costs_more; [apply IH; lia|lia|auto].
  Qed.
  Lemma partial_steps_costs n : forall a b i, a < i -> i <= b -> b <= L -> costs L (b - i + n * (b + 1)) (p_partial_steps n a b i) (fun _ => True).
  Proof.
    induction n as [|n IH]; intros a b i Ha Hi HL; cbn [p_partial_steps]; [now apply costs_give|].
    assert (E : S n * (b + 1) = n * (b + 1) + b + 1) by lia. rewrite E. clear E. set (rest := n * (b + 1)) in *.
    eapply costs_after_pays; [apply scan_up_pays; [lia|lia|lia|intros; apply ask_not_costs; lia]|lia|]. cbn beta. intros i' Hi'.
    destruct (Nat.eqb_spec i' b) as [->|N]; [now apply costs_give|]. destruct (b - a <? 50); [now apply costs_give|].
    apply costs_then with (c1 := 0) (R1 := fun _ => True); [apply costs_swap; lia|lia|]. intros _ _.
    apply costs_then with (c1 := i' - 1) (R1 := fun _ => True); [|lia|].
    { destruct (2 <=? i' - a); [apply shift_left_costs; lia|now apply costs_give]. }
    intros _ _. apply costs_then with (c1 := b - (i' + 1)) (R1 := fun _ => True); [|lia|].
    { destruct (2 <=? b - i'); [apply shift_right_costs; lia|now apply costs_give]. }
    intros _ _. eapply costs_more; [apply IH; lia|lia|auto].
  Qed.
  Lemma partial_costs a b : a < b -> b <= L -> costs L (b - a + 5 * (b + 1)) (p_partialInsertionSort a b) (fun _ => True).
  Proof. intros H HL. unfold p_partialInsertionSort. eapply costs_more; [apply partial_steps_costs; lia|lia|auto]. Qed.
  Lemma breakPatterns_costs rnd a b : b <= L -> costs L 0 (p_breakPatterns rnd a b) (fun _ => True).
  Proof.
    intros HL. unfold p_breakPatterns. cbv zeta. destruct (Nat.leb_spec 8 (b - a)) as [C|C]; [|now apply costs_give].
    apply costs_each_free. intros i Hi. apply in_seq in Hi. pose proof (Nat.mod_upper_bound (rnd (b - a) i) (b - a) ltac:(lia)).
    pose proof (Nat.mul_div_le (b - a) 4 ltac:(lia)). assert (2 <= (b - a) / 4) by (apply Nat.div_le_lower_bound; lia). apply costs_swap; lia.
  Qed.
  Lemma order2_costs lo hi a b s : lo <= a < hi -> lo <= b < hi -> hi <= L ->
    costs L 1 (p_order2 a b s) (fun x => let '(a, b, _) := x in lo <= a < hi /\ lo <= b < hi).
  Proof.
    intros Ha Hb HL. unfold p_order2. apply costs_then with (c1 := 1) (R1 := fun _ => True); [apply costs_ask; lia|lia|].
    intros [|] _; apply costs_give; lia.
  Qed.
  Lemma median_costs lo hi a b c s : lo <= a < hi -> lo <= b < hi -> lo <= c < hi -> hi <= L ->
    costs L 3 (p_median a b c s) (fun x => lo <= fst x < hi).
  Proof.
    intros Ha Hb Hc HL. unfold p_median.
    eapply costs_then; [apply (order2_costs lo hi); lia|lia|]. intros [[a1 b1] s1] [Ha1 Hb1].
    eapply costs_then; [apply (order2_costs lo hi); lia|lia|]. intros [[b2 c2] s2] [Hb2 Hc2].
    eapply costs_then; [apply (order2_costs lo hi); lia|lia|]. intros [[a3 b3] s3] [Ha3 Hb3]. now apply costs_give.
  Qed.
  Lemma choosePivot_costs a b : 12 < b - a -> b <= L -> costs L 12 (p_choosePivot a b) (fun x => a <= fst x < b).
  Proof.
    intros Hs HL. unfold p_choosePivot. cbv zeta. set (q := (b - a) / 4).
    assert (D := Nat.div_mod (b - a) 4 ltac:(lia)). assert (M := Nat.mod_upper_bound (b - a) 4 ltac:(lia)). fold q in D.
    apply costs_then with (c1 := 12) (R1 := fun x => a <= fst x < b); [|lia|].
    - destruct (8 <=? b - a); [|apply costs_give; cbn [fst]; lia].
      apply costs_then with (c1 := 9) (R1 := fun y => let '(i, j, k, _) := y in (a <= i < b) /\ (a <= j < b) /\ (a <= k < b)); [|lia|].
      + destruct (50 <=? b - a); [|apply costs_give; lia]. unfold p_medianAdjacent.
        eapply costs_then; [apply (median_costs a b); lia|lia|]. intros [i s1] Hi. cbn [fst] in Hi.
        eapply costs_then; [apply (median_costs a b); lia|lia|]. intros [j s2] Hj. cbn [fst] in Hj.
        eapply costs_then; [apply (median_costs a b); lia|lia|]. intros [k s3] Hk. cbn [fst] in Hk. apply costs_give. auto.
      + intros [[[i j] k] s] (Hi & Hj & Hk). eapply costs_more; [apply (median_costs a b); lia|lia|auto].
    - intros [j s] Hj. cbn [fst] in Hj. apply costs_give. exact Hj.
  Qed.
  Lemma reverse_loop_costs fuel : forall i j, j < fuel + i -> 0 < fuel -> j < L -> costs L 0 (p_reverse_loop fuel i j) (fun _ => True).
  Proof.
    induction fuel as [|fuel IH]; intros i j F F0 HL; [lia|]. cbn [p_reverse_loop]. destruct (Nat.ltb_spec i j) as [C|C]; [|now apply costs_give].
    apply costs_then with (c1 := 0) (R1 := fun _ => True); [apply costs_swap; lia|lia|]. intros _ _. apply IH; lia.
  Qed.
  Lemma reverseRange_costs a b : a < b -> b <= L -> costs L 0 (p_reverseRange a b) (fun _ => True).
  Proof. intros H HL. apply reverse_loop_costs; lia. Qed.

  (** *** The whole sort *)
  Lemma pdqsort_costs rnd fuel : forall a b limit wb wp, b < fuel + a -> a <= b -> b <= L ->
    costs L (9 * L * (b - a)) (p_pdqsort rnd fuel a b limit wb wp) (fun _ => True).
  Proof.
    induction fuel as [|fuel IH]; intros a b limit wb wp F Hab HL; [lia|]. cbn [p_pdqsort]. cbv zeta.
    destruct (Nat.leb_spec (b - a) 12) as [S12|S12]; [apply insertion_costs; nia|].
    destruct (limit =? 0). { eapply costs_more; [apply heapSort_costs; lia|nia|auto]. }
    apply costs_then with (c1 := 0) (R1 := fun _ => True); [|lia|].
    { destruct (negb wb); [|now apply costs_give].
      apply costs_then with (c1 := 0) (R1 := fun _ => True); [now apply breakPatterns_costs|lia|]. intros _ _. now apply costs_give. }
    intros lim _. clear limit. assert (E : exists z, 9 * L * (b - a) = z + 9 * L /\ 9 * L * (b - a - 1) = z).
    { exists (9 * L * (b - a - 1)). split; [|reflexivity]. replace (b - a) with (S (b - a - 1)) at 1 by lia. lia. }
    destruct E as (z & E & Ez). rewrite E. clear E.
    eapply costs_then; [apply choosePivot_costs; lia|lia|]. intros [p hint] Hp. cbn [fst] in Hp.
    apply costs_then with (c1 := 0) (R1 := fun x => a <= fst x < b); [|lia|].
    { destruct hint; [apply costs_give; exact Hp|apply costs_give; exact Hp|].
      apply costs_then with (c1 := 0) (R1 := fun _ => True); [apply reverseRange_costs; lia|lia|]. intros _ _. apply costs_give. cbn [fst]. lia. }
    intros [p' hint'] Hp'. cbn [fst] in Hp'. clear p hint Hp.
    apply costs_then with (c1 := b - a + 5 * (b + 1)) (R1 := fun _ => True); [|lia|].
    { destruct (wb && wp && _)%bool; [apply partial_costs; lia|now apply costs_give]. }
    intros [|] _; [now apply costs_give|].
    apply costs_then with (c1 := 1) (R1 := fun _ => True); [|lia|].
    { destruct (Nat.ltb_spec 0 a); [apply ask_not_costs; lia|now apply costs_give]. }
    intros [|] _.
    - eapply costs_then; [apply partitionEqual_costs; lia|lia|]. cbn beta. intros mid Hm.
      eapply costs_more; [apply IH; lia| |auto]. assert (9 * L * (b - mid) <= z) by (subst z; nia). lia.
    - eapply costs_then; [apply partition_costs; lia|lia|]. intros [mid ap] Hm. cbn [fst] in Hm.
      assert (Esum : 9 * L * (mid - a) + 9 * L * (b - (mid + 1)) = z) by (subst z; rewrite <- Nat.mul_add_distr_l; f_equal; lia).
      assert (IHl := fun w w' => IH a mid lim w w' ltac:(lia) ltac:(lia) ltac:(lia)). assert (IHr := fun w w' => IH (mid + 1) b lim w w' ltac:(lia) ltac:(lia) ltac:(lia)).
      set (l := 9 * L * (mid - a)) in *. set (r := 9 * L * (b - (mid + 1))) in *. clearbody l r.
      destruct (mid - a <? b - mid).
      + apply costs_then with (c1 := l) (R1 := fun _ => True); [apply IHl|lia|]. intros _ _.
        eapply costs_more; [apply IHr|lia|auto].
      + apply costs_then with (c1 := r) (R1 := fun _ => True); [apply IHr|lia|]. intros _ _.
        eapply costs_more; [apply IHl|lia|auto].
  Qed.
End Costs.
Lemma unstable_costs rnd n : costs n (unstable_bound n) (p_Slice rnd n) (fun _ => True).
Proof. unfold p_Slice, unstable_bound. eapply costs_more; [apply (pdqsort_costs n); lia|rewrite Nat.sub_0_r; lia|auto]. Qed.

(** *** The program is PdqSortModel.Slice. *)
Section Agree.
  Context {T U : Type}.
  Variable f : user U (T * T) ordering.
  Variable cmp : T -> T -> ordering.
  Variable rnd : nat -> nat -> nat.
  Hypothesis Hf : answers_like f (fun p => cmp (fst p) (snd p)).
  Notation lessO := (by_func cmp).
  Notation plays := (plays f).
  Notation with_tt := (@with_tt T).

  (** A program that only asks. *)
  Definition reads {A} (p : prog A) (d : list T) (r : out A) : Prop := plays p d (a <- r ;; Ret (d, a)).
  Lemma reads_give {A} (a : A) d : reads (Give a) d (Ret a).
  Proof. apply plays_give. Qed.
  Lemma reads_eq {A} (p : prog A) d r r' : reads p d r -> r = r' -> reads p d r'.
  Proof. now intros H <-. Qed.
  Lemma reads_ask d i j : reads (ask i j) d (less_at lessO d i j).
  Proof. apply (plays_ask f cmp Hf). Qed.
  Lemma reads_after {A B} (p : prog A) (g : A -> prog B) d r s : reads p d r -> (forall a, r = Ret a -> reads (g a) d (s a)) ->
    reads (after p g) d (a <- r ;; s a).
  Proof.
    intros Hp Hg. unfold reads. eapply plays_eq; [apply (plays_after f _ _ _ _ (fun d' a => b <- s a ;; Ret (d, b)) Hp)|destruct r; reflexivity].
    intros d' a E. destruct r as [a0| |]; try discriminate. cbn [bind] in E. injection E as <- <-. now apply Hg.
  Qed.
  Lemma reads_not d i j : reads (ask_not i j) d (c <- less_at lessO d i j ;; Ret (negb c)).
  Proof. apply reads_after; [apply reads_ask|]. intros; apply reads_give. Qed.
  (** Reading first. *)
  Lemma plays_read {A B} (p : prog A) (g : A -> prog B) d r s : reads p d r -> (forall a, plays (g a) d (s a)) -> plays (after p g) d (a <- r ;; s a).
  Proof.
    intros Hp Hg. eapply plays_eq; [apply (plays_after f _ _ _ _ (fun _ a => s a) Hp)|now destruct r].
    intros d' a E. destruct r as [a0| |]; try discriminate. cbn [bind] in E. injection E as <- <-. apply Hg.
  Qed.
  Lemma plays_read_tt {A} (p : prog A) (g : A -> prog unit) d r s : reads p d r -> (forall a, plays (g a) d (with_tt (s a))) -> plays (after p g) d (with_tt (a <- r ;; s a)).
  Proof. intros Hp Hg. eapply plays_eq; [apply (plays_read p g d r (fun a => with_tt (s a)) Hp Hg)|now destruct r]. Qed.

  Lemma plays_siftDown fuel : forall root hi first d, plays (p_siftDown fuel root hi first) d (with_tt (siftDown lessO fuel d root hi first)).
  Proof.
    induction fuel as [|fuel IH]; intros root hi first d; cbn [p_siftDown siftDown]; [apply plays_endless|]. cbv zeta.
    destruct (hi <=? 2 * root + 1); [apply plays_give|].
    apply plays_read_tt; [destruct (_ <? hi); [apply reads_ask|apply reads_give]|]. intros c.
    apply plays_read_tt; [apply reads_ask|]. intros [|]; cbn [negb]; [|apply plays_give].
    apply plays_then_tt; [apply plays_swap|]. intros; apply IH.
  Qed.
  Lemma plays_heapSort a b d : plays (p_heapSort a b) d (with_tt (heapSort lessO d a b)).
  Proof.
    unfold p_heapSort, heapSort. cbv zeta. apply plays_then_tt.
    - apply (plays_each f _ (fun d i => siftDown lessO (b - a + 1) d i (b - a) a)). intros; apply plays_siftDown.
    - intros d' _. apply (plays_each f _ (fun d i => d' <- swap_data d a (a + i) ;; siftDown lessO (b - a + 1) d' 0 i a)).
      intros. apply plays_then_tt; [apply plays_swap|]. intros; apply plays_siftDown.
  Qed.
  Lemma reads_scan_up (p : nat -> prog bool) (h : nat -> out bool) d : (forall i, reads (p i) d (h i)) ->
    forall fuel i j, reads (p_scan_up fuel p i j) d (scan_up fuel h i j).
  Proof.
    intros H. induction fuel as [|fuel IH]; intros i j; cbn [p_scan_up scan_up]; [apply plays_endless|]. destruct (i <=? j); [|apply reads_give].
    apply reads_after; [apply H|]. intros [|] _; [apply IH|apply reads_give].
  Qed.
  Lemma reads_scan_down (p : nat -> prog bool) (h : nat -> out bool) d : (forall i, reads (p i) d (h i)) ->
    forall fuel i j, reads (p_scan_down fuel p i j) d (scan_down fuel h i j).
  Proof.
    intros H. induction fuel as [|fuel IH]; intros i j; cbn [p_scan_down scan_down]; [apply plays_endless|]. destruct (i <=? j); [|apply reads_give].
    apply reads_after; [apply H|]. intros [|] _; [apply IH|apply reads_give].
  Qed.
  (** The two models pair up results differently. *)
  Definition turn (r : out (list T * nat * bool)) : out (list T * (nat * bool)) := x <- r ;; let '(d, m, b) := x in Ret (d, (m, b)).
  Lemma plays_partition_loop fuel : forall a i j mv d, plays (p_partition_loop fuel a i j mv) d (turn (partition_loop lessO fuel d a i j mv)).
  Proof.
    induction fuel as [|fuel IH]; intros a i j mv d; cbn [p_partition_loop partition_loop]; [apply plays_endless|].
    eapply plays_eq; [apply plays_read; [apply (reads_scan_up (fun i => ask i a) (fun i => less_at lessO d i a)); intros; apply reads_ask|]|].
    - intros i'. apply plays_read; [apply (reads_scan_down (fun j => ask_not j a) (fun j => c <- less_at lessO d j a ;; Ret (negb c))); intros; apply reads_not|].
      intros j'. instantiate (1 := fun j' => turn (if j' <? i' then d' <- swap_data d j' a ;; Ret (d', j', negb mv) else d' <- swap_data d i' j' ;; partition_loop lessO fuel d' a (i' + 1) (j' - 1) true)).
      cbn beta. destruct (j' <? i').
      + eapply plays_eq; [apply (plays_then f _ _ d _ (fun d' => Ret (d', (j', negb mv))) (plays_swap f d j' a)); intros; apply plays_give|]. destruct (swap_data d j' a); reflexivity.
      + eapply plays_eq; [apply (plays_then f _ _ d _ (fun d' => turn (partition_loop lessO fuel d' a (i' + 1) (j' - 1) true)) (plays_swap f d i' j')); intros; apply IH|]. destruct (swap_data d i' j'); reflexivity.
    - cbn beta. destruct (scan_up _ _ i j) as [i'| |]; [|reflexivity..]. cbn [bind]. destruct (scan_down _ _ i' j); reflexivity.
  Qed.
  Lemma plays_partition a b p d : plays (p_partition a b p) d (turn (partition lessO d a b p)).
  Proof.
    unfold p_partition, partition. eapply plays_eq; [apply (plays_then f _ _ d _ (fun d' => turn (partition_loop lessO (b - a + 1) d' a (a + 1) (b - 1) false)) (plays_swap f d a p)); intros; apply plays_partition_loop|].
    destruct (swap_data d a p); reflexivity.
  Qed.
  Lemma plays_partitionEqual_loop fuel : forall a i j d, plays (p_partitionEqual_loop fuel a i j) d (partitionEqual_loop lessO fuel d a i j).
  Proof.
    induction fuel as [|fuel IH]; intros a i j d; cbn [p_partitionEqual_loop partitionEqual_loop]; [apply plays_endless|].
    apply plays_read; [apply (reads_scan_up (fun i => ask_not a i) (fun i => c <- less_at lessO d a i ;; Ret (negb c))); intros; apply reads_not|]. intros i'.
    apply plays_read; [apply (reads_scan_down (fun j => ask a j) (fun j => less_at lessO d a j)); intros; apply reads_ask|]. intros j'.
    destruct (j' <? i'); [apply plays_give|]. apply plays_then; [apply plays_swap|]. intros; apply IH.
  Qed.
  Lemma plays_partitionEqual a b p d : plays (p_partitionEqual a b p) d (partitionEqual lessO d a b p).
  Proof. unfold p_partitionEqual, partitionEqual. apply plays_then; [apply plays_swap|]. intros; apply plays_partitionEqual_loop. Qed.
  Lemma plays_shift_right n : forall j d, plays (p_shift_right n j) d (with_tt (shift_right lessO n d j)).
  Proof.
    induction n as [|n IH]; intros j d; cbn [p_shift_right shift_right]; [apply plays_give|].
    apply plays_read_tt; [apply reads_ask|]. intros [|]; [|apply plays_give]. apply plays_then_tt; [apply plays_swap|]. intros; apply IH.
  Qed.
  Lemma plays_partial_steps n : forall a b i d, plays (p_partial_steps n a b i) d (partial_steps lessO n d a b i).
  Proof.
    induction n as [|n IH]; intros a b i d; cbn [p_partial_steps partial_steps]; [apply plays_give|].
    apply plays_read; [apply (reads_scan_up (fun i => ask_not i (i - 1)) (fun i => c <- less_at lessO d i (i - 1) ;; Ret (negb c))); intros; apply reads_not|]. intros i'.
    destruct (i' =? b); [apply plays_give|]. destruct (b - a <? 50); [apply plays_give|].
    apply plays_then; [apply plays_swap|]. intros d1 _.
    apply plays_then; [destruct (2 <=? i' - a); [apply (plays_shift_left f cmp Hf)|apply plays_give]|]. intros d2 _.
    apply plays_then; [destruct (2 <=? b - i'); [apply plays_shift_right|apply plays_give]|]. intros d3 _. apply IH.
  Qed.
  Lemma plays_breakPatterns a b d : plays (p_breakPatterns rnd a b) d (with_tt (breakPatterns rnd d a b)).
  Proof.
    unfold p_breakPatterns, breakPatterns. cbv zeta. destruct (8 <=? b - a); [|apply plays_give].
    apply (plays_each f _ (fun d i => swap_data d (a + (b - a) / 4 * 2 - 1 - 1 + i) (a + rnd (b - a) i mod (b - a)))). intros; apply plays_swap.
  Qed.
  Lemma reads_order2 a b s d : reads (p_order2 a b s) d (order2 lessO d a b s).
  Proof. apply reads_after; [apply reads_ask|]. intros; apply reads_give. Qed.
  Lemma reads_median a b c s d : reads (p_median a b c s) d (median lessO d a b c s).
  Proof.
    apply reads_after; [apply reads_order2|]. intros [[a1 b1] s1] _. apply reads_after; [apply reads_order2|]. intros [[b2 c2] s2] _.
    apply reads_after; [apply reads_order2|]. intros [[a3 b3] s3] _. apply reads_give.
  Qed.
  Lemma reads_choosePivot a b d : reads (p_choosePivot a b) d (choosePivot lessO d a b).
  Proof.
    unfold p_choosePivot, choosePivot. cbv zeta. apply reads_after; [|intros [j s] _; apply reads_give].
    destruct (8 <=? b - a); [|apply reads_give]. apply reads_after; [|intros [[[i j] k] s] _; apply reads_median].
    destruct (50 <=? b - a); [|apply reads_give]. unfold p_medianAdjacent, medianAdjacent.
    apply reads_after; [apply reads_median|]. intros [i s1] _. apply reads_after; [apply reads_median|]. intros [j s2] _.
    apply reads_after; [apply reads_median|]. intros [k s3] _. apply reads_give.
  Qed.
  Lemma plays_reverse_loop fuel : forall i j d, plays (p_reverse_loop fuel i j) d (with_tt (reverse_loop fuel d i j)).
  Proof.
    induction fuel as [|fuel IH]; intros i j d; cbn [p_reverse_loop reverse_loop]; [apply plays_endless|]. destruct (i <? j); [|apply plays_give].
    apply plays_then_tt; [apply plays_swap|]. intros; apply IH.
  Qed.
  (** A step with a new slice and a result. *)
  Lemma plays_step_tt {A} (p : prog A) (g : A -> prog unit) d r (s : list T * A -> out (list T)) : plays p d r ->
    (forall d' a, plays (g a) d' (with_tt (s (d', a)))) -> plays (after p g) d (with_tt (x <- r ;; s x)).
  Proof.
    intros Hp Hg. eapply plays_eq; [apply (plays_after f _ _ _ _ (fun d' a => with_tt (s (d', a))) Hp); intros; apply Hg|].
    destruct r as [[d' a]| |]; reflexivity.
  Qed.
  Lemma plays_pdqsort fuel : forall a b limit wb wp d, plays (p_pdqsort rnd fuel a b limit wb wp) d (with_tt (pdqsort lessO rnd fuel d a b limit wb wp)).
  Proof.
    induction fuel as [|fuel IH]; intros a b limit wb wp d; cbn [p_pdqsort pdqsort]; [apply plays_endless|]. cbv zeta.
    destruct (b - a <=? 12); [apply (plays_insertion f cmp Hf)|]. destruct (limit =? 0); [apply plays_heapSort|].
    apply plays_step_tt.
    { destruct (negb wb); [|apply plays_give]. apply plays_then; [apply plays_breakPatterns|]. intros; apply plays_give. }
    intros d1 lim. apply plays_read_tt; [apply reads_choosePivot|]. intros [p h].
    eapply plays_eq; [apply (plays_step_tt _ _ d1 (match h with decreasingHint => d' <- reverseRange d1 a b ;; Ret (d', (b - 1 - (p - a), increasingHint)) | _ => Ret (d1, (p, h)) end)
       (fun x => let '(d, (pivot, hint)) := x in
        x <- (if wb && wp && (match hint with increasingHint => true | _ => false end) then partialInsertionSort lessO d a b else Ret (d, false)) ;;
        let '(d, sorted) := x in
        if sorted then Ret d
        else
          eq <- (if 0 <? a then c <- less_at lessO d (a - 1) pivot ;; Ret (negb c) else Ret false) ;;
          if eq : bool then
            x <- partitionEqual lessO d a b pivot ;; let '(d, mid) := x in
            pdqsort lessO rnd fuel d mid b lim wb wp
          else
            x <- partition lessO d a b pivot ;; let '(d, mid, alreadyPartitioned) := x in
            if mid - a <? b - mid then
              d <- pdqsort lessO rnd fuel d a mid lim true true ;;
              pdqsort lessO rnd fuel d (mid + 1) b lim ((b - a) / 8 <=? mid - a) alreadyPartitioned
            else
              d <- pdqsort lessO rnd fuel d (mid + 1) b lim true true ;;
              pdqsort lessO rnd fuel d a mid lim ((b - a) / 8 <=? b - mid) alreadyPartitioned))|].
    - destruct h; [apply plays_give|apply plays_give|]. apply plays_then; [apply plays_reverse_loop|]. intros; apply plays_give.
    - intros d2 [p2 h2]. apply plays_step_tt; [destruct (wb && wp && _)%bool; [apply plays_partial_steps|apply plays_give]|].
      intros d3 [|]; [apply plays_give|].
      apply plays_read_tt; [destruct (0 <? a); [apply reads_not|apply reads_give]|]. intros [|].
      + apply plays_step_tt; [apply plays_partitionEqual|]. intros d4 mid. apply IH.
      + eapply plays_eq; [apply (plays_step_tt _ _ d3 (turn (partition lessO d3 a b p2))
          (fun x => let '(d, (mid, alreadyPartitioned)) := x in
            if mid - a <? b - mid then
              d <- pdqsort lessO rnd fuel d a mid lim true true ;;
              pdqsort lessO rnd fuel d (mid + 1) b lim ((b - a) / 8 <=? mid - a) alreadyPartitioned
            else
              d <- pdqsort lessO rnd fuel d (mid + 1) b lim true true ;;
              pdqsort lessO rnd fuel d a mid lim ((b - a) / 8 <=? b - mid) alreadyPartitioned))|].
        * apply plays_partition.
        * intros d4 [mid ap]. destruct (mid - a <? b - mid); (apply plays_then_tt; [apply IH|intros; apply IH]).
        * unfold turn. destruct (partition lessO d3 a b p2) as [[[d4 mid] ap]| |]; reflexivity.
    - destruct h; cbn [bind]; try reflexivity. destruct (reverseRange d1 a b); reflexivity.
  Qed.
  Theorem plays_unstable d : plays (p_Slice rnd (length d)) d (with_tt (Slice lessO rnd d)).
  Proof. apply plays_pdqsort. Qed.
End Agree.
