(** SortProgProofs.v -- the stable sort as a program of calls. *)
From Coq Require Import Permutation.
From Verif Require Import Base BaseLemmas CmpSpec VecModel VecSpec VecProofs PanicSpec PanicModel CostSpec StableSortModel SortLibModel SortProgSpec SortProgModel.
From Verif Require HeapProofs.

(** All indices are below L, there is no endless loop, at most N comparisons are made on
    every path, and Q holds of what is left of N and of the result. *)
Fixpoint fine {A} (L N : nat) (p : prog A) (Q : nat -> A -> Prop) : Prop :=
  match p with
  | Give a => Q N a
  | Endless => False
  | Asks i j k => i < L /\ j < L /\ match N with O => False | S n => forall b, fine L n (k b) Q end
  | Swaps i j k => i < L /\ j < L /\ fine L N k Q
  end.
Lemma fine_after {A B} L (p : prog A) (f : A -> prog B) Q : forall N, fine L N p (fun n a => fine L n (f a) Q) -> fine L N (after p f) Q.
Proof.
  induction p as [a| |i j k IH|i j k IH]; intros N H; cbn [fine after] in *; auto.
  - destruct H as (Hi & Hj & H). split; [exact Hi|]. split; [exact Hj|]. destruct N; [exact H|]. intros b. apply IH, H.
  - destruct H as (Hi & Hj & H). auto.
Qed.
Definition costs {A} (L c : nat) (p : prog A) (R : A -> Prop) : Prop :=
  forall N (Q : nat -> A -> Prop), (forall n a, N <= n -> R a -> Q n a) -> fine L (N + c) p Q.

Section Costs.
  Variable L : nat.
  Lemma costs_give {A} c (a : A) (R : A -> Prop) : R a -> costs L c (Give a) R.
  Proof. intros H N Q HQ. cbn [fine]. apply HQ; [lia|exact H]. Qed.
  Lemma costs_after {A B} c c1 c2 (p : prog A) (f : A -> prog B) R1 R2 :
    costs L c1 p R1 -> (forall a, R1 a -> costs L c2 (f a) R2) -> c1 + c2 <= c -> costs L c (after p f) R2.
  Proof.
    intros Hp Hf Hc N Q HQ. apply fine_after. replace (N + c) with (N + (c - c1) + c1) by lia. apply Hp.
    intros n a Hn Ha. replace n with (n - c2 + c2) by lia. apply (Hf a Ha). intros n' b Hn' Hb. apply HQ; [lia|exact Hb].
  Qed.
  Lemma costs_more {A} c c' (p : prog A) (R R' : A -> Prop) : costs L c p R -> c <= c' -> (forall a, R a -> R' a) -> costs L c' p R'.
  Proof. intros H Hc HR N Q HQ. replace (N + c') with (N + (c' - c) + c) by lia. apply H. intros n a Hn Ha. apply HQ; [lia|auto]. Qed.
  Lemma costs_ask i j : i < L -> j < L -> costs L 1 (ask i j) (fun _ => True).
  Proof. intros Hi Hj N Q HQ. cbn [fine ask]. split; [exact Hi|]. split; [exact Hj|]. rewrite Nat.add_1_r. intros b. apply HQ; [lia|exact I]. Qed.
  Lemma costs_ask_neg i j : i < L -> j < L -> costs L 1 (x <-- ask i j ;; Give (negb x)) (fun _ => True).
  Proof. intros Hi Hj. apply costs_after with (c1 := 1) (c2 := 0) (R1 := fun _ => True); [now apply costs_ask|intros; now apply costs_give|lia]. Qed.
  Lemma costs_swap i j : i < L -> j < L -> costs L 0 (swap i j) (fun _ => True).
  Proof. intros Hi Hj N Q HQ. cbn [fine swap]. split; [exact Hi|]. split; [exact Hj|]. apply HQ; [lia|exact I]. Qed.
  Lemma costs_each (g : nat -> nat) f l : (forall i, In i l -> costs L (g i) (f i) (fun _ => True)) -> costs L (list_sum (map g l)) (each f l) (fun _ => True).
  Proof.
    induction l as [|i l IH]; intros H; cbn [each map list_sum fold_right]; [now apply costs_give|].
    apply costs_after with (c1 := g i) (c2 := list_sum (map g l)) (R1 := fun _ => True);
      [apply H; now left|intros _ _; apply IH; intros; apply H; now right|].
    unfold list_sum. lia.
  Qed.
  Lemma costs_each_free f l : (forall i, In i l -> costs L 0 (f i) (fun _ => True)) -> costs L 0 (each f l) (fun _ => True).
  Proof.
    intros H. apply costs_more with (c := list_sum (map (fun _ => 0) l)) (R := fun _ => True); [now apply (costs_each (fun _ => 0))| |auto].
    clear. induction l as [|i l IH]; cbn [map list_sum fold_right]; [lia|]. exact IH.
  Qed.

  (** *** Insertion sort *)
  Lemma shift_left_costs n : forall j, n <= j -> j < L -> costs L n (p_shift_left n j) (fun _ => True).
  Proof.
    induction n as [|n IH]; intros j Hn Hj; cbn [p_shift_left]; [now apply costs_give|].
    apply costs_after with (c1 := 1) (c2 := n) (R1 := fun _ => True); [apply costs_ask; lia| |lia]. intros [|] _; [|now apply costs_give].
    apply costs_after with (c1 := 0) (c2 := n) (R1 := fun _ => True); [apply costs_swap; lia| |lia]. intros _ _. apply IH; lia.
  Qed.
  Lemma triangle a k : 2 * list_sum (map (fun i => i - a) (seq (a + 1) k)) = k * (k + 1).
  Proof.
    induction k as [|k IH]; [reflexivity|]. rewrite seq_S, map_app, list_sum_app. cbn [map list_sum fold_right].
    assert (E : list_sum [a + 1 + k - a] = k + 1) by (cbn; lia). cbn [list_sum fold_right] in E. nia.
  Qed.
  Lemma insertion_costs a b c : a <= b -> b <= L -> (b - a) * (b - a - 1) <= 2 * c -> costs L c (p_insertionSort a b) (fun _ => True).
  Proof.
    intros Hab Hb Hc. unfold p_insertionSort.
    apply costs_more with (c := list_sum (map (fun i => i - a) (seq (a + 1) (b - (a + 1))))) (R := fun _ => True); [| |auto].
    - apply (costs_each (fun i => i - a)). intros i Hi. apply in_seq in Hi. apply shift_left_costs; lia.
    - pose proof (triangle a (b - (a + 1))) as E. destruct (Nat.eq_dec a b) as [->|N].
      + replace (b - (b + 1)) with 0 by lia. cbn. lia.
      + replace (b - (a + 1)) with (b - a - 1) in * by lia. replace (b - a - 1 + 1) with (b - a) in E by lia. nia.
  Qed.

  (** *** Rotation *)
  Lemma swapRange_costs a b n : a + n <= L -> b + n <= L -> costs L 0 (p_swapRange a b n) (fun _ => True).
  Proof. intros Ha Hb. unfold p_swapRange. apply costs_each_free. intros i Hi. apply in_seq in Hi. apply costs_swap; lia. Qed.
  Lemma rotate_loop_costs fuel : forall m i j, i + j < fuel -> 1 <= i -> 1 <= j -> i <= m -> m + j <= L ->
    costs L 0 (p_rotate_loop fuel m i j) (fun _ => True).
  Proof.
    induction fuel as [|fuel IH]; intros m i j F Hi Hj Him Hm; [lia|]. cbn [p_rotate_loop].
    destruct (Nat.eqb_spec i j) as [->|N]; [apply swapRange_costs; lia|].
    destruct (Nat.ltb_spec j i) as [G|G].
    - apply costs_after with (c1 := 0) (c2 := 0) (R1 := fun _ => True); [apply swapRange_costs; lia| |lia]. intros _ _. apply IH; lia.
    - apply costs_after with (c1 := 0) (c2 := 0) (R1 := fun _ => True); [apply swapRange_costs; lia| |lia]. intros _ _. apply IH; lia.
  Qed.
  Lemma rotate_costs a m b : a < m -> m < b -> b <= L -> costs L 0 (p_rotate a m b) (fun _ => True).
  Proof. intros H1 H2 H3. unfold p_rotate. apply rotate_loop_costs; lia. Qed.

  (** *** Binary search *)
  Definition bits (s : nat) : nat := match s with O => 0 | _ => Nat.log2 s + 1 end.
  Lemma bits_half s : 1 <= s -> bits s = 1 + bits (s / 2).
  Proof.
    intros H. destruct (Nat.eq_dec s 1) as [->|N]; [reflexivity|].
    assert (H2 : 1 <= s / 2) by (apply Nat.div_le_lower_bound; lia).
    assert (E : Nat.log2 s = S (Nat.log2 (s / 2))).
    { apply Nat.log2_unique; [lia|]. destruct (Nat.log2_spec (s / 2)) as [A B]; [lia|].
      assert (D := Nat.div_mod s 2 ltac:(lia)). assert (M := Nat.mod_upper_bound s 2 ltac:(lia)).
      rewrite !Nat.pow_succ_r' in *. lia. }
    unfold bits. destruct s; [lia|]. destruct (S s / 2) eqn:D; [lia|]. rewrite E. lia.
  Qed.
  Lemma bits_mono s t : s <= t -> bits s <= bits t.
  Proof. intros H. unfold bits. destruct s; [lia|]. destruct t; [lia|]. pose proof (Nat.log2_le_mono _ _ H). lia. Qed.
  Lemma search_costs f fuel : forall i j, j - i < fuel -> i <= j -> (forall h, i <= h < j -> costs L 1 (f h) (fun _ => True)) ->
    costs L (bits (j - i)) (p_search fuel f i j) (fun r => i <= r <= j).
  Proof.
    induction fuel as [|fuel IH]; intros i j F Hij Hf; [lia|]. cbn [p_search]. destruct (Nat.ltb_spec i j) as [C|C]; [|apply costs_give; lia].
    cbv zeta. assert (H : (i + j) / 2 = i + (j - i) / 2).
    { replace (i + j) with (i * 2 + (j - i)) by lia. now rewrite Nat.div_add_l by lia. }
    rewrite H. set (s := (j - i) / 2). assert (Hs : 2 * s <= j - i < 2 * s + 2).
    { unfold s. pose proof (Nat.div_mod (j - i) 2 ltac:(lia)). pose proof (Nat.mod_upper_bound (j - i) 2 ltac:(lia)). lia. }
    rewrite (bits_half (j - i)) by lia. fold s.
    apply costs_after with (c1 := 1) (c2 := bits s) (R1 := fun _ => True); [apply Hf; lia| |lia]. intros [|] _.
    - eapply costs_more; [apply IH; [lia|lia|intros; apply Hf; lia]|apply bits_mono; lia|cbn beta; intros; lia].
    - eapply costs_more; [apply IH; [lia|lia|intros; apply Hf; lia]|apply bits_mono; lia|cbn beta; intros; lia].
  Qed.

  (** *** Merging *)
  Definition merge_cost (s : nat) : nat := 2 * s - Nat.log2 s - 2.
  Lemma log2_small s : 3 <= s -> Nat.log2 s + 2 <= s.
  Proof.
    intros H. enough (s < 2 ^ (s - 1)) by (apply (Nat.log2_lt_pow2 s (s - 1)) in H0; lia).
    replace s with (3 + (s - 3)) by lia. generalize (s - 3). clear. intros k. induction k as [|k IH]; [cbn; lia|].
    replace (3 + S k - 1) with (S (3 + k - 1)) by lia. rewrite Nat.pow_succ_r'. lia.
  Qed.
  Lemma bits_merge s : 2 <= s -> bits (s - 1) <= merge_cost s.
  Proof.
    intros H. unfold merge_cost. destruct (Nat.eq_dec s 2) as [->|N]; [cbn; lia|]. pose proof (log2_small s ltac:(lia)).
    assert (bits (s - 1) <= bits s) by (apply bits_mono; lia). unfold bits in *. destruct s as [|s]; [lia|].
    destruct (S s - 1) eqn:E; [lia|]. lia.
  Qed.
  Lemma merge_half s : 4 <= s -> bits (s / 2) + merge_cost (s / 2) + merge_cost (s - s / 2) <= merge_cost s.
  Proof.
    intros H. assert (D := Nat.div_mod s 2 ltac:(lia)). assert (M := Nat.mod_upper_bound s 2 ltac:(lia)).
    set (f := s / 2) in *. assert (B := bits_half s ltac:(lia)). fold f in B. unfold bits in B.
    destruct s as [|s]; [lia|]. destruct f as [|f]; [lia|]. unfold bits, merge_cost.
    assert (Nat.log2 (S f) <= Nat.log2 (S s - S f)) by (apply Nat.log2_le_mono; lia).
    assert (X := Nat.log2_le_lin (S s) ltac:(lia)). assert (Y := Nat.log2_lt_lin (S s - S f) ltac:(lia)).
    assert (X' := Nat.log2_lt_lin (S f) ltac:(lia)). lia.
  Qed.
  Lemma symMerge_costs fuel : forall a m b, b - a <= fuel -> a < m -> m < b -> b <= L ->
    costs L (merge_cost (b - a)) (p_symMerge fuel a m b) (fun _ => True).
  Proof.
    induction fuel as [|fuel IH]; intros a m b F Ham Hmb Hb; [lia|]. cbn [p_symMerge].
    destruct (Nat.eqb_spec (m - a) 1) as [E1|N1].
    { apply costs_after with (c1 := bits (b - m)) (c2 := 0) (R1 := fun r => m <= r <= b).
      - apply search_costs; [lia|lia|]. intros h Hh. apply costs_ask; lia.
      - intros r Hr. apply costs_each_free. intros i Hi. apply in_seq in Hi. apply costs_swap; lia.
      - pose proof (bits_merge (b - a) ltac:(lia)). replace (b - m) with (b - a - 1) by lia. lia. }
    destruct (Nat.eqb_spec (b - m) 1) as [E2|N2].
    { apply costs_after with (c1 := bits (m - a)) (c2 := 0) (R1 := fun r => a <= r <= m).
      - apply search_costs; [lia|lia|]. intros h Hh. apply costs_ask_neg; lia.
      - intros r Hr. apply costs_each_free. intros i Hi. apply in_rev in Hi. apply in_seq in Hi. apply costs_swap; lia.
      - pose proof (bits_merge (b - a) ltac:(lia)). replace (m - a) with (b - a - 1) by lia. lia. }
    cbv zeta. assert (Hmid : (a + b) / 2 = a + (b - a) / 2).
    { replace (a + b) with (a * 2 + (b - a)) by lia. now rewrite Nat.div_add_l by lia. }
    pose proof (merge_half (b - a) ltac:(lia)) as Hm. set (f := (b - a) / 2) in *. rewrite Hmid. set (mid := a + f) in *.
    assert (Hf : 2 * f <= b - a < 2 * f + 2).
    { unfold f. pose proof (Nat.div_mod (b - a) 2 ltac:(lia)). pose proof (Nat.mod_upper_bound (b - a) 2 ltac:(lia)). lia. }
    destruct (if mid <? m then (mid + m - b, mid) else (a, m)) as [start r] eqn:Es.
    assert (HS : start <= r /\ r - start <= f /\ a <= start /\ r <= m /\ r <= mid /\ mid + m - start <= b /\ m <= mid + m - r).
    { destruct (Nat.ltb_spec mid m); injection Es as <- <-; unfold mid in *; lia. }
    apply costs_after with (c1 := bits (r - start)) (c2 := merge_cost f + merge_cost (b - a - f)) (R1 := fun s => start <= s <= r).
    - apply search_costs; [lia|lia|]. intros h Hh. apply costs_ask_neg; lia.
    - intros s Hs. apply costs_after with (c1 := 0) (c2 := merge_cost f + merge_cost (b - a - f)) (R1 := fun _ => True); [| |lia].
      { destruct (Nat.ltb_spec s m); cbn [andb]; [|now apply costs_give]. destruct (Nat.ltb_spec m (mid + m - s)); [|now apply costs_give].
        apply rotate_costs; lia. }
      intros _ _. apply costs_after with (c1 := merge_cost f) (c2 := merge_cost (b - a - f)) (R1 := fun _ => True); [| |lia].
      { destruct (Nat.ltb_spec a s); cbn [andb]; [|now apply costs_give]. destruct (Nat.ltb_spec s mid); [|now apply costs_give].
        replace f with (mid - a) by (unfold mid; lia). apply IH; unfold mid in *; lia. }
      intros _ _. destruct (Nat.ltb_spec mid (mid + m - s)); cbn [andb]; [|now apply costs_give]. destruct (Nat.ltb_spec (mid + m - s) b); [|now apply costs_give].
      replace (b - a - f) with (b - mid) by (unfold mid; lia). apply IH; unfold mid in *; lia.
    - pose proof (bits_mono (r - start) f ltac:(lia)). lia.
  Qed.

  (** *** The whole sort *)
  Lemma blocks_costs fuel n : n <= L -> forall a, n - a < fuel -> a <= n ->
    costs L (190 * ((n - a) / 20)) (p_blocks fuel a (a + 20) n) (fun r => r = a + 20 * ((n - a) / 20)).
  Proof.
    intros HL. induction fuel as [|fuel IH]; intros a F Ha; [lia|]. cbn [p_blocks]. destruct (Nat.leb_spec (a + 20) n) as [C|C].
    - assert (E : (n - a) / 20 = 1 + (n - (a + 20)) / 20).
      { replace (n - a) with (1 * 20 + (n - (a + 20))) by lia. now rewrite Nat.div_add_l by lia. }
      rewrite E. apply costs_after with (c1 := 190) (c2 := 190 * ((n - (a + 20)) / 20)) (R1 := fun _ => True); [| |lia].
      + apply insertion_costs; lia.
      + intros _ _. eapply costs_more; [apply IH; lia|lia|]. cbn beta. intros r ->. lia.
    - rewrite Nat.div_small by lia. apply costs_give. lia.
  Qed.
  Lemma merge_pass_costs n bs fuel : n <= L -> 1 <= bs -> forall a, n - a < fuel -> a <= n ->
    costs L (2 * (n - a)) (p_merge_pass fuel bs a (a + 2 * bs) n) (fun _ => True).
  Proof.
    intros HL Hbs. induction fuel as [|fuel IH]; intros a F Ha; [lia|]. cbn [p_merge_pass].
    assert (M : forall s, merge_cost s <= 2 * s) by (intros; unfold merge_cost; lia).
    destruct (Nat.leb_spec (a + 2 * bs) n) as [C|C].
    - apply costs_after with (c1 := 2 * (2 * bs)) (c2 := 2 * (n - (a + 2 * bs))) (R1 := fun _ => True); [| |lia].
      + eapply costs_more; [apply symMerge_costs; lia| |auto]. replace (a + 2 * bs - a) with (2 * bs) by lia. apply M.
      + intros _ _. apply IH; lia.
    - destruct (Nat.ltb_spec (a + bs) n) as [C2|C2]; [|now apply costs_give].
      eapply costs_more; [apply symMerge_costs; lia|apply M|auto].
  Qed.
  Lemma passes_costs n : n <= L -> forall k fuel bs, 1 <= bs -> k < fuel -> n <= bs * 2 ^ k ->
    costs L (2 * n * k) (p_passes fuel bs n) (fun _ => True).
  Proof.
    intros HL. induction k as [|k IH]; intros fuel bs Hbs F Hn; (destruct fuel as [|fuel]; [lia|]); cbn [p_passes].
    - rewrite Nat.pow_0_r, Nat.mul_1_r in Hn. destruct (Nat.ltb_spec bs n); [lia|]. now apply costs_give.
    - destruct (Nat.ltb_spec bs n) as [C|C]; [|now apply costs_give].
      apply costs_after with (c1 := 2 * n) (c2 := 2 * n * k) (R1 := fun _ => True); [| |lia].
      + eapply costs_more; [apply (merge_pass_costs n bs (n + 1) HL Hbs 0); lia|lia|auto].
      + intros _ _. apply IH; [lia|lia|]. rewrite Nat.pow_succ_r' in Hn. lia.
  Qed.
  Lemma stable_costs n : n <= L -> costs L (stable_bound n) (p_SliceStable n) (fun _ => True).
  Proof.
    intros HL. unfold p_SliceStable, stable_bound. set (q := n / 20). set (r := n - 20 * q).
    assert (D := Nat.div_mod n 20 ltac:(lia)). assert (M := Nat.mod_upper_bound n 20 ltac:(lia)). fold q in D.
    apply costs_after with (c1 := 190 * q) (c2 := r * (r - 1) / 2 + 2 * n * Nat.log2 ((n - 1) / 10)) (R1 := fun x => x = 20 * q).
    - eapply costs_more; [apply (blocks_costs (n + 1) n HL 0); lia| |]; rewrite Nat.sub_0_r; fold q; [lia|intros; lia].
    - intros a ->. apply costs_after with (c1 := r * (r - 1) / 2) (c2 := 2 * n * Nat.log2 ((n - 1) / 10)) (R1 := fun _ => True); [| |lia].
      + apply insertion_costs; [lia|lia|]. fold r.
        assert (Ev : exists z, r * (r - 1) = 2 * z).
        { destruct (Nat.Even_or_Odd r) as [[z E]|[z E]]; [exists (z * (r - 1)); nia|exists (r * z); nia]. }
        destruct Ev as [z ->]. replace (2 * z / 2) with z by (rewrite Nat.mul_comm; symmetry; apply Nat.div_mul; lia). lia.
      + intros _ _. apply passes_costs; [lia|lia| |].
        * pose proof (Nat.log2_le_lin ((n - 1) / 10) ltac:(lia)). assert ((n - 1) / 10 <= n) by (apply Nat.div_le_upper_bound; lia). lia.
        * destruct (Nat.lt_ge_cases (n - 1) 10) as [S|S]; [rewrite (Nat.div_small (n - 1) 10 S); cbn; lia|].
          destruct (Nat.log2_spec ((n - 1) / 10)) as [_ B]; [apply Nat.div_str_pos; lia|].
          rewrite Nat.pow_succ_r' in B. assert (D10 := Nat.div_mod (n - 1) 10 ltac:(lia)). assert (M10 := Nat.mod_upper_bound (n - 1) 10 ltac:(lia)). lia.
    - assert (R19 : r <= 19) by lia. assert (X : 190 * q + r * (r - 1) / 2 <= 19 * n / 2); [|lia].
      apply Nat.div_le_lower_bound; [lia|]. assert (Y : 2 * (r * (r - 1) / 2) <= r * (r - 1)) by (apply Nat.mul_div_le; lia). nia.
  Qed.
End Costs.

(** *** Running *)
Section Play.
  Context {T U : Type}.
  Lemma idx_in (d : list T) i : i < length d -> exists x, idx d i = Ret x.
  Proof. intros H. unfold idx. destruct (nth_error d i) as [x|] eqn:E; [now exists x|apply nth_error_None in E; lia]. Qed.
  Lemma play_fine {A} (f : user U (T * T) ordering) (p : prog A) Q : forall d N u, fine (length d) N p Q ->
    exists d' u' r, play f p d u = Ret ((d', u'), r) /\ Permutation d d'.
  Proof.
    induction p as [a| |i j k IH|i j k IH]; intros d N u H; cbn [fine play] in *.
    - exists d, u, (Some a). auto.
    - contradiction.
    - destruct H as (Hi & Hj & H). destruct (idx_in d i Hi) as [x ->]. destruct (idx_in d j Hj) as [y ->]. cbn [bind].
      destruct (f (x, y) u) as [u1 [o|]]; [|exists d, u1, None; auto]. destruct N as [|N]; [contradiction|]. eapply IH. apply H.
    - destruct H as (Hi & Hj & H). destruct (HeapProofs.swap_data_exchanged _ d i j Hi Hj) as (d1 & E & _ & P). rewrite E. cbn [bind].
      destruct (IH d1 N u) as (d' & u' & r & E2 & P2).
      { rewrite <- (Permutation_length P). exact H. }
      exists d', u', r. split; [exact E2|]. now rewrite P.
  Qed.
  Lemma play_counted {A} (f : user U (T * T) ordering) (p : prog A) Q : forall d N c u, fine (length d) N p Q ->
    exists d' c' u' r, play (counted f) p d (c, u) = Ret ((d', (c', u')), r) /\ c' <= c + N.
  Proof.
    induction p as [a| |i j k IH|i j k IH]; intros d N c u H; cbn [fine play] in *.
    - exists d, c, u, (Some a). split; [reflexivity|lia].
    - contradiction.
    - destruct H as (Hi & Hj & H). destruct (idx_in d i Hi) as [x ->]. destruct (idx_in d j Hj) as [y ->]. cbn [bind counted].
      destruct N as [|N]; [contradiction|]. destruct (f (x, y) u) as [u1 [o|]]; [|exists d, (c + 1), u1, None; split; [reflexivity|lia]].
      destruct (IH (is_less o) d N (c + 1) u1 (H _)) as (d' & c' & u' & r & E & Hc). exists d', c', u', r. split; [exact E|lia].
    - destruct H as (Hi & Hj & H). destruct (HeapProofs.swap_data_exchanged _ d i j Hi Hj) as (d1 & E & _ & P). rewrite E. cbn [bind].
      apply IH. rewrite <- (Permutation_length P). exact H.
  Qed.
  Lemma play_watched {A} (f : user U (T * T) ordering) (p : prog A) : forall d u d' w u' r,
    play (watched f) p d (false, u) = Ret ((d', (w, u')), r) -> (w = true <-> r = None).
  Proof.
    induction p as [a| |i j k IH|i j k IH]; intros d u d' w u' r; cbn [play].
    - intros E. injection E as <- <- <- <-. split; discriminate.
    - discriminate.
    - destruct (idx d i) as [x| |]; try discriminate. destruct (idx d j) as [y| |]; try discriminate. cbn [bind watched].
      destruct (f (x, y) u) as [u1 [o|]]; [apply IH|]. intros E. injection E as <- <- <- <-. split; reflexivity.
    - destruct (swap_data d i j) as [d1| |]; try discriminate. cbn [bind]. apply IH.
  Qed.
End Play.

(** *** The program is StableSortModel.SliceStable. *)
Section Agree.
  Context {T U : Type}.
  Variable f : user U (T * T) ordering.
  Variable cmp : T -> T -> ordering.
  Hypothesis Hf : answers_like f (fun p => cmp (fst p) (snd p)).
  Notation lessO := (by_func cmp).

  Definition plays {A} (p : prog A) (d : list T) (r : out (list T * A)) : Prop :=
    forall u, exists u', play f p d u = match r with Ret (d', a) => Ret ((d', u'), Some a) | Panic => Panic | Diverge => Diverge end.
  Definition with_tt (r : out (list T)) : out (list T * unit) := d <- r ;; Ret (d, tt).
  Lemma play_after {A B} (p : prog A) (g : A -> prog B) : forall d u,
    play f (after p g) d u = match play f p d u with
                             | Ret ((d', u'), Some a) => play f (g a) d' u'
                             | Ret ((d', u'), None) => Ret ((d', u'), None)
                             | Panic => Panic | Diverge => Diverge end.
  Proof.
    induction p as [a| |i j k IH|i j k IH]; intros d u; cbn [play after]; try reflexivity.
    - destruct (idx d i); cbn [bind]; try reflexivity. destruct (idx d j); cbn [bind]; try reflexivity.
      destruct (f (a, a0) u) as [u1 [o|]]; [apply IH|reflexivity].
    - destruct (swap_data d i j); cbn [bind]; auto.
  Qed.
  Lemma plays_give {A} (a : A) d : plays (Give a) d (Ret (d, a)).
  Proof. intros u. exists u. reflexivity. Qed.
  Lemma plays_after {A B} (p : prog A) (g : A -> prog B) d r s : plays p d r ->
    (forall d' a, r = Ret (d', a) -> plays (g a) d' (s d' a)) ->
    plays (after p g) d (x <- r ;; s (fst x) (snd x)).
  Proof.
    intros Hp Hg u. rewrite play_after. destruct (Hp u) as [u' ->]. destruct r as [[d' a]| |]; cbn [bind fst snd]; [|now exists u|now exists u].
    apply (Hg d' a eq_refl u').
  Qed.
  Lemma plays_eq {A} (p : prog A) d r r' : plays p d r -> r = r' -> plays p d r'.
  Proof. now intros H <-. Qed.
  Lemma plays_ask d i j : plays (ask i j) d (b <- less_at lessO d i j ;; Ret (d, b)).
  Proof.
    intros u. unfold ask, less_at. cbn [play]. destruct (idx d i) as [x| |]; cbn [bind]; [|now exists u|now exists u].
    destruct (idx d j) as [y| |]; cbn [bind]; [|now exists u|now exists u]. pose proof (Hf (x, y) u) as E. destruct (f (x, y) u) as [u1 o]. cbn [snd fst] in E.
    subst o. exists u1. reflexivity.
  Qed.
  Lemma plays_ask_neg d i j : plays (x <-- ask i j ;; Give (negb x)) d (b <- (c <- less_at lessO d i j ;; Ret (negb c)) ;; Ret (d, b)).
  Proof.
    eapply plays_eq; [apply (plays_after _ _ _ _ (fun d b => Ret (d, negb b)) (plays_ask d i j)); intros; apply plays_give|].
    destruct (less_at lessO d i j); reflexivity.
  Qed.
  Lemma plays_swap d i j : plays (swap i j) d (with_tt (swap_data d i j)).
  Proof. intros u. exists u. unfold swap. cbn [play]. destruct (swap_data d i j); reflexivity. Qed.
  (** Two steps without a result in between. *)
  Lemma plays_then {B} (p : prog unit) (q : prog B) d (r : out (list T)) (s : list T -> out (list T * B)) : plays p d (with_tt r) ->
    (forall d', r = Ret d' -> plays q d' (s d')) -> plays (_ <-- p ;; q) d (x <- r ;; s x).
  Proof.
    intros Hp Hq. eapply plays_eq; [apply (plays_after _ _ _ _ (fun d _ => s d) Hp)|now destruct r].
    intros d' a E. apply Hq. destruct r; cbn [with_tt bind] in E; congruence.
  Qed.
  Lemma plays_then_tt (p q : prog unit) d (r : out (list T)) (s : list T -> out (list T)) : plays p d (with_tt r) ->
    (forall d', r = Ret d' -> plays q d' (with_tt (s d'))) -> plays (_ <-- p ;; q) d (with_tt (x <- r ;; s x)).
  Proof. intros Hp Hq. eapply plays_eq; [eapply (plays_then p q d r (fun x => with_tt (s x)) Hp Hq)|]. now destruct r. Qed.
  Lemma plays_ask_tt (q : bool -> prog unit) d i j s : (forall b, less_at lessO d i j = Ret b -> plays (q b) d (with_tt (s b))) ->
    plays (after (ask i j) q) d (with_tt (b <- less_at lessO d i j ;; s b)).
  Proof.
    intros H. eapply plays_eq; [apply (plays_after _ _ _ _ (fun _ b => with_tt (s b)) (plays_ask d i j))|destruct (less_at lessO d i j); reflexivity].
    intros d' b E. destruct (less_at lessO d i j) as [b0| |] eqn:X; try discriminate. cbn [bind] in E. injection E as <- <-. now apply H.
  Qed.
  Lemma plays_each (g : nat -> prog unit) (h : list T -> nat -> out (list T)) l : (forall d i, plays (g i) d (with_tt (h d i))) ->
    forall d, plays (each g l) d (with_tt (oloop h l d)).
  Proof.
    intros H. induction l as [|i l IH]; intros d; cbn [each oloop]; [apply plays_give|]. apply plays_then_tt; [apply H|]. intros d' _. apply IH.
  Qed.

  Lemma plays_shift_left n : forall j d, plays (p_shift_left n j) d (with_tt (shift_left lessO n d j)).
  Proof.
    induction n as [|n IH]; intros j d; cbn [p_shift_left shift_left]; [apply plays_give|].
    apply plays_ask_tt. intros [|] _; [|apply plays_give]. apply plays_then_tt; [apply plays_swap|]. intros d' _. apply IH.
  Qed.
  Lemma plays_insertion a b d : plays (p_insertionSort a b) d (with_tt (insertionSort lessO d a b)).
  Proof. apply (plays_each _ (fun d i => shift_left lessO (i - a) d i)). intros. apply plays_shift_left. Qed.
  Lemma plays_swapRange a b n d : plays (p_swapRange a b n) d (with_tt (swapRange d a b n)).
  Proof. apply (plays_each _ (fun d i => swap_data d (a + i) (b + i))). intros. apply plays_swap. Qed.
  Lemma plays_endless {A} d : plays (@Endless A) d Diverge.
  Proof. intros u. now exists u. Qed.
  Lemma plays_rotate_loop fuel : forall m i j d, plays (p_rotate_loop fuel m i j) d (with_tt (rotate_loop fuel d m i j)).
  Proof.
    induction fuel as [|fuel IH]; intros m i j d; cbn [p_rotate_loop rotate_loop]; [apply plays_endless|].
    destruct (i =? j); [apply plays_swapRange|]. destruct (j <? i); (apply plays_then_tt; [apply plays_swapRange|intros; apply IH]).
  Qed.
  Lemma plays_search (g : nat -> prog bool) (h : nat -> out bool) d : (forall i, plays (g i) d (b <- h i ;; Ret (d, b))) ->
    forall fuel i j, plays (p_search fuel g i j) d (r <- search fuel h i j ;; Ret (d, r)).
  Proof.
    intros H. induction fuel as [|fuel IH]; intros i j; cbn [p_search search]; [apply plays_endless|].
    destruct (i <? j); [|apply plays_give]. cbv zeta.
    eapply plays_eq; [apply (plays_after _ _ _ _ (fun _ (b : bool) => r <- (if b then search fuel h ((i + j) / 2 + 1) j else search fuel h i ((i + j) / 2)) ;; Ret (d, r)) (H _))|].
    - intros d' b E. assert (d' = d) by (destruct (h ((i + j) / 2)); cbn [bind] in E; congruence). subst d'. destruct b; apply IH.
    - destruct (h ((i + j) / 2)); reflexivity.
  Qed.
  Lemma plays_found (g : nat -> prog unit) (p : prog nat) (r : out nat) d (s : nat -> out (list T)) : plays p d (i <- r ;; Ret (d, i)) ->
    (forall i, plays (g i) d (with_tt (s i))) -> plays (after p g) d (with_tt (i <- r ;; s i)).
  Proof.
    intros Hp Hg. eapply plays_eq; [apply (plays_after _ _ _ _ (fun _ i => with_tt (s i)) Hp)|now destruct r].
    intros d' i E. assert (d' = d) by (destruct r; cbn [bind] in E; congruence). subst d'. apply Hg.
  Qed.
  Lemma plays_symMerge fuel : forall a m b d, plays (p_symMerge fuel a m b) d (with_tt (symMerge lessO fuel d a m b)).
  Proof.
    induction fuel as [|fuel IH]; intros a m b d; cbn [p_symMerge symMerge]; [apply plays_endless|].
    destruct (m - a =? 1).
    { apply plays_found; [apply (plays_search (fun h => ask h a) (fun h => less_at lessO d h a)); intros; apply plays_ask|].
      intros i. apply (plays_each _ (fun d k => swap_data d k (k + 1))). intros; apply plays_swap. }
    destruct (b - m =? 1).
    { apply plays_found; [apply (plays_search (fun h => c <-- ask m h ;; Give (negb c)) (fun h => c <- less_at lessO d m h ;; Ret (negb c))); intros; apply plays_ask_neg|].
      intros i. apply (plays_each _ (fun d k => swap_data d k (k - 1))). intros; apply plays_swap. }
    cbv zeta. destruct (if (a + b) / 2 <? m then ((a + b) / 2 + m - b, (a + b) / 2) else (a, m)) as [start r].
    apply plays_found.
    { apply (plays_search (fun c => x <-- ask ((a + b) / 2 + m - 1 - c) c ;; Give (negb x)) (fun c => x <- less_at lessO d ((a + b) / 2 + m - 1 - c) c ;; Ret (negb x))).
      intros; apply plays_ask_neg. }
    intros s. apply plays_then_tt; [destruct (_ && _)%bool; [apply plays_rotate_loop|apply plays_give]|].
    intros d1 _. apply plays_then_tt; [destruct (_ && _)%bool; [apply IH|apply plays_give]|].
    intros d2 _. destruct (_ && _)%bool; [apply IH|apply plays_give].
  Qed.
  Lemma plays_blocks fuel n : forall a b d, plays (p_blocks fuel a b n) d (blocks lessO fuel d a b n).
  Proof.
    induction fuel as [|fuel IH]; intros a b d; cbn [p_blocks blocks]; [apply plays_endless|]. destruct (b <=? n); [|apply plays_give].
    apply plays_then; [apply plays_insertion|]. intros; apply IH.
  Qed.
  Lemma plays_merge_pass fuel bs n : forall a b d, plays (p_merge_pass fuel bs a b n) d (with_tt (merge_pass lessO fuel d bs a b n)).
  Proof.
    induction fuel as [|fuel IH]; intros a b d; cbn [p_merge_pass merge_pass]; [apply plays_endless|]. destruct (b <=? n).
    - apply plays_then_tt; [apply plays_symMerge|]. intros; apply IH.
    - destruct (_ <? n); [apply plays_symMerge|apply plays_give].
  Qed.
  Lemma plays_passes fuel n : forall bs d, plays (p_passes fuel bs n) d (with_tt (passes lessO fuel d bs n)).
  Proof.
    induction fuel as [|fuel IH]; intros bs d; cbn [p_passes passes]; [apply plays_endless|]. destruct (bs <? n); [|apply plays_give].
    apply plays_then_tt; [apply plays_merge_pass|]. intros; apply IH.
  Qed.
  Theorem plays_stable d : plays (p_SliceStable (length d)) d (with_tt (SliceStable lessO d)).
  Proof.
    unfold p_SliceStable, SliceStable. cbv zeta.
    eapply plays_eq; [apply (plays_after _ _ _ _ (fun d' a => with_tt (d1 <- insertionSort lessO d' a (length d) ;; passes lessO (length d + 1) d1 20 (length d))) (plays_blocks (length d + 1) (length d) 0 20 d))|].
    - intros d' a _. apply plays_then_tt; [apply plays_insertion|]. intros; apply plays_passes.
    - destruct (blocks lessO (length d + 1) d 0 20 (length d)); reflexivity.
  Qed.
End Agree.
