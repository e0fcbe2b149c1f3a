(** DequeSortProofs.v -- the cells before and after a sort, and what the deque then shows. *)
From Coq Require Import Permutation.
From Verif Require Import Base DequeHistory DequeProofs DequeRunProofs PanicSpec SortProgModel PdqProgModel DequeSortModel BaseLemmas.
From Verif Require Import DequeModel.
Local Open Scope Z_scope.

Section Sorts.
  Context {T U : Type}.
  Variable limit : Z.
  Hypothesis Hlim : 7 <= limit < 2 ^ 63.
  Notation VecDeque := (VecDeque T).

  Lemma nth_error_skipn (l : list T) : forall k i, nth_error (skipn k l) i = nth_error l (k + i).
  Proof. induction l as [|x r IH]; intros [|k] i; cbn [skipn Nat.add nth_error]; try reflexivity; [now destruct i|apply IH]. Qed.
  Lemma cells_eq (d : VecDeque) : layout limit d -> AsSlice d = Ret (firstn (Z.to_nat (Len d)) (buffer d)) /\
    length (firstn (Z.to_nat (Len d)) (buffer d)) = Z.to_nat (Len d).
  Proof.
    intros (L1 & L2 & L3). unfold AsSlice, Capacity, Len in *. rewrite (proj2 (Z.leb_le _ _)) by lia. split; [reflexivity|].
    apply firstn_length_le. lia.
  Qed.
  Definition put_cells (d : VecDeque) (s : list T) : VecDeque := mkDeque (s ++ skipn (length s) (buffer d)) (dlen d) (head d).
  Lemma put_cells_facts (d : VecDeque) s : layout limit d -> length s = Z.to_nat (Len d) ->
    layout limit (put_cells d s) /\ AsSlice (put_cells d s) = Ret s /\ Len (put_cells d s) = Len d /\ head (put_cells d s) = head d /\
    skipn (Z.to_nat (Len d)) (buffer (put_cells d s)) = skipn (Z.to_nat (Len d)) (buffer d).
  Proof.
    intros (L1 & L2 & L3) Ls. unfold put_cells, layout, AsSlice, Capacity, Len in *. cbn [buffer dlen head].
    assert (LB : length (s ++ skipn (length s) (buffer d)) = length (buffer d)) by (rewrite app_length, skipn_length; lia).
    rewrite LB. rewrite (proj2 (Z.leb_le _ _)) by lia. split; [auto|]. split.
    - f_equal. rewrite <- Ls. now rewrite firstn_app, Nat.sub_diag, firstn_all, firstn_O, app_nil_r.
    - split; [reflexivity|]. split; [reflexivity|]. rewrite <- Ls, skipn_app, Nat.sub_diag. cbn [skipn]. rewrite skipn_all2 by lia. reflexivity.
  Qed.
  Lemma on_buffer_eq (sort : list T -> U -> out ((list T * U) * option unit)) (d : VecDeque) u s' u' r : layout limit d ->
    sort (firstn (Z.to_nat (Len d)) (buffer d)) u = Ret ((s', u'), r) ->
    on_buffer sort d u = Ret ((put_cells d s', u'), r).
  Proof. intros L E. unfold on_buffer. rewrite (proj1 (cells_eq d L)). cbn [bind]. rewrite E. reflexivity. Qed.

  (** A full deque shows its buffer from head on, round the end. *)
  Lemma full_shows (d : VecDeque) : layout limit d -> Len d = Capacity d ->
    shows d (skipn (Z.to_nat (head d)) (buffer d) ++ firstn (Z.to_nat (head d)) (buffer d)).
  Proof.
    intros (L1 & L2 & L3) F. destruct d as [b n h]. unfold Len, Capacity in *. cbn [dlen buffer head] in *.
    set (k := Z.to_nat h). assert (Hk : (k < length b)%nat) by (unfold k; lia).
    set (xs := skipn k b ++ firstn k b). assert (Lx : length xs = length b) by (unfold xs; rewrite app_length, skipn_length, firstn_length; lia).
    apply (rep_shows limit Hlim _ xs (length b)). exists b, k. split; [unfold deq_of; rewrite Lx; f_equal; [exact F|unfold k; lia]|].
    split; [|auto]. split; [exact Hk|]. split; [lia|]. intros i Hi. unfold xs, ring.
    destruct (Nat.lt_ge_cases (k + i) (length b)) as [H|H].
    - rewrite nth_error_app1 by (rewrite skipn_length; lia). rewrite nth_error_skipn.
      f_equal. destruct (Nat.ltb_spec (k + i) (length b)); lia.
    - rewrite nth_error_app2 by (rewrite skipn_length; lia). rewrite skipn_length, nth_error_firstn.
      destruct (Nat.ltb_spec (i - (length b - k)) k); [|lia]. f_equal. destruct (Nat.ltb_spec (k + i) (length b)); lia.
  Qed.
  Lemma turn_perm (b : list T) k : Permutation (skipn k b ++ firstn k b) b.
  Proof. rewrite Permutation_app_comm, firstn_skipn. reflexivity. Qed.
  Lemma put_cells_kept (d : VecDeque) l s : layout limit d -> shows d l -> head d = 0 \/ Len d = Capacity d ->
    Permutation (firstn (Z.to_nat (Len d)) (buffer d)) s ->
    exists l', shows (put_cells d s) l' /\ Permutation l l' /\ (head d = 0 -> l' = s /\ l = firstn (Z.to_nat (Len d)) (buffer d)).
  Proof.
    intros L Sh C P. destruct (cells_eq d L) as (A & La). pose proof (Permutation_length P) as Lp.
    pose proof (shows_rep limit Hlim _ _ Sh L) as R.
    destruct (Z.eq_dec (head d) 0) as [H0|H0].
    - pose proof (AsSlice_head0 limit _ _ _ R H0) as A2. rewrite A in A2. injection A2 as A2.
      exists s. rewrite A2 in *. split; [|split; [exact P|auto]].
      apply (rep_shows limit Hlim _ s (Z.to_nat (Capacity d))). apply (store_head0 limit _ _ _ _ R H0). lia.
    - destruct C as [C|C]; [contradiction|].
      destruct (put_cells_facts d s L ltac:(lia)) as (L' & A' & Q1 & Q2 & Q3).
      assert (C' : Len (put_cells d s) = Capacity (put_cells d s)).
      { rewrite Q1, C. unfold put_cells, Capacity. cbn [buffer]. rewrite app_length, skipn_length. destruct L as (L1 & _). unfold Capacity, Len in *. lia. }
      eexists. split; [exact (full_shows _ L' C')|]. split; [|intros; contradiction].
      assert (E : l = skipn (Z.to_nat (head d)) (buffer d) ++ firstn (Z.to_nat (head d)) (buffer d)).
      { apply (shows_unique d); [exact Sh|exact (full_shows d L C)|]. destruct Sh as [Sl _]. destruct L as (L1 & _ & L3). lia. }
      rewrite E. rewrite !turn_perm.
      assert (F1 : firstn (Z.to_nat (Len d)) (buffer d) = buffer d) by (apply firstn_all2; rewrite C; unfold Capacity; lia).
      rewrite F1 in P. unfold put_cells. cbn [buffer]. rewrite skipn_all2 by (rewrite <- (Permutation_length P); lia). rewrite app_nil_r. exact P.
  Qed.
End Sorts.
