(** ListRingProofs.v -- a list to which a copy of itself is appended: the walk never ends. *)
From Verif Require Import Base BaseLemmas Effect ListModel ListProofs ListIterProofs ListProps.
From Verif Require ListSpec.
Import ListSpec(forward, forward_nil, forward_node, backward, list_shows).
Local Open Scope nat_scope.

Section Ring.
  Context {T : Type}.
  Implicit Types (h : heap T).

  Lemma forward_nth : forall h p A xs, forward h p A xs -> forall i a, nth_error A i = Some a ->
    exists n, nth_error h a = Some n /\ nth_error xs i = Some (value n) /\ next n = nth_error A (S i).
  Proof.
    induction 1 as [|a n A xs N F IH]; intros i b Hi; [destruct i; discriminate|].
    destruct i as [|i]; cbn [nth_error] in *.
    - injection Hi as <-. exists n. split; [auto|]. split; [auto|]. inversion F; reflexivity.
    - apply IH. exact Hi.
  Qed.
  Lemma forward_first : forall h p A xs, forward h p A xs -> p = nth_error A 0.
  Proof. intros h p A xs F. inversion F; reflexivity. Qed.
  Lemma backward_first : forall h p A xs, backward h p A xs -> p = nth_error A 0.
  Proof. intros h p A xs F. inversion F; reflexivity. Qed.

  (** Every node leads to the next one, and the last one to the first. *)
  Definition ring h (A : list nat) (xs : list T) : Prop :=
    length A = length xs /\
    forall i a, nth_error A i = Some a ->
      exists n, nth_error h a = Some n /\ nth_error xs i = Some (value n) /\ next n = nth_error A (S i mod length xs).

  Lemma seq_from : forall k s, seq s k = map (fun j => s + j) (seq 0 k).
  Proof.
    induction k as [|k IH]; intros s; cbn [seq map]; [reflexivity|]. rewrite Nat.add_0_r. f_equal.
    rewrite (IH (S s)), (IH 1), map_map. apply map_ext. intros j. lia.
  Qed.
  Lemma ring_nexts : forall h A xs, ring h A xs -> forall k i, i < length xs ->
    nexts k (mkIter (nth_error A i)) h =
      Ret (mkIter (nth_error A ((i + k) mod length xs)), map (fun j => nth_error xs (j mod length xs)) (seq i k), h).
  Proof.
    intros h A xs (L & R). induction k as [|k IH]; intros i Hi; cbn [nexts seq map].
    - rewrite Nat.add_0_r, Nat.mod_small by auto. reflexivity.
    - destruct (nth_error A i) as [a|] eqn:Ea; [|apply nth_error_None in Ea; lia].
      destruct (R i a Ea) as (n & N & V & Nx). unfold Next. cbn [pointer].
      assert (E1 : (n0 <~ load (Some a);; mret (mkIter (next n0), Some (value n0))) h = Ret (mkIter (next n), Some (value n), h)).
      { rewrite (mb_Ret _ _ _ _ _ _ _ _ (load_spec _ _ _ N)). reflexivity. }
      rewrite (mb_Ret _ _ _ _ _ _ _ _ E1). cbn [fst snd]. rewrite Nx.
      assert (Hm : S i mod length xs < length xs) by (apply Nat.mod_upper_bound; lia).
      rewrite (mb_Ret _ _ _ _ _ _ _ _ (IH (S i mod length xs) Hm)). cbn [fst snd]. unfold mret.
      rewrite Nat.add_mod_idemp_l by lia. replace (S i + k) with (i + S k) by lia.
      rewrite (Nat.mod_small i) by auto. rewrite V. do 4 f_equal.
      rewrite (seq_from k (S i mod length xs)), (seq_from k (S i)), !map_map.
      apply map_ext. intros j. now rewrite Nat.add_mod_idemp_l by lia.
  Qed.

  Lemma ring_loop : forall h A xs, ring h A xs -> forall fuel i (acc : list T), i < length xs ->
    loop fuel (mkIter (nth_error A i)) (fun v x => mret (v ++ [x])) acc (h, tt) = Diverge.
  Proof.
    intros h A xs (L & R). induction fuel as [|k IH]; intros i acc Hi; cbn [loop]; [reflexivity|].
    destruct (nth_error A i) as [a|] eqn:Ea; [|apply nth_error_None in Ea; lia].
    destruct (R i a Ea) as (n & N & V & Nx).
    assert (E1 : Next (mkIter (Some a)) h = Ret (mkIter (next n), Some (value n), h)).
    { unfold Next. cbn [pointer]. rewrite (mb_Ret _ _ _ _ _ _ _ _ (load_spec _ _ _ N)). reflexivity. }
    rewrite (mb_Ret _ _ _ _ _ _ _ _ (onheap_Ret _ _ _ _ tt _ _ E1)). cbn [fst snd]. unfold mret at 1, mbind at 1. rewrite Nx. apply IH.
    apply Nat.mod_upper_bound. lia.
  Qed.

  Lemma append_copy_ring : forall h l A xs, list_shows h l A xs -> xs <> [] ->
    exists h', Append l l h = Ret (mkList (head l) (tail l) (u64 (len l + len l)), ListModel.Clear l, h') /\ ring h' A xs /\ head l = nth_error A 0.
  Proof.
    intros h l A xs Sh Ne. destruct (shows_own _ _ _ _ Sh) as ((_ & _ & _ & _ & ND) & EA & Ex). rewrite EA in ND.
    destruct Sh as (F & B & Ln).
    assert (L : length A = length xs) by (clear -F; induction F; cbn [length]; lia).
    pose proof (forward_first _ _ _ _ F) as Hh. pose proof (backward_first _ _ _ _ B) as Ht.
    assert (L0 : 0 < length A) by (rewrite L; destruct xs; [congruence|cbn [length]; lia]).
    destruct (nth_error A 0) as [a|] eqn:Ea; [|apply nth_error_None in Ea; lia].
    assert (Ht' : tail l = nth_error A (length A - 1)).
    { rewrite Ht. destruct A as [|z A' _] using rev_ind; [cbn [length] in L0; lia|]. rewrite rev_app_distr. cbn [rev app nth_error].
      rewrite app_length. cbn [length]. rewrite nth_error_app2 by lia. replace (length A' + 1 - 1 - length A') with 0 by lia. reflexivity. }
    destruct (nth_error A (length A - 1)) as [t|] eqn:Et; [|apply nth_error_None in Et; lia].
    destruct (forward_nth _ _ _ _ F _ _ Et) as (nt & Nt & Vt & Xt).
    unfold Append. rewrite Hh, Ht'. rewrite (mb_Ret _ _ _ _ _ _ _ _ (set_next_spec _ _ _ (Some a) Nt)).
    set (h1 := list_set h t (mkNode (value nt) (Some a) (prev nt))).
    assert (Lk : forall i c, nth_error A i = Some c -> exists n, nth_error h1 c = Some n /\ nth_error xs i = Some (value n) /\ next n = nth_error A (S i mod length xs)).
    { intros i c Hc. destruct (forward_nth _ _ _ _ F _ _ Hc) as (n & N & V & X). assert (Hi : i < length A) by (apply nth_error_Some; congruence).
      unfold h1. destruct (Nat.eq_dec i (length A - 1)) as [->|D].
      - assert (c = t) as -> by congruence. rewrite nth_error_list_set_eq by (apply nth_error_Some; congruence).
        eexists. split; [reflexivity|]. cbn [value next]. split; [congruence|]. replace (S (length A - 1)) with (length xs) by lia.
        rewrite Nat.mod_same by lia. now rewrite Ea.
      - assert (c <> t). { intros ->. apply D. apply (proj1 (NoDup_nth_error A) ND); [auto|congruence]. }
        rewrite nth_error_list_set_neq by auto. exists n. split; [auto|]. split; [auto|]. rewrite X. now rewrite Nat.mod_small by lia. }
    destruct (Lk 0 a Ea) as (na & Na & _ & _).
    rewrite (mb_Ret _ _ _ _ _ _ _ _ (set_prev_spec _ _ _ (Some t) Na)). unfold mret. eexists. split; [reflexivity|]. split; [|reflexivity].
    split; [auto|]. intros i c Hc. destruct (Lk i c Hc) as (n & N & V & X). destruct (Nat.eq_dec a c) as [<-|D].
    - rewrite nth_error_list_set_eq by (apply nth_error_Some; congruence). eexists. split; [reflexivity|]. cbn [value next].
      assert (n = na) as -> by congruence. auto.
    - rewrite nth_error_list_set_neq by auto. eauto.
  Qed.
End Ring.
