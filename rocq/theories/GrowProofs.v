(** GrowProofs.v -- the potential argument for doubling, and what Append does to the capacity. *)
From Verif Require Import Base BaseLemmas Effect VecSpec DequeHistory DequeModel DequeProofs DequeRunProofs.
From Verif Require Import DequeShareSpec DequeShareProofs GrowSpec GrowRun.
From Verif Require DequeSpec.
Local Open Scope Z_scope.

Section Grow.
  Context {T : Type}.
  Variable zero : T.
  Variable limit : Z.
  Hypothesis limit_ok : 7 <= limit < 2 ^ 63.
  Variable eqb : T -> T -> bool.
  Notation rep := (DequeProofs.rep (T := T) limit).
  Notation exec := (DequeHistory.exec zero limit eqb).
  Implicit Types (d : VecDeque T) (l : list T).

  (** What a call does to the length, as far as memory goes. *)
  Lemma step_length : forall l o l' a, DequeSpec.dstep eqb l o l' a ->
    Z.of_nat (length l') <= Z.of_nat (length l) + is_push (Call (D := VecDeque T) o) /\
    (o = DequeSpec.Clear -> l' = []).
  Proof.
    intros l o l' a H. inversion H; subst; cbn [is_push length]; rewrite ?app_length; cbn [length]; (split; [|try discriminate; auto]); try lia.
    - unfold seq_set. rewrite <- list_set_split by (match goal with H : DequeSpec.inside _ _ |- _ => destruct H end; lia). rewrite list_set_length. lia.
    - match goal with H : exchanged _ _ _ _ |- _ => destruct H as (E & _) end. lia.
    - assert ((length (filter p l) <= length l)%nat) by (clear; induction l as [|y l IH]; cbn; [|destruct (p y); cbn]; lia). lia.
    - assert ((length (dedup (fun kept x => eqb x kept) l) <= length l)%nat); [|lia].
      clear. destruct l as [|x l]; cbn; [lia|]. revert x. induction l as [|y l IH]; intros x; cbn; [lia|].
      destruct (eqb y x); cbn; [specialize (IH x) | specialize (IH y)]; lia.
    - rewrite map_length. lia.
  Qed.

  Notation call := (Call (D := VecDeque T)).
  (** An ordinary call that returns: the new capacity. *)
  Lemma step_rep : forall d l c o l' a d', rep d l c -> DequeSpec.dstep eqb l o l' a -> ordinary (call o) ->
    step zero limit eqb d (call o) = Ret d' -> rep d' l' (capacity_after o (length l) c).
  Proof.
    intros d l c o l' a d' R St Od E. cbn [step] in E.
    assert (F : Z.of_nat (capacity_after o (length l) c) <= limit).
    { pose proof (rep_pos _ _ _ _ R) as P. destruct (Z_le_gt_dec (Z.of_nat (capacity_after o (length l) c)) limit) as [|G]; [auto|exfalso].
      destruct o; cbn [capacity_after ordinary] in *; try lia; try tauto.
      all: assert (G' : limit < Z.of_nat (roomier (length l) c))
        by (unfold roomier; destruct (Nat.eqb_spec (length l) c) as [Q|Q]; rewrite ?Q in *; lia).
      all: destruct (Push_Panic zero limit limit_ok d l c x R G') as (E1 & E2); cbn [DequeHistory.exec] in E; rewrite ?E1, ?E2 in E; discriminate. }
    destruct (exec_exact zero limit limit_ok eqb d l c o l' a R St F) as (d1 & E1 & R1). rewrite E1 in E. cbn [bind fst] in E. congruence.
  Qed.
  (** Four cells for every push, while the buffer is less than half used. *)
  Definition potential (n c : Z) : Z := Z.max 0 (4 * n - 2 * c).
  Lemma step_potential : forall d l c o l' a d', rep d l c -> DequeSpec.dstep eqb l o l' a -> ordinary (call o) ->
    step zero limit eqb d (call o) = Ret d' ->
    cells_made (call o) (Capacity d) (Capacity d') + potential (Len d') (Capacity d') <=
      potential (Len d) (Capacity d) + 4 * is_push (call o) + 7 * is_clear (call o) /\
    (Capacity d' = Capacity d \/ Capacity d' = 7 \/ Capacity d' <= 2 * Len d').
  Proof.
    intros d l c o l' a d' R St Od E. pose proof (step_rep d l c o l' a d' R St Od E) as R'.
    destruct (step_length _ _ _ _ St) as (SL & SC).
    pose proof (rep_pos _ _ _ _ R) as P. pose proof (rep_pos _ _ _ _ R') as P'.
    unfold potential, Len. rewrite (rep_len _ _ _ _ R), (rep_len _ _ _ _ R'), (rep_cap _ _ _ _ R), (rep_cap _ _ _ _ R').
    destruct o; cbn [capacity_after ordinary is_push is_clear cells_made] in *; try tauto.
    all: try (rewrite Z.eqb_refl; split; [|left; reflexivity]; lia).
    1, 2: inversion St; subst; rewrite ?app_length in *; cbn [length] in *; destruct (Nat.eqb_spec (length l) c) as [Q|Q].
    1, 3: destruct (Z.eqb_spec (Z.of_nat (c + c)) (Z.of_nat c)); split; lia.
    1, 2: rewrite Z.eqb_refl; split; lia.
    rewrite SC by reflexivity. cbn [length]. split; lia.
  Qed.
  Lemma tally_bounds : forall l ops l' r, DequeSpec.dhistory eqb l ops l' r -> forall d c d' cells longest, rep d l c ->
    Forall ordinary (map call ops) -> tally zero limit eqb d (map call ops) = Ret (d', cells, longest) ->
    cells + potential (Len d') (Capacity d') <=
      potential (Len d) (Capacity d) + 4 * total is_push (map call ops) + 7 * total is_clear (map call ops) /\
    Len d <= longest /\ Capacity d' <= Z.max (Z.max (Capacity d) 7) (2 * longest) /\
    (exists c', rep d' l' c').
  Proof.
    induction 1 as [|l o l1 a ops l2 r St Hi IH]; intros d c d' cells longest R Od E; cbn [map tally total fold_right] in *.
    - injection E as <- <- <-. split; [lia|]. split; [lia|]. split; [lia | eauto].
    - inversion Od as [|? ? Od1 Od2]; subst. apply bind_Ret in E. destruct E as (d1 & E1 & E). apply bind_Ret in E. destruct E as (((d2 & k) & m) & E2 & E).
      injection E as <- <- <-.
      destruct (step_potential d l c o l1 a d1 R St Od1 E1) as (S1 & S2). pose proof (step_rep d l c o l1 a d1 R St Od1 E1) as R1.
      destruct (IH d1 _ d2 k m R1 Od2 E2) as (I1 & I2 & I3 & I4). unfold total in *. cbn [cells_made] in S1. split; [lia|]. split; [lia|]. split; [|exact I4]. clear I1 S1 IH. destruct S2 as [S2|[S2|S2]]; lia.
  Qed.


  (** *** An element taken from another deque and given away again *)
  Lemma relay_run : forall k e x c1 d c, rep e [x] c1 -> rep d [] c -> Z.of_nat c + Z.of_nat k <= limit ->
    exists d' cells, tally zero limit eqb d (concat (repeat [Appending e; Call DequeSpec.PopFront] k)) = Ret (d', cells, Z.min 1 (Z.of_nat k)) /\
      rep d' [] (c + k) /\ 2 * cells = Z.of_nat k * (2 * Z.of_nat c + Z.of_nat k + 1).
  Proof.
    induction k as [|k IH]; intros e x c1 d c Re R F; cbn [repeat concat app tally].
    - exists d, 0. unfold Len. rewrite (rep_len _ _ _ _ R), Nat.add_0_r. cbn [length]. split; [reflexivity|]. split; [auto | lia].
    - destruct (Append_spec zero limit limit_ok d [] c e [x] c1 R Re) as (d1 & e1 & E1 & R1 & _); [cbn [length]; lia|].
      cbn [step]. rewrite E1. cbn [bind fst]. cbn [app length] in R1.
      destruct (PopFront_cons limit limit_ok d1 x [] (c + 1)%nat R1) as (d2 & E2 & R2). cbn [DequeHistory.exec]. rewrite E2. cbn [bind fst snd].
      destruct (IH e x c1 d2 (c + 1)%nat Re R2) as (d3 & cells & E3 & R3 & C3); [lia|]. rewrite E3. cbn [bind cells_made].
      rewrite (rep_cap _ _ _ _ R), (rep_cap _ _ _ _ R1), (rep_cap _ _ _ _ R2), Z.eqb_refl. unfold Len.
      rewrite (rep_len _ _ _ _ R), (rep_len _ _ _ _ R1). cbn [length].
      destruct (Z.eqb_spec (Z.of_nat (c + 1)) (Z.of_nat c)); [lia|].
      eexists d3, _. split; [|split; [replace (c + S k)%nat with (c + 1 + k)%nat by lia; exact R3|]].
      + f_equal. f_equal. lia.
      + nia.
  Qed.
End Grow.
