(** DequeProps.v -- properties C43 to C47 of VecDeque.

    [limit] is the largest length the runtime's make accepts; it is a parameter of
    every statement.  [layout limit d]: the contents may start anywhere in the
    buffer and wrap around.  [shows d l]: Len and Get show the sequence l. *)
From Coq Require Import Permutation Sorted.
From Verif Require Import Base BaseLemmas Effect CmpSpec VecSpec VecSortProofs DequeHistory.
From Verif Require Import DequeModel DequeProofs DequeRunProofs.
From Verif Require DequeSpec.
Local Open Scope Z_scope.
Import DequeSpec(at_, inside, dstep, dhistory, space, cost).

Definition limit_ok (limit : Z) : Prop := 7 <= limit < 2 ^ 63.

(** *** C43: a deque is a double-ended sequence *)

(** Every history within memory gives the specified answers, and afterwards the
    deque shows the specified sequence; in particular no call panics. *)
Theorem C43_history : forall (T : Type) (zero : T) limit eqb m l n ops l' answers,
  limit_ok limit -> makes zero limit m l n ->
  dhistory eqb l ops l' answers -> space n ops <= limit ->
  exists d d', m = Ret d /\ run zero limit eqb d ops = Ret (d', answers) /\ layout limit d' /\ shows d' l'.
Proof.
  intros T zero limit eqb m l n ops l' answers Ok Mk H Sp.
  destruct (history_run zero limit Ok eqb m l n ops l' answers Mk H Sp) as (d & d' & c & E & E' & R & _).
  destruct (rep_shows limit Ok _ _ _ R) as (S & L & _). exists d, d'. auto.
Qed.
Print Assumptions C43_history.

(** The specification leaves no call out: unsigned arguments, and both positions of
    Swap inside. *)
Definition admissible {T} (l : list T) (o : DequeSpec.dop (T := T)) : Prop :=
  match o with
  | DequeSpec.Get i => 0 <= i < 2 ^ 64
  | DequeSpec.Set_ i _ => 0 <= i < 2 ^ 64
  | DequeSpec.Reserve n => 0 <= n < 2 ^ 64
  | DequeSpec.Swap i j => inside l i /\ inside l j
  | _ => True
  end.
Theorem C43_specification_total : forall (T : Type) eqb (l : list T) o, admissible l o -> exists l' a, dstep eqb l o l' a.
Proof.
  intros T eqb l o A. destruct o; cbn [admissible] in A; try (eexists _, _; now constructor).
  - destruct l; eexists _, _; constructor.
  - destruct l as [|x l] using rev_ind; eexists _, _; constructor.
  - destruct (Z_lt_le_dec i (Z.of_nat (length l))); eexists _, _; [apply DequeSpec.d_set | apply DequeSpec.d_set_out].
    + unfold inside. lia.
    + lia.
  - destruct A as [A B]. unfold inside in *.
    destruct (nth_error l (Z.to_nat i)) as [x|] eqn:Ni; [|apply nth_error_None in Ni; lia].
    destruct (nth_error l (Z.to_nat j)) as [y|] eqn:Nj; [|apply nth_error_None in Nj; lia].
    eexists _, _. eapply DequeSpec.d_swap; [exact A | exact B | apply (list_set_exchanged _ _ _ _ _ Ni Nj)].
Qed.
Print Assumptions C43_specification_total.

(** A history with growth in mid-ring, both ends, and the run of the model. *)
Example C43_nonvacuous :
  exists l' answers, dhistory Z.eqb [] [DequeSpec.PushBack 1; DequeSpec.PushFront 0; DequeSpec.PushBack 2; DequeSpec.PopFront; DequeSpec.Get 1; DequeSpec.Back] l' answers
    /\ l' = [1; 2] /\ answers = [DequeSpec.Done; DequeSpec.Done; DequeSpec.Done; DequeSpec.Value (Some 0); DequeSpec.Value (Some 2); DequeSpec.Value (Some 2)]
    /\ makes 0 100 (VecDequeWithCapacity 0 100 1) [] 1 /\ space 1 [DequeSpec.PushBack 1; DequeSpec.PushFront 0; DequeSpec.PushBack 2; DequeSpec.PopFront; DequeSpec.Get 1; DequeSpec.Back] <= 100.
Proof.
  eexists _, _. split; [|split; [reflexivity|split; [reflexivity|split]]].
  - econstructor; [constructor|]. econstructor; [constructor|]. econstructor; [constructor|].
    econstructor; [constructor|]. econstructor; [apply (DequeSpec.d_get Z.eqb [1; 2] 1); lia|].
    econstructor; [apply (DequeSpec.d_back Z.eqb [1; 2])|]. constructor.
  - right; left. repeat split; lia.
  - vm_compute. discriminate.
Qed.
Example C43_run_example :
  (d <- VecDequeWithCapacity 0 100 1 ;; run 0 100 Z.eqb d [DequeSpec.PushBack 1; DequeSpec.PushFront 0; DequeSpec.PushBack 2; DequeSpec.PopFront; DequeSpec.Get 1; DequeSpec.Back])
  = Ret (mkDeque [1; 2; 0; 0] 2 0, [DequeSpec.Done; DequeSpec.Done; DequeSpec.Done; DequeSpec.Value (Some 0); DequeSpec.Value (Some 2); DequeSpec.Value (Some 2)]).
Proof. reflexivity. Qed.

Lemma phys_at : forall (T : Type) limit (b : list T) n h k, limit_ok limit -> 0 <= h < Z.of_nat (length b) -> Z.of_nat (length b) <= limit ->
  0 <= k < Z.of_nat (length b) ->
  ToPhysicalIndex (mkDeque b n h) k = Z.of_nat (ring (length b) (Z.to_nat h) (Z.to_nat k)).
Proof.
  intros T limit b n h k Ok Hh Hl Hk.
  pose proof (phys limit Ok b (Z.to_nat h) [] (Z.to_nat k) ltac:(lia) ltac:(lia) Hl) as P.
  unfold deq_of in P. rewrite !Z2Nat.id in P by lia. exact P.
Qed.

(** Swap with a position outside the sequence but inside the buffer does not panic:
    it brings a dead cell into the sequence. *)
Theorem C43_swap_outside_characterised : forall (T : Type) limit (d : VecDeque T) i j, limit_ok limit -> layout limit d ->
  0 <= i < Len d -> Len d <= j < Capacity d ->
  exists d' dead, Swap d i j = Ret d' /\ GetUnchecked d j = Ret dead /\ Len d' = Len d /\
    Get d' i = Ret (Some dead) /\ forall k, 0 <= k < 2 ^ 64 -> k <> i -> Get d' k = Get d k.
Proof.
  intros T limit [b n h] i j Ok (L1 & L2 & L3) Hi Hj. unfold Len, Capacity in *. cbn [dlen buffer head] in *.
  destruct Ok as [Ok1 Ok2].
  unfold Swap. destruct (Z.eqb_spec i j); [lia|].
  assert (Ph : forall k (b' : list T) n', 0 <= k < Z.of_nat (length b) -> length b' = length b ->
    ToPhysicalIndex (mkDeque b' n' h) k = Z.of_nat (ring (length b) (Z.to_nat h) (Z.to_nat k))).
  { intros k b' n' Hk Lb. rewrite <- Lb. apply (phys_at T limit); [split; auto|..]; rewrite Lb; auto. }
  rewrite !Ph by (auto; lia). cbn [buffer].
  set (pi := ring (length b) (Z.to_nat h) (Z.to_nat i)). set (pj := ring (length b) (Z.to_nat h) (Z.to_nat j)).
  assert (Hpi : (pi < length b)%nat) by (apply ring_lt; lia). assert (Hpj : (pj < length b)%nat) by (apply ring_lt; lia).
  destruct (idx_Ret b pi Hpi) as (x & Ex & Nx). destruct (idx_Ret b pj Hpj) as (y & Ey & Ny).
  rewrite !bidx_nat, Ex, Ey. cbn [bind]. rewrite bupd_nat, upd_Ret by auto. cbn [bind].
  rewrite bupd_nat, upd_Ret by (rewrite list_set_length; auto). cbn [bind].
  eexists _, y. split; [reflexivity|]. split; [unfold GetUnchecked; rewrite Ph by (auto; lia); cbn [buffer]; fold pj; now rewrite bidx_nat|].
  split; [reflexivity|].
  assert (Ne : pi <> pj) by (intros E; apply ring_inj in E; lia).
  split.
  - unfold Get, Len. cbn [dlen]. destruct (Z.leb_spec n i); [lia|].
    rewrite Ph by (try lia; now rewrite !list_set_length). cbn [buffer]. fold pi. rewrite bidx_nat. unfold idx.
    rewrite nth_error_list_set_neq by congruence. rewrite nth_error_list_set_eq by auto. reflexivity.
  - intros k Hk Nk. unfold Get, Len. cbn [dlen]. destruct (Z.leb_spec n k); [reflexivity|].
    rewrite !Ph by (try lia; now rewrite !list_set_length). cbn [buffer]. rewrite !bidx_nat. unfold idx.
    rewrite nth_error_list_set_neq by (intros E; apply ring_inj in E; lia).
    rewrite nth_error_list_set_neq by (intros E; apply ring_inj in E; lia). reflexivity.
Qed.
Print Assumptions C43_swap_outside_characterised.
Example C43_swap_outside_nonvacuous :
  let d := mkDeque [5; 7; 8; 9] 2 0 in layout 100 d /\ shows d [5; 7] /\ (d' <- Swap d 0 3 ;; Get d' 0) = Ret (Some 9).
Proof.
  cbv zeta. split; [vm_compute; intuition discriminate|]. split; [|reflexivity].
  assert (R : rep 100 (mkDeque [5; 7; 8; 9] 2 0) [5; 7] 4%nat).
  { exists [5; 7; 8; 9], 0%nat. split; [reflexivity|]. split; [|split; [reflexivity | lia]].
    unfold repr. cbn [length]. split; [lia|]. split; [lia|]. intros [|[|i]] Hi; [reflexivity|reflexivity|lia]. }
  apply (rep_shows 100 ltac:(lia) _ _ _ R).
Qed.

(** The text of a deque. *)
Theorem C43_display : forall (T : Type) limit (display : T -> list Z) d l, limit_ok limit -> layout limit d -> shows d l ->
  Display (Some display) d = Ret ([86; 101; 99; 68; 101; 113; 117; 101; 91] ++ comma_separated (map display l) ++ [93]).
Proof. intros T limit display d l Ok L S. eapply Display_spec; [exact Ok | apply shows_rep; eauto]. Qed.
Print Assumptions C43_display.

(** *** C44: growth *)

(** Every layout shows some sequence, so the theorems below speak of every layout. *)
Theorem C44_every_layout : forall (T : Type) limit (d : VecDeque T), limit_ok limit -> layout limit d -> exists l, shows d l.
Proof.
  intros T limit [b n h] Ok (L1 & L2 & L3). unfold Len, Capacity in *. cbn [dlen buffer head] in *.
  destruct b as [|z b']; [cbn in L2; lia|]. set (b := z :: b') in *.
  set (l := map (fun i => nth (ring (length b) (Z.to_nat h) i) b z) (seq 0 (Z.to_nat n))).
  assert (Ll : length l = Z.to_nat n) by (unfold l; now rewrite map_length, seq_length).
  exists l. assert (R : rep limit (mkDeque b n h) l (length b)).
  { exists b, (Z.to_nat h). split; [unfold deq_of; f_equal; lia|]. split; [|split; [reflexivity|lia]].
    unfold repr. split; [lia|]. split; [lia|]. intros i Hi. unfold l. 
    rewrite (map_nth_error _ i _ (d := i)).
    - rewrite (nth_error_nth' b z); [reflexivity|]. apply ring_lt; lia.
    - rewrite (nth_error_nth' _ 0%nat) by (rewrite seq_length; lia). rewrite seq_nth by lia. reflexivity. }
  apply (rep_shows limit Ok _ _ _ R).
Qed.
Print Assumptions C44_every_layout.

(** A push onto a full deque doubles the buffer and changes nothing else. *)
Theorem C44_push_grows : forall (T : Type) (zero : T) limit d l x, limit_ok limit -> layout limit d -> shows d l ->
  Len d = Capacity d -> 2 * Capacity d <= limit ->
  exists d1 d2, PushBack zero limit d x = Ret d1 /\ PushFront zero limit d x = Ret d2 /\
    layout limit d1 /\ shows d1 (l ++ [x]) /\ Capacity d1 = 2 * Capacity d /\
    layout limit d2 /\ shows d2 (x :: l) /\ Capacity d2 = 2 * Capacity d.
Proof.
  intros T zero limit d l x Ok L S F H. pose proof (shows_rep limit Ok _ _ S L) as R.
  pose proof (rep_len _ _ _ _ R) as Ln. unfold Len in F. pose proof (rep_pos _ _ _ _ R) as P.
  assert (Ro : Z.of_nat (roomier (length l) (Z.to_nat (Capacity d))) = 2 * Capacity d).
  { unfold roomier. destruct (Nat.eqb_spec (length l) (Z.to_nat (Capacity d))); lia. }
  destruct (PushBack_spec zero limit Ok d l _ x R) as (d1 & E1 & R1); [lia|].
  destruct (PushFront_spec zero limit Ok d l _ x R) as (d2 & E2 & R2); [lia|].
  destruct (rep_shows limit Ok _ _ _ R1) as (S1 & L1 & C1). destruct (rep_shows limit Ok _ _ _ R2) as (S2 & L2 & C2).
  exists d1, d2. rewrite C1, C2, Ro. auto 10.
Qed.
Print Assumptions C44_push_grows.
(** Reserve adds exactly the requested number of cells and changes nothing else. *)
Theorem C44_reserve_grows : forall (T : Type) (zero : T) limit d l n, limit_ok limit -> layout limit d -> shows d l ->
  0 <= n -> Capacity d + n <= limit ->
  exists d', Reserve zero limit d n = Ret d' /\ layout limit d' /\ shows d' l /\ Capacity d' = Capacity d + n.
Proof.
  intros T zero limit d l n Ok L S Hn H. pose proof (shows_rep limit Ok _ _ S L) as R. pose proof (rep_pos _ _ _ _ R) as P.
  destruct (Reserve_spec zero limit Ok d l _ (Z.to_nat n) R) as (d' & E & R'); [lia|]. rewrite Z2Nat.id in E by lia.
  destruct (rep_shows limit Ok _ _ _ R') as (S' & L' & C'). exists d'. rewrite C'. repeat split; auto; try apply L'; try apply S'. lia.
Qed.
Print Assumptions C44_reserve_grows.
(** When the buffer cannot grow: a push fails exactly when the deque is full and twice
    the capacity is too much; Reserve fails when its sum is too much, except that a
    sum of 2^64 or more wraps and then Reserve does nothing. *)
Theorem C44_memory_characterised : forall (T : Type) (zero : T) limit d x n, limit_ok limit -> layout limit d -> 0 <= n < 2 ^ 64 ->
  (PushBack zero limit d x = Panic <-> Len d = Capacity d /\ limit < 2 * Capacity d) /\
  (PushFront zero limit d x = Panic <-> Len d = Capacity d /\ limit < 2 * Capacity d) /\
  (Reserve zero limit d n = Panic <-> limit < Capacity d + n < 2 ^ 64) /\
  (2 ^ 64 <= Capacity d + n -> Reserve zero limit d n = Ret d).
Proof.
  intros T zero limit d x n Ok L Hn. destruct (C44_every_layout T limit d Ok L) as (l & S).
  pose proof (shows_rep limit Ok _ _ S L) as R. pose proof (rep_len _ _ _ _ R) as Ln. pose proof (rep_pos _ _ _ _ R) as P.
  assert (Push : (Len d = Capacity d /\ limit < 2 * Capacity d -> PushBack zero limit d x = Panic /\ PushFront zero limit d x = Panic)
     /\ (~ (Len d = Capacity d /\ limit < 2 * Capacity d) -> PushBack zero limit d x <> Panic /\ PushFront zero limit d x <> Panic)).
  { unfold Len. rewrite Ln. split.
    - intros (A & B). apply (Push_Panic zero limit Ok d l _ x R). unfold roomier.
      destruct (Nat.eqb_spec (length l) (Z.to_nat (Capacity d))); lia.
    - intros A. assert (Z.of_nat (roomier (length l) (Z.to_nat (Capacity d))) <= limit).
      { unfold roomier. destruct (Nat.eqb_spec (length l) (Z.to_nat (Capacity d))); lia. }
      destruct (PushBack_spec zero limit Ok d l _ x R) as (d1 & E1 & _); [lia|].
      destruct (PushFront_spec zero limit Ok d l _ x R) as (d2 & E2 & _); [lia|]. rewrite E1, E2. split; discriminate. }
  destruct Push as [Push1 Push2].
  assert (Dec : {Len d = Capacity d /\ limit < 2 * Capacity d} + {~ (Len d = Capacity d /\ limit < 2 * Capacity d)}).
  { destruct (Z.eq_dec (Len d) (Capacity d)); [destruct (Z_lt_le_dec limit (2 * Capacity d)); [left | right] | right]; lia. }
  assert (W : 2 ^ 64 <= Capacity d + n -> Reserve zero limit d n = Ret d).
  { intros W. unfold Reserve. destruct Ok as [Ok1 Ok2]. replace (u64 (Capacity d + n)) with (Capacity d + n - 2 ^ 64).
    - destruct (Z.ltb_spec (Capacity d) (Capacity d + n - 2 ^ 64)); [lia | reflexivity].
    - unfold u64. replace (Capacity d + n) with (Capacity d + n - 2 ^ 64 + 1 * 2 ^ 64) at 2 by lia.
      rewrite Z.mod_add by lia. rewrite Z.mod_small; lia. }
  split; [|split; [|split; [|exact W]]].
  - destruct Dec as [D|D]; [now split; [|intros; apply Push1] | split; [intros E; now apply Push2 in D | now intros D']].
  - destruct Dec as [D|D]; [now split; [|intros; apply Push1] | split; [intros E; now apply Push2 in D | now intros D']].
  - destruct (Z_le_gt_dec (Capacity d + n) limit) as [A|A].
    + destruct (C44_reserve_grows T zero limit d l n Ok L S ltac:(lia) A) as (d' & E & _). rewrite E. split; [discriminate | lia].
    + destruct (Z_lt_le_dec (Capacity d + n) (2 ^ 64)) as [B|B].
      * split; [lia|]. intros _. unfold Reserve. destruct Ok as [Ok1 Ok2]. rewrite u64_small by lia.
        destruct (Z.ltb_spec (Capacity d) (Capacity d + n)); [|lia]. rewrite make_Panic by lia. reflexivity.
      * rewrite W by auto. split; [discriminate | lia].
Qed.
Print Assumptions C44_memory_characterised.
(** The three ways of moving a wrapped sequence into the larger buffer. *)
Example C44_nonvacuous :
  let full h := mkDeque [10; 11; 12; 13; 14] 5 h in
  layout 100 (full 0) /\ layout 100 (full 1) /\ layout 100 (full 4) /\
  shows (full 4) [14; 10; 11; 12; 13] /\
  Grow 0 100 (full 0) = Ret (mkDeque [10; 11; 12; 13; 14; 0; 0; 0; 0; 0] 5 0) /\
  Grow 0 100 (full 1) = Ret (mkDeque [10; 11; 12; 13; 14; 10; 0; 0; 0; 0] 5 1) /\
  Grow 0 100 (full 4) = Ret (mkDeque [10; 11; 12; 13; 14; 0; 0; 0; 0; 14] 5 9).
Proof.
  cbv zeta. split; [vm_compute; intuition discriminate|]. split; [vm_compute; intuition discriminate|].
  split; [vm_compute; intuition discriminate|]. split; [|vm_compute; auto].
  assert (R : rep 100 (mkDeque [10; 11; 12; 13; 14] 5 4) [14; 10; 11; 12; 13] 5%nat).
  { exists [10; 11; 12; 13; 14], 4%nat. split; [reflexivity|]. split; [|split; [reflexivity | lia]].
    unfold repr. cbn [length]. split; [lia|]. split; [lia|]. intros i Hi. do 5 (destruct i; [reflexivity|]). lia. }
  apply (rep_shows 100 ltac:(lia) _ _ _ R).
Qed.

(** *** C45: bulk operations *)

(** Retain calls the predicate once per element, front to back, and keeps those for
    which it answered true; if the predicate panics, so does Retain. *)
Theorem C45_retain : forall (T : Type) limit S (f : T -> M S bool) d l s, limit_ok limit -> layout limit d -> shows d l ->
  match DequeSpec.each_filter f l s with
  | Ret (kept, s') => exists d', Retain d f s = Ret (d', s') /\ layout limit d' /\ shows d' kept
  | Panic => Retain d f s = Panic
  | Diverge => Retain d f s = Diverge
  end.
Proof.
  intros T limit S f d l s Ok L Sh. pose proof (shows_rep limit Ok _ _ Sh L) as R.
  pose proof (Retain_spec limit Ok S f d l _ s R) as H. destruct (DequeSpec.each_filter f l s) as [[k s']| |]; auto.
  destruct H as (d' & E & R' & _). destruct (rep_shows limit Ok _ _ _ R') as (S' & L' & _). eauto.
Qed.
Print Assumptions C45_retain.
(** With a predicate without effects, that is filter. *)
Theorem C45_retain_filter : forall (T : Type) limit (p : T -> bool) d l, limit_ok limit -> layout limit d -> shows d l ->
  exists d', Retain d (fun x => mret (p x)) tt = Ret (d', tt) /\ layout limit d' /\ shows d' (filter p l).
Proof.
  intros T limit p d l Ok L Sh. pose proof (C45_retain T limit unit (fun x => mret (p x)) d l tt Ok L Sh) as H.
  now rewrite each_filter_pure in H.
Qed.
Print Assumptions C45_retain_filter.
Theorem C45_dedup_fill : forall (T : Type) limit eqb (x : T) d l, limit_ok limit -> layout limit d -> shows d l ->
  (exists d', Dedup (Some eqb) d = Ret d' /\ layout limit d' /\ shows d' (dedup (fun kept y => eqb y kept) l)) /\
  (exists d', Fill d x = Ret d' /\ layout limit d' /\ shows d' (map (fun _ => x) l)).
Proof.
  intros T limit eqb x d l Ok L Sh. pose proof (shows_rep limit Ok _ _ Sh L) as R. split.
  - destruct (Dedup_spec limit Ok eqb d l _ R) as (d' & E & R' & _). destruct (rep_shows limit Ok _ _ _ R') as (S' & L' & _). eauto.
  - destruct (Fill_spec limit Ok d l _ x R) as (d' & E & R' & _). destruct (rep_shows limit Ok _ _ _ R') as (S' & L' & _). eauto.
Qed.
Print Assumptions C45_dedup_fill.
(** FillWith calls the closure once per element and stores the answers in order. *)
Theorem C45_fill_with : forall (T : Type) limit S (f : M S T) d l s, limit_ok limit -> layout limit d -> shows d l ->
  match DequeSpec.replicate f (length l) s with
  | Ret (ys, s') => exists d', FillWith d f s = Ret (d', s') /\ layout limit d' /\ shows d' ys
  | Panic => FillWith d f s = Panic
  | Diverge => FillWith d f s = Diverge
  end.
Proof.
  intros T limit S f d l s Ok L Sh. pose proof (shows_rep limit Ok _ _ Sh L) as R.
  pose proof (FillWith_spec limit Ok S f d l _ s R) as H. destruct (DequeSpec.replicate f (length l) s) as [[k s']| |]; auto.
  destruct H as (d' & E & R' & _). destruct (rep_shows limit Ok _ _ _ R') as (S' & L' & _). eauto.
Qed.
Print Assumptions C45_fill_with.
Theorem C45_append : forall (T : Type) (zero : T) limit d l e k, limit_ok limit -> layout limit d -> shows d l ->
  layout limit e -> shows e k -> Capacity d + Len e <= limit ->
  exists d' e', Append zero limit d e = Ret (d', e') /\
    layout limit d' /\ shows d' (l ++ k) /\ layout limit e' /\ shows e' [].
Proof.
  intros T zero limit d l e k Ok L Sh L2 Sh2 H. pose proof (shows_rep limit Ok _ _ Sh L) as R.
  pose proof (shows_rep limit Ok _ _ Sh2 L2) as R2. pose proof (rep_len _ _ _ _ R2) as Ln. unfold Len in H. rewrite Ln in H.
  pose proof (rep_pos _ _ _ _ R) as P.
  destruct (Append_spec zero limit Ok d l _ e k _ R R2) as (d' & e' & E & R' & R2'); [lia|].
  destruct (rep_shows limit Ok _ _ _ R') as (S' & L' & _). destruct (rep_shows limit Ok _ _ _ R2') as (S2' & L2' & _).
  exists d', e'. auto.
Qed.
Print Assumptions C45_append.
(** A non-empty deque appended to itself: the call never returns. *)
Theorem C45_append_self_never_returns : forall (T : Type) (zero : T) limit d fuel d', limit_ok limit -> layout limit d -> 0 < Len d ->
  AppendSelf zero limit fuel d <> Ret d'.
Proof.
  intros T zero limit d fuel d' Ok L H. destruct (C44_every_layout T limit d Ok L) as (l & S).
  pose proof (shows_rep limit Ok _ _ S L) as R. pose proof (rep_len _ _ _ _ R) as Ln. pose proof (rep_pos _ _ _ _ R) as P.
  unfold AppendSelf. destruct (Reserve zero limit d (Len d)) as [d1| |] eqn:E; cbn [bind]; try discriminate.
  unfold Len in *. rewrite Ln in *. destruct Ok as [Ok1 Ok2].
  destruct (Reserve_Ret_rep zero limit (conj Ok1 Ok2) d l _ (Z.of_nat (length l)) d1 R ltac:(lia) E) as (c' & R1).
  destruct (append_self_loop zero limit fuel d1 0) as [d2| |] eqn:E2; cbn [bind]; try discriminate.
  exfalso. apply (self_loop zero limit (conj Ok1 Ok2) fuel d1 l c' 0%nat d2 R1 ltac:(lia) E2).
Qed.
Print Assumptions C45_append_self_never_returns.
Theorem C45_clone : forall (T : Type) (zero : T) limit d l, limit_ok limit -> layout limit d -> shows d l ->
  exists d', Clone zero limit d = Ret d' /\ layout limit d' /\ shows d' l.
Proof.
  intros T zero limit d l Ok L Sh. pose proof (shows_rep limit Ok _ _ Sh L) as R.
  destruct (Clone_spec zero limit Ok d l _ R) as (d' & E & R'). destruct (rep_shows limit Ok _ _ _ R') as (S' & L' & _). eauto.
Qed.
Print Assumptions C45_clone.
Theorem C45_eq : forall (T : Type) limit eqb (d : VecDeque T) l e k, limit_ok limit -> layout limit d -> shows d l -> layout limit e -> shows e k ->
  exists b, DequeModel.Eq (Some eqb) d e = Ret b /\
    (b = true <-> Forall2 (fun x y => eqb x y = true) l k).
Proof.
  intros T limit eqb d l e k Ok L Sh L2 Sh2. pose proof (shows_rep limit Ok _ _ Sh L) as R.
  pose proof (shows_rep limit Ok _ _ Sh2 L2) as R2. eexists. split; [eapply Eq_spec; eauto|].
  clear. revert k. induction l as [|x l IH]; intros [|y k]; cbn [same_elements].
  - split; auto.
  - split; [discriminate | inversion 1].
  - split; [discriminate | inversion 1].
  - rewrite andb_true_iff, IH. split; [intros []; now constructor | inversion 1; auto].
Qed.
Print Assumptions C45_eq.
(** A wrapped deque. *)
Example C45_nonvacuous :
  let d := mkDeque [2; 2; 3; 0; 1] 4 4 in layout 100 d /\ shows d [1; 2; 2; 3] /\
  (d' <- Dedup (Some Z.eqb) d ;; It_Collect (IntoIter d')) = Ret [1; 2; 3] /\
  (p <- Append 0 100 d d ;; It_Collect (IntoIter (fst p))) = Ret [1; 2; 2; 3; 1; 2; 2; 3] /\
  (p <- Retain d (fun x s => Ret (Z.even x, s ++ [x])) [] ;; l <- It_Collect (IntoIter (fst p)) ;; Ret (l, snd p)) = Ret ([2; 2], [1; 2; 2; 3]).
Proof.
  cbv zeta. split; [vm_compute; intuition discriminate|]. split; [|vm_compute; auto].
  assert (R : rep 100 (mkDeque [2; 2; 3; 0; 1] 4 4) [1; 2; 2; 3] 5%nat).
  { exists [2; 2; 3; 0; 1], 4%nat. split; [reflexivity|]. split; [|split; [reflexivity | lia]].
    unfold repr. cbn [length]. split; [lia|]. split; [lia|]. intros i Hi. do 4 (destruct i; [reflexivity|]). lia. }
  apply (rep_shows 100 ltac:(lia) _ _ _ R).
Qed.

(** *** C46: AsSlice, Sort and BinarySearch *)

(** What they really work on: cells 0 to len-1 of the buffer, while the sequence
    starts at cell [head]. *)
Theorem C46_characterised : forall (T : Type) limit (d : VecDeque T) cmp, limit_ok limit -> layout limit d ->
  let cells := firstn (Z.to_nat (Len d)) (buffer d) in
  AsSlice d = Ret cells /\
  (forall i, 0 <= i < Len d -> Get d i = Ret (nth_error (buffer d) (Z.to_nat ((head d + i) mod Capacity d)))) /\
  (total_preorder cmp -> exists d' cells', Sort (Some cmp) d = Ret d' /\ SortBy cmp d = Ret d' /\ AsSlice d' = Ret cells' /\
     stably_sorted cmp cells cells' /\ Len d' = Len d /\ head d' = head d /\
     skipn (Z.to_nat (Len d)) (buffer d') = skipn (Z.to_nat (Len d)) (buffer d)).
Proof.
  intros T limit [b n h] cmp Ok (L1 & L2 & L3). unfold Len, Capacity in *. cbn [dlen buffer head] in *. cbv zeta.
  assert (A : AsSlice (mkDeque b n h) = Ret (firstn (Z.to_nat n) b)).
  { unfold AsSlice, Capacity. cbn [dlen buffer]. now rewrite (proj2 (Z.leb_le _ _)) by lia. }
  destruct Ok as [Ok1 Ok2].
  split; [exact A|]. split.
  - intros i Hi. unfold Get, Len. cbn [dlen]. destruct (Z.leb_spec n i); [lia|].
    rewrite (phys_at T limit) by (unfold limit_ok; lia). cbn [buffer]. rewrite bidx_nat.
    replace (Z.to_nat ((h + i) mod Z.of_nat (length b))) with (ring (length b) (Z.to_nat h) (Z.to_nat i)).
    + destruct (idx_Ret b (ring (length b) (Z.to_nat h) (Z.to_nat i))) as (x & Ex & Nx); [apply ring_lt; lia|].
      rewrite Ex, Nx. reflexivity.
    + destruct (Z_lt_le_dec (h + i) (Z.of_nat (length b))).
      * rewrite Z.mod_small by lia. ring_cases.
      * replace (h + i) with (h + i - Z.of_nat (length b) + 1 * Z.of_nat (length b)) by lia.
        rewrite Z.mod_add by lia. rewrite Z.mod_small by lia. ring_cases.
  - intros TP. unfold SortBy, Sort. rewrite A. cbn [bind VecModel.sort_data dlen buffer head].
    set (s' := VecModel.stable_sort _ _).
    assert (Pm : Permutation (firstn (Z.to_nat n) b) s') by apply sort_perm.
    assert (Ls : length s' = Z.to_nat n).
    { rewrite <- (Permutation_length Pm). apply firstn_length_le. lia. }
    eexists _, s'. split; [reflexivity|]. split; [reflexivity|]. cbn [dlen head buffer]. rewrite Ls.
    split; [|split; [|repeat split]].
    + unfold AsSlice, Capacity. cbn [dlen buffer]. rewrite app_length, skipn_length, Ls.
      rewrite (proj2 (Z.leb_le _ _)) by lia. f_equal. rewrite <- Ls. now rewrite firstn_app, Nat.sub_diag, firstn_all, firstn_O, app_nil_r.
    + split; [exact Pm|]. split; [now apply sort_ascending | now apply sort_stable].
    + rewrite skipn_app, Ls, Nat.sub_diag. cbn [skipn]. rewrite skipn_all2 by lia. reflexivity.
Qed.
Print Assumptions C46_characterised.

(** So the property fails as soon as the front has been used: a pushed element is not
    in the slice, a present element is not found, and Sort leaves the sequence as it
    was. *)
Theorem C46_refuted :
  exists d, (d <- VecDequeNew 0 100 ;; d <- PushFront 0 100 d 1 ;; PushFront 0 100 d 2) = Ret d /\
  layout 100 d /\ shows d [2; 1] /\
  AsSlice d = Ret [0; 0] /\
  BinarySearchBy (fun x => match x ?= 2 with Lt => Less | Datatypes.Eq => Equal | Gt => Greater end) d = Ret None /\
  exists d', SortBy (fun a b => match a ?= b with Lt => Less | Datatypes.Eq => Equal | Gt => Greater end) d = Ret d' /\ shows d' [2; 1].
Proof.
  eexists. split; [reflexivity|].
  assert (S : shows (mkDeque [0; 0; 0; 0; 0; 2; 1] 2 5) [2; 1]).
  { assert (R : rep 100 (mkDeque [0; 0; 0; 0; 0; 2; 1] 2 5) [2; 1] 7%nat).
    { exists [0; 0; 0; 0; 0; 2; 1], 5%nat. split; [reflexivity|]. split; [|split; [reflexivity | lia]].
      unfold repr. cbn [length]. split; [lia|]. split; [lia|]. intros i Hi. do 2 (destruct i; [reflexivity|]). lia. }
    apply (rep_shows 100 ltac:(lia) _ _ _ R). }
  split; [vm_compute; intuition discriminate|]. split; [exact S|]. split; [reflexivity|]. split; [reflexivity|].
  eexists. split; [reflexivity|]. exact S.
Qed.
Print Assumptions C46_refuted.

(** It holds after every history that pushes and pops at the back only. *)
Theorem C46_back_only_partial : forall (T : Type) (zero : T) limit eqb m l n ops l' answers,
  limit_ok limit -> makes zero limit m l n -> dhistory eqb l ops l' answers -> space n ops <= limit ->
  Forall front_untouched ops ->
  exists d d', m = Ret d /\ run zero limit eqb d ops = Ret (d', answers) /\ layout limit d' /\ shows d' l' /\
  AsSlice d' = Ret l' /\
  (forall cmp, total_preorder cmp -> exists s k, Sort (Some cmp) d' = Ret s /\ SortBy cmp d' = Ret s /\
     layout limit s /\ shows s k /\ stably_sorted cmp l' k) /\
  (forall cmp s, total_preorder cmp -> SortUnstableBy cmp d' s ->
     layout limit s /\ exists k, shows s k /\ Permutation l' k /\ ascending cmp k) /\
  (forall f, exists r, BinarySearchBy f d' = Ret r /\
     match r with
     | Some i => exists x, nth_error l' i = Some x /\ f x = Equal
     | None => split_by f l' -> forall i x, nth_error l' i = Some x -> f x <> Equal
     end) /\
  (forall cmp v, BinarySearch (Some cmp) d' v = BinarySearchBy (fun x => cmp x v) d').
Proof.
  intros T zero limit eqb m l n ops l' answers Ok Mk H Sp Fr.
  destruct (history_run zero limit Ok eqb m l n ops l' answers Mk H Sp) as (d & d' & c & E & E' & R & H0).
  specialize (H0 Fr). destruct (rep_shows limit Ok _ _ _ R) as (S & L & _). exists d, d'.
  split; [exact E|]. split; [exact E'|]. split; [exact L|]. split; [exact S|].
  pose proof (AsSlice_head0 limit _ _ _ R H0) as As. split; [exact As|].
  split; [|split; [|split]].
  - intros cmp TP. destruct (Sort_head0 limit cmp d' l' c R H0 TP) as (s & k & Es & Rs & St & _).
    destruct (rep_shows limit Ok _ _ _ Rs) as (S' & L' & _). exists s, k. auto.
  - intros cmp s TP (a & b & Ea & Sb & ->). rewrite As in Ea. injection Ea as <-. destruct Sb as (Pm & As').
    pose proof (store_head0 limit d' l' c b R H0 ltac:(symmetry; now apply Permutation_length)) as Rb.
    destruct (rep_shows limit Ok _ _ _ Rb) as (S' & L' & _). split; [exact L'|]. exists b. split; [exact S'|]. split; [exact Pm|].
    apply ascending_nth. intros i j x y Hij Ni Nj. specialize (As' i j x y Hij Ni Nj).
    unfold le_by. unfold VecModel.is_less in As'. rewrite (tp_flip _ TP y x). destruct (cmp y x); cbn; congruence.
  - intros f. unfold BinarySearchBy. rewrite (search_head0 limit _ _ _ _ R H0). apply search_data_spec.
  - intros cmp v. unfold BinarySearch, BinarySearchBy. reflexivity.
Qed.
Print Assumptions C46_back_only_partial.
Example C46_partial_nonvacuous :
  exists l' answers, dhistory Z.eqb [] [DequeSpec.PushBack 2; DequeSpec.PushBack 1; DequeSpec.PushBack 3; DequeSpec.PopBack] l' answers
    /\ l' = [2; 1] /\ Forall front_untouched [DequeSpec.PushBack 2; DequeSpec.PushBack 1; DequeSpec.PushBack 3; @DequeSpec.PopBack Z].
Proof.
  eexists _, _. split; [|split; [reflexivity | repeat constructor]].
  repeat (econstructor; [constructor|]). apply (DequeSpec.h_nil Z.eqb [2; 1]).
Qed.

(** *** C47: iteration *)

(** k calls of Next. *)
Fixpoint nexts {T} (k : nat) (it : VecDequeIter T) : out (VecDequeIter T * list (option T)) :=
  match k with
  | O => Ret (it, [])
  | S k' => p <- Next it ;; q <- nexts k' (fst p) ;; Ret (fst q, snd p :: snd q)
  end.

Lemma nexts_from : forall (T : Type) limit d l c k i, 7 <= limit < 2 ^ 63 -> rep limit (T := T) d l c -> (i <= length l)%nat ->
  exists j, (j <= length l)%nat /\ nexts k (mkIter d (Z.of_nat i)) = Ret (mkIter d (Z.of_nat j), map (fun n => nth_error l (i + n)) (seq 0 k)).
Proof.
  intros T limit d l c k i Ok R. revert i. induction k as [|k IH]; intros i Hi; cbn [nexts seq map].
  - exists i. auto.
  - rewrite (Next_spec limit Ok d l c i R Hi). cbn [bind fst snd].
    destruct (IH (if (i <? length l)%nat then S i else i)) as (j & Hj & E); [destruct (Nat.ltb_spec i (length l)); lia|].
    rewrite E. cbn [bind fst snd]. exists j. split; [exact Hj|]. do 2 f_equal. rewrite Nat.add_0_r. f_equal.
    rewrite <- seq_shift, map_map. apply map_ext. intros m. destruct (Nat.ltb_spec i (length l)).
    + f_equal. lia.
    + transitivity (@None T); [|symmetry]; apply nth_error_None; lia.
Qed.

(** Next enumerates the sequence front to back, then answers None for ever. *)
Theorem C47_next : forall (T : Type) limit (d : VecDeque T) l k, limit_ok limit -> layout limit d -> shows d l ->
  exists it, nexts k (IntoIter d) = Ret (it, map (nth_error l) (seq 0 k)).
Proof.
  intros T limit d l k Ok L S. pose proof (shows_rep limit Ok _ _ S L) as R.
  destruct (nexts_from T limit d l _ k 0 Ok R) as (j & _ & E); [lia|]. eauto.
Qed.
Print Assumptions C47_next.
(** After any number of calls of Next, the combinators still act on the whole
    sequence, in order, one closure call per element. *)
Theorem C47_combinators_characterised : forall (T : Type) (zero : T) limit S (d : VecDeque T) l k it seen, limit_ok limit -> layout limit d -> shows d l ->
  nexts k (IntoIter d) = Ret (it, seen) ->
  (forall (f : T -> M S T) s, match DequeSpec.each_map f l s with
     | Ret (ys, s') => exists n, It_Map zero limit it f s = Ret (IntoIter n, s') /\ layout limit n /\ shows n ys
     | Panic => It_Map zero limit it f s = Panic | Diverge => It_Map zero limit it f s = Diverge end) /\
  (forall (f : T -> M S bool) s, match DequeSpec.each_filter f l s with
     | Ret (ys, s') => exists n, It_Filter zero limit it f s = Ret (IntoIter n, s') /\ layout limit n /\ shows n ys
     | Panic => It_Filter zero limit it f s = Panic | Diverge => It_Filter zero limit it f s = Diverge end) /\
  (forall (f : T -> T -> M S T) a s, It_Fold it a f s = DequeSpec.each_fold f a l s) /\
  It_Collect it = Ret l /\
  It_Rev zero limit it = Panic.
Proof.
  intros T zero limit S d l k it seen Ok L Sh E. pose proof (shows_rep limit Ok _ _ Sh L) as R.
  destruct (nexts_from T limit d l _ k 0 Ok R) as (j & _ & E2); [lia|].
  change (mkIter d (Z.of_nat 0)) with (IntoIter d) in E2. rewrite E2 in E. injection E as <- _.
  split; [|split; [|split; [|split]]].
  - intros f s. pose proof (It_Map_spec zero limit Ok S f d l _ (Z.of_nat j) s R) as H.
    destruct (DequeSpec.each_map f l s) as [[ys s']| |]; auto.
    destruct H as (n & En & Rn). destruct (rep_shows limit Ok _ _ _ Rn) as (S' & L' & _). eauto.
  - intros f s. pose proof (It_Filter_spec zero limit Ok S f d l _ (Z.of_nat j) s R) as H.
    destruct (DequeSpec.each_filter f l s) as [[ys s']| |]; auto.
    destruct H as (n & En & Rn). destruct (rep_shows limit Ok _ _ _ Rn) as (S' & L' & _). eauto.
  - intros f a s. eapply It_Fold_spec; eauto.
  - eapply It_Collect_spec; eauto.
  - eapply It_Rev_panics; eauto.
Qed.
Print Assumptions C47_combinators_characterised.
(** Rev never works, not even on an empty or a fresh iterator. *)
Theorem C47_rev_refuted : forall (T : Type) (zero : T) limit (d : VecDeque T), limit_ok limit -> layout limit d ->
  It_Rev zero limit (IntoIter d) = Panic.
Proof.
  intros T zero limit d Ok L. destruct (C44_every_layout T limit d Ok L) as (l & S).
  eapply It_Rev_panics; [exact Ok | apply shows_rep; eauto].
Qed.
Print Assumptions C47_rev_refuted.
(** After one Next, Collect and Fold return an element already delivered. *)
Theorem C47_remaining_refuted : exists d it, layout 100 d /\ shows d [1; 2] /\
  Next (IntoIter d) = Ret (it, Some 1) /\ It_Collect it = Ret [1; 2] /\
  It_Fold it 0 (fun a x => mret (a + x)) tt = Ret (3, tt).
Proof.
  exists (mkDeque [1; 2] 2 0). eexists. split; [vm_compute; intuition discriminate|]. split.
  - assert (R : rep 100 (mkDeque [1; 2] 2 0) [1; 2] 2%nat).
    { exists [1; 2], 0%nat. split; [reflexivity|]. split; [|split; [reflexivity | lia]].
      unfold repr. cbn [length]. split; [lia|]. split; [lia|]. intros i Hi. do 2 (destruct i; [reflexivity|]). lia. }
    apply (rep_shows 100 ltac:(lia) _ _ _ R).
  - repeat split.
Qed.
Print Assumptions C47_remaining_refuted.
(** On a fresh iterator, where everything remains, all but Rev are right. *)
Theorem C47_fresh_partial : forall (T : Type) (zero : T) limit (f : T -> T) (p : T -> bool) (g : T -> T -> T) a (d : VecDeque T) l,
  limit_ok limit -> layout limit d -> shows d l ->
  (exists n, It_Map zero limit (IntoIter d) (fun x => mret (f x)) tt = Ret (IntoIter n, tt) /\ layout limit n /\ shows n (map f l)) /\
  (exists n, It_Filter zero limit (IntoIter d) (fun x => mret (p x)) tt = Ret (IntoIter n, tt) /\ layout limit n /\ shows n (filter p l)) /\
  It_Fold (IntoIter d) a (fun a x => mret (g a x)) tt = Ret (fold_left g l a, tt) /\
  It_Collect (IntoIter d) = Ret l.
Proof.
  intros T zero limit f p g a d l Ok L Sh.
  destruct (C47_combinators_characterised T zero limit unit d l 0 (IntoIter d) [] Ok L Sh eq_refl) as (H1 & H2 & H3 & H4 & _).
  split; [|split; [|split; [|exact H4]]].
  - specialize (H1 (fun x => mret (f x)) tt).
    assert (E : DequeSpec.each_map (fun x => mret (S := unit) (f x)) l tt = Ret (map f l, tt)).
    { clear. induction l as [|x l IH]; cbn [DequeSpec.each_map map]; [reflexivity|].
      unfold mbind at 1, mret at 1. unfold mbind. rewrite IH. reflexivity. }
    now rewrite E in H1.
  - specialize (H2 (fun x => mret (p x)) tt). now rewrite each_filter_pure in H2.
  - rewrite H3. clear. revert a. induction l as [|x l IH]; intros a; cbn [DequeSpec.each_fold fold_left]; [reflexivity|].
    unfold mbind, mret at 1. apply IH.
Qed.
Print Assumptions C47_fresh_partial.
Example C47_nonvacuous :
  let d := mkDeque [2; 0; 1] 2 2 in layout 100 d /\ nexts 3 (IntoIter d) = Ret (mkIter d 2, [Some 1; Some 2; None]).
Proof. vm_compute. intuition discriminate. Qed.
