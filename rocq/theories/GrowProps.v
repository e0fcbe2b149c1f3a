(** GrowProps.v -- C121: the memory a deque takes. *)
From Verif Require Import Base BaseLemmas Effect VecSpec DequeHistory DequeModel DequeProofs DequeRunProofs.
From Verif Require Import DequeShareSpec DequeShareProofs GrowSpec GrowRun GrowProofs DequeProps.
From Verif Require DequeSpec.
Local Open Scope Z_scope.

(** Any history of calls without Reserve and Append on any deque.  All the buffers made
    together have at most four cells for every push and seven for every Clear; and the
    capacity is never more than twice the greatest length there was, or what it was at the
    start, or seven.  A deque more than half full at the start adds what the pushes that
    filled it would have paid. *)
Theorem C121_growth_partial : forall (T : Type) (zero : T) limit eqb d l ops l' answers d' cells longest,
  limit_ok limit -> layout limit d -> shows d l ->
  DequeSpec.dhistory eqb l ops l' answers -> Forall ordinary (calls ops) ->
  tally zero limit eqb d (calls ops) = Ret (d', cells, longest) ->
  cells <= Z.max 0 (4 * Len d - 2 * Capacity d) + 4 * total is_push (calls ops) + 7 * total is_clear (calls ops) /\
  Capacity d' <= Z.max (Z.max (Capacity d) 7) (2 * longest) /\ Len d' <= longest.
Proof.
  intros T zero limit eqb d l ops l' answers d' cells longest Ok L S H Od E. pose proof (shows_rep limit Ok _ _ S L) as R. unfold calls in *.
  destruct (tally_bounds zero limit Ok eqb _ _ _ _ H _ _ _ _ _ R Od E) as (A & B & C & _).
  unfold potential in A. split; [lia|]. split; [exact C|].
  clear - E. revert d d' cells longest E. induction ops as [|o ops IH]; intros d d' cells longest E; cbn [map tally] in E.
  - injection E as <- <- <-. lia.
  - apply bind_Ret in E. destruct E as (d1 & E1 & E). apply bind_Ret in E. destruct E as (((d2 & k) & m) & E2 & E).
    injection E as <- <- <-. specialize (IH _ _ _ _ E2). lia.
Qed.
Print Assumptions C121_growth_partial.

(** The history does return, while the buffers it needs can be made; a new deque has paid
    for nothing yet, and WithLen n as if n elements had been pushed. *)
Theorem C121_growth_new_partial : forall (T : Type) (zero : T) limit eqb m l n ops l' answers,
  limit_ok limit -> makes zero limit m l n ->
  DequeSpec.dhistory eqb l ops l' answers -> Forall ordinary (calls ops) -> DequeSpec.space n ops <= limit ->
  exists d d' cells longest, m = Ret d /\ tally zero limit eqb d (calls ops) = Ret (d', cells, longest) /\
    cells <= 2 * Len d + 4 * total is_push (calls ops) + 7 * total is_clear (calls ops) /\
    Capacity d' <= Z.max (Z.max (Capacity d) 7) (2 * longest).
Proof.
  intros T zero limit eqb m l n ops l' answers Ok Mk H Od Sp.
  destruct (history_run zero limit Ok eqb m l n ops l' answers Mk H Sp) as (d & d' & c & E & E' & R & _).
  pose proof (fold_cost eqb _ _ _ _ (7 + 2 * n) H) as F. unfold DequeSpec.space in Sp.
  destruct (makes_rep zero limit Ok m l n Mk) as (d0 & c0 & E0 & R0 & _); [lia|]. assert (d0 = d) by congruence. subst d0.
  destruct (rep_shows limit Ok _ _ _ R0) as (S0 & L0 & C0).
  assert (Ht : exists cells longest, tally zero limit eqb d (calls ops) = Ret (d', cells, longest)).
  { clear - E'. revert d answers E'. induction ops as [|o ops IH]; intros d r E'; cbn [run calls map tally step] in *.
    - injection E' as <- _. eauto.
    - apply bind_Ret in E'. destruct E' as ((d1 & a) & E1 & E'). apply bind_Ret in E'. destruct E' as ((d2 & r2) & E2 & E').
      injection E' as <- <-. rewrite E1. cbn [bind fst] in *. destruct (IH _ _ E2) as (k & mm & IHE). unfold calls in IHE. rewrite IHE. cbn [bind]. eauto. }
  destruct Ht as (cells & longest & Ht). exists d, d', cells, longest. split; [exact E|]. split; [exact Ht|].
  destruct (C121_growth_partial T zero limit eqb d l ops l' answers d' cells longest Ok L0 S0 H Od Ht) as (A & B & _).
  split; [|exact B]. assert (0 <= Len d <= Capacity d) by apply L0. lia.
Qed.
Print Assumptions C121_growth_new_partial.

(** Append and Reserve do not look at the room there is: each adds to the capacity the length
    of the other deque, or the number asked for, although nothing or little was missing. *)
Theorem C121_append_characterised : forall (T : Type) (zero : T) limit d l e k n, limit_ok limit ->
  layout limit d -> shows d l -> layout limit e -> shows e k -> 0 <= n ->
  (Capacity d + Len e <= limit -> exists d' e', DequeModel.Append zero limit d e = Ret (d', e') /\
     layout limit d' /\ shows d' (l ++ k) /\ Capacity d' = Capacity d + Len e /\ shows e' [] /\ Capacity e' = 7) /\
  (Capacity d + n <= limit -> exists d', Reserve zero limit d n = Ret d' /\
     layout limit d' /\ shows d' l /\ Capacity d' = Capacity d + n).
Proof.
  intros T zero limit d l e k n Ok L S L2 S2 Hn. pose proof (shows_rep limit Ok _ _ S L) as R. pose proof (shows_rep limit Ok _ _ S2 L2) as R2.
  split.
  - intros F. unfold Len in *. pose proof (rep_len _ _ _ _ R2) as Le. rewrite Le in F |- *. pose proof (rep_pos _ _ _ _ R).
    destruct (Append_spec zero limit Ok d l _ e k _ R R2) as (d' & e' & E & R' & R2'); [lia|].
    destruct (rep_shows limit Ok _ _ _ R') as (S' & L' & C'). destruct (rep_shows limit Ok _ _ _ R2') as (S2' & L2' & C2').
    exists d', e'. rewrite C', C2'. split; [auto|]. split; [auto|]. split; [auto|]. split; [lia|]. auto.
  - intros F. apply C44_reserve_grows; auto.
Qed.
Print Assumptions C121_append_characterised.

(** So a deque that takes an element from another deque and gives it away again, k times,
    needs more memory each time: it is never longer than one element, makes a buffer in every
    round, k (k + 15) / 2 cells in all, and ends empty with room for k + 7. *)
Definition relay {T} (e : VecDeque T) (k : nat) : list (gop T (VecDeque T)) :=
  concat (repeat [Appending e; Call DequeSpec.PopFront] k).
Theorem C121_refuted : forall (T : Type) (zero x : T) limit eqb k, limit_ok limit -> Z.of_nat k + 7 <= limit ->
  exists new one d cells, VecDequeNew zero limit = Ret new /\ PushBack zero limit new x = Ret one /\
    tally zero limit eqb new (relay one k) = Ret (d, cells, Z.min 1 (Z.of_nat k)) /\
    total is_push (relay one k) = 0 /\ Len d = 0 /\ Capacity d = 7 + Z.of_nat k /\ 2 * cells = Z.of_nat k * (Z.of_nat k + 15).
Proof.
  intros T zero x limit eqb k Ok F.
  destruct (WithCapacity_spec zero limit 7) as (new & E & R); [destruct Ok; lia|]. cbn [Nat.max] in R.
  destruct (PushBack_spec zero limit Ok new [] 7 x R) as (one & E1 & R1); [destruct Ok; cbn; lia|].
  cbn [app length] in R1. change (roomier 0 7) with 7%nat in R1.
  destruct (relay_run zero limit Ok eqb k one x 7%nat new 7%nat R1 R) as (d & cells & E2 & R2 & C); [lia|].
  exists new, one, d, cells. split; [exact E|]. split; [exact E1|]. split; [exact E2|]. split.
  { clear. unfold relay. induction k as [|k IH]; [reflexivity|]. cbn [repeat concat app total fold_right is_push] in *. unfold total in IH. lia. }
  unfold Len. rewrite (rep_len _ _ _ _ R2), (rep_cap _ _ _ _ R2). cbn [length]. split; [lia|]. split; [lia|].
  rewrite C. ring_simplify. lia.
Qed.
Print Assumptions C121_refuted.

(** Eight pushes on a new deque make one buffer of fourteen cells, and popping makes none;
    a hundred rounds of the relay leave an empty deque with 107 cells. *)
Example C121_nonvacuous :
  (exists d d', VecDequeNew 0 1000 = Ret d /\ layout 1000 d /\
    tally 0 1000 Z.eqb d (calls (map DequeSpec.PushBack [1; 2; 3; 4; 5; 6; 7; 8] ++ [DequeSpec.PopFront; DequeSpec.PopBack; DequeSpec.Clear]))
      = Ret (d', 14 + 7, 8) /\ Capacity d' = 7) /\
  (exists d one d', VecDequeNew 0 10000 = Ret d /\ PushBack 0 10000 d 5 = Ret one /\
    tally 0 10000 Z.eqb d (relay one 100) = Ret (d', 5750, 1) /\ Capacity d' = 107).
Proof.
  split.
  - eexists _, _. split; [reflexivity|]. split; [unfold layout; vm_compute; intuition congruence|]. split; [vm_compute; reflexivity|reflexivity].
  - eexists _, _, _. split; [reflexivity|]. split; [reflexivity|]. split; [vm_compute; reflexivity|vm_compute; reflexivity].
Qed.
