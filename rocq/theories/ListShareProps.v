(** ListShareProps.v -- C118: copies of a linked list. *)
From Verif Require Import Base Effect ListModel ListHistory ListSpec ListProofs ListRunProofs ListProps.
From Verif Require Import ListShareSpec ListShareModel ListShareProofs ListShareSafeProofs ListRingProofs ListMoveProofs.
Local Open Scope Z_scope.

Local Notation srun1 := (srun (T := nat) Nat.eqb (fun x => x)).
Local Notation grun1 := (grun (T := nat) Nat.eqb (fun x => x)).
Ltac roomy := unfold countable; repeat constructor; cbn; lia.
Ltac list_call := first [apply l_new | eapply l_push_front; reflexivity | eapply l_push_back; reflexivity
  | eapply l_pop_front_empty; reflexivity | eapply l_pop_front; reflexivity | eapply l_front; reflexivity
  | eapply l_len; reflexivity | eapply l_is_empty; reflexivity | eapply l_clone; reflexivity | eapply l_elements; reflexivity
  | eapply l_append; [discriminate|reflexivity|reflexivity] | eapply l_clear; reflexivity].

Ltac tidy := match goal with |- shared _ _ ?w ?cs _ _ =>
  let w' := eval vm_compute in w in let cs' := eval vm_compute in cs in change w with w'; change cs with cs' end.

(** *** A copy is not a list of its own *)

(** y := x; x.PushBack(2): the walk over y, whose Len is 1, shows two elements. *)
Theorem C118_refuted : exists p l, values Nat.eqb (fun x => x) [] [] p l /\ srun1 (start, []) p <> Ret l.
Proof.
  exists [SUse New; SUse (PushBack 0 1%nat); SCopy 0; SUse (PushBack 0 2%nat); SLen 0; SElements 0],
    [Done; Done; Done; Done; Number 1; Many [1%nat]].
  split; [|vm_compute; discriminate].
  eapply vs_use; [list_call|roomy|]. eapply vs_use; [list_call|roomy|]. eapply vs_copy; [reflexivity|].
  eapply vs_use; [list_call|roomy|]. refine (vs_len _ _ _ _ 0%nat [1%nat] _ _ _ _); [reflexivity|].
  eapply vs_elements; [reflexivity|]. apply vs_nil.
Qed.
Print Assumptions C118_refuted.
(** A copy that is used as well: y has one element, takes out two, and has 2^64 - 1 left. *)
Theorem C118_number_refuted :
  let p := [GCall New; GCall (PushBack 0 1%nat); GCopy 0; GCall (PushBack 0 2%nat); GCall (PopFront 1); GCall (PopFront 1); GCall (Len 1)] in
  own_lists Nat.eqb (fun x => x) [] p [Done; Done; Done; Done; Value (Some 1%nat); Value None; Number 0] /\
  exists w, grun1 start p = Ret (w, [Done; Done; Done; Done; Value (Some 1%nat); Value (Some 2%nat); Number (2 ^ 64 - 1)]).
Proof.
  split.
  - eapply ol_call; [list_call|roomy|]. eapply ol_call; [list_call|roomy|]. eapply ol_copy; [reflexivity|].
    eapply ol_call; [list_call|roomy|]. eapply ol_call; [eapply l_pop_front; reflexivity|roomy|].
    eapply ol_call; [eapply l_pop_front_empty; reflexivity|roomy|].
    eapply ol_call; [refine (l_len _ _ _ 1%nat [] _); reflexivity|roomy|]. apply ol_nil.
  - eexists. vm_compute. reflexivity.
Qed.
Print Assumptions C118_number_refuted.

(** *** What copies that are only read show, in every program *)
Theorem C118_characterised : forall (T : Type) (eqb : T -> T -> bool) (clone : T -> T) p l,
  shared eqb clone [] [] p l -> srun eqb clone (start, []) p = Ret l.
Proof.
  intros T eqb clone p l H. eapply shared_run; [exact H|apply owns_start|reflexivity|constructor|constructor].
Qed.
Print Assumptions C118_characterised.
(** The copy sees what is added at the back, not what is added or removed in front; of a list
    that is cleared it keeps the elements; after an Append it reaches into the joined list. *)
Example C118_nonvacuous :
  let p := [SUse New; SUse (PushBack 0 1%nat); SUse (PushBack 0 2%nat); SCopy 0; SUse (PushBack 0 3%nat); SUse (PushFront 0 0%nat);
            SElements 0; SLen 0; SBack 0; SUse (PopFront 0); SUse (PopFront 0); SElements 0; SUse New; SUse (PushBack 1 4%nat);
            SUse (Append 0 1); SElements 0; SUse (Clear 0); SElements 0; SFront 0; SEq 0 0] in
  let l := [Done; Done; Done; Done; Done; Done; Many [1%nat; 2%nat; 3%nat]; Number 2; Value (Some 2%nat); Value (Some 0%nat);
            Value (Some 1%nat); Many [1%nat; 2%nat; 3%nat]; Done; Done; Done; Many [1%nat; 2%nat; 3%nat; 4%nat]; Done;
            Many [1%nat; 2%nat; 3%nat; 4%nat]; Value (Some 1%nat); Truth false] in
  shared Nat.eqb (fun x => x) [] [] p l /\ srun1 (start, []) p = Ret l.
Proof.
  split; [|vm_compute; reflexivity].
  do 3 (eapply sh_use; [list_call|roomy|tidy]). eapply sh_copy; [reflexivity|tidy]. do 2 (eapply sh_use; [list_call|roomy|tidy]).
  refine (sh_elements _ _ _ _ 0%nat (mkCopy 2 ([], Some (0, 1)) ([], Some (0, 2)))%nat _ _ _ _); [reflexivity|].
  refine (sh_len _ _ _ _ 0%nat (mkCopy 2 ([], Some (0, 1)) ([], Some (0, 2)))%nat _ _ _ _); [reflexivity|].
  refine (sh_back _ _ _ _ 0%nat (mkCopy 2 ([], Some (0, 1)) ([], Some (0, 2)))%nat _ _ _ _); [reflexivity|].
  do 2 (eapply sh_use; [list_call|roomy|tidy]).
  refine (sh_elements _ _ _ _ 0%nat (mkCopy 2 ([1], Some (0, 0)) ([], Some (0, 0)))%nat _ _ _ _); [reflexivity|].
  do 3 (eapply sh_use; [list_call|roomy|tidy]).
  refine (sh_elements _ _ _ _ 0%nat (mkCopy 2 ([1], Some (0, 0)) ([], Some (0, 0)))%nat _ _ _ _); [reflexivity|].
  eapply sh_use; [list_call|roomy|tidy].
  refine (sh_elements _ _ _ _ 0%nat (mkCopy 2 ([1; 2; 3; 4], None) ([2; 3; 4], None))%nat _ _ _ _); [reflexivity|].
  refine (sh_front _ _ _ _ 0%nat (mkCopy 2 ([1; 2; 3; 4], None) ([2; 3; 4], None))%nat _ _ _ _); [reflexivity|].
  refine (sh_eq _ _ _ _ 0%nat 0%nat (mkCopy 2 ([1; 2; 3; 4], None) ([2; 3; 4], None))%nat [] _ _ _ _ _); [reflexivity|reflexivity|].
  apply sh_nil.
Qed.

(** *** Where the property holds: calls that, once there is a copy, leave the back of the lists
    and the values of their elements alone. *)
Theorem C118_front_only_partial : forall (T : Type) (eqb : T -> T -> bool) (clone : T -> T) p l,
  values eqb clone [] [] p l -> only_fronts false p = true -> srun eqb clone (start, []) p = Ret l.
Proof. exact @values_run. Qed.
Print Assumptions C118_front_only_partial.
Example C118_front_only_nonvacuous :
  let p := [SUse New; SUse (PushBack 0 1%nat); SUse (PushBack 0 2%nat); SCopy 0; SUse (PushFront 0 0%nat); SUse (PopFront 0); SUse (PopFront 0);
            SElements 0; SLen 0; SUse (Clear 0); SBack 0] in
  let l := [Done; Done; Done; Done; Done; Value (Some 0%nat); Value (Some 1%nat); Many [1%nat; 2%nat]; Number 2; Done; Value (Some 2%nat)] in
  values Nat.eqb (fun x => x) [] [] p l /\ only_fronts false p = true.
Proof.
  split; [|reflexivity].
  do 3 (eapply vs_use; [list_call|roomy|]). eapply vs_copy; [reflexivity|]. do 3 (eapply vs_use; [list_call|roomy|]).
  eapply vs_elements; [reflexivity|]. refine (vs_len _ _ _ _ 0%nat [1%nat; 2%nat] _ _ _ _); [reflexivity|].
  eapply vs_use; [list_call|roomy|]. refine (vs_back _ _ _ _ 0%nat [1%nat; 2%nat] _ _ _ _); [reflexivity|]. apply vs_nil.
Qed.
(** And: a variable that is copied and not used any more. *)
Theorem C118_moved_partial : forall (T : Type) (eqb : T -> T -> bool) (clone : T -> T) p l,
  own_lists eqb clone [] p l -> moves [] p -> exists w, grun eqb clone start p = Ret (w, l).
Proof. exact @moved_start. Qed.
Print Assumptions C118_moved_partial.
Example C118_moved_nonvacuous :
  let p := [GCall New; GCall (PushBack 0 1%nat); GCopy 0; GCall (PushBack 1 2%nat); GCopy 1; GCall (PopFront 2); GCall (PushFront 2 7%nat);
            GCall (Elements 2); GCall (Len 2)] in
  let l := [Done; Done; Done; Done; Done; Value (Some 1%nat); Done; Many [7%nat; 2%nat]; Number 2] in
  own_lists Nat.eqb (fun x => x) [] p l /\ moves [] p.
Proof.
  split.
  - do 2 (eapply ol_call; [list_call|roomy|]). eapply ol_copy; [reflexivity|]. eapply ol_call; [list_call|roomy|].
    eapply ol_copy; [reflexivity|]. do 3 (eapply ol_call; [list_call|roomy|]).
    eapply ol_call; [refine (l_len _ _ _ 2%nat [7%nat; 2%nat] _); reflexivity|roomy|]. apply ol_nil.
  - cbn. intuition congruence.
Qed.

(** *** Copies that are used like any other variable: as long as Append joins no relatives, every
    call returns, and so does every walk; the only panic is a write through the nil pointer that
    Front or Back gives for an empty list. *)
Theorem C118_always_ends : forall (T : Type) (eqb : T -> T -> bool) (clone : T -> T) (p : list (gop T)), orderly [] p ->
  (exists w l, grun eqb clone start p = Ret (w, l) /\ length l = length p) \/
  (grun eqb clone start p = Panic /\ existsb writes p = true).
Proof. intros T eqb clone p O. exact (grun_ok eqb clone p start [] fine_start O). Qed.
Print Assumptions C118_always_ends.
Example C118_always_ends_nonvacuous :
  let p := [GCall New; GCall (PushBack 0 1%nat); GCopy 0; GCall (PushBack 0 2%nat); GCall (PushFront 1 3%nat); GCall (PopBack 1); GCall (Elements 0);
            GCall (Elements 1); GCall New; GCall (PushBack 2 5%nat); GCall (Append 1 2); GCall (Elements 1); GCall (Clone 0); GCall (Append 1 3);
            GCall (Elements 1); GCall (Elements 0)] in
  orderly [] p /\ exists w, grun1 start p = Ret (w,
    [Done; Done; Done; Done; Done; Value (Some 1%nat); Many [1%nat; 2%nat]; Many [3%nat]; Done; Done; Done; Many [3%nat; 5%nat]; Done; Done;
     Many [3%nat; 5%nat; 1%nat; 2%nat]; Many [1%nat; 2%nat]]).
Proof. split; [cbn; repeat split; (lia || discriminate)|]. eexists. vm_compute. reflexivity. Qed.

(** *** Append of a copy: y := x; x.Append(&y) on a list with elements.  The call returns, Len is
    twice the number, and the walk over x never ends: it shows the elements again and again. *)
Theorem C118_append_copy : forall (T : Type) (h : heap T) l A xs, list_shows h l A xs -> xs <> [] ->
  exists l' m' h', ListModel.Append l l h = Ret (l', m', h') /\ ListModel.Len l' = (2 * Z.of_nat (length xs)) mod 2 ^ 64 /\
    list_shows h' m' [] [] /\
    (forall k, exists it, nexts k (IntoIter l') h' = Ret (it, map (fun i => nth_error xs (i mod length xs)%nat) (seq 0 k), h')) /\
    It_CollectToVec (IntoIter l') h' = Diverge.
Proof.
  intros T h l A xs Sh Ne. destruct (append_copy_ring h l A xs Sh Ne) as (h' & E & R & Hd). destruct Sh as (_ & _ & Ln).
  assert (L0 : (0 < length xs)%nat) by (destruct xs; [congruence|cbn [length]; lia]).
  eexists _, _, h'. split; [exact E|]. split; [|split; [|split]].
  - unfold ListModel.Len in *. cbn [len]. rewrite Ln. unfold u64. f_equal. lia.
  - repeat split; constructor.
  - intros k. unfold IntoIter. cbn [head]. rewrite Hd. eexists. exact (ring_nexts h' A xs R k 0 L0).
  - unfold It_CollectToVec, plain, for_each, IntoIter. cbn [head fst]. rewrite Hd.
    rewrite (ring_loop h' A xs R _ 0 [] L0). reflexivity.
Qed.
Print Assumptions C118_append_copy.
Example C118_append_copy_nonvacuous :
  exists w, grun1 start [GCall New; GCall (PushBack 0 1%nat); GCall (PushBack 0 2%nat); GCopy 0; GCall (Append 0 1); GCall (Len 0)] =
      Ret (w, [Done; Done; Done; Done; Done; Number 4]) /\
    exists l it, nth_error (vars w) 0 = Some l /\
      nexts 5 (IntoIter l) (cells w) = Ret (it, [Some 1%nat; Some 2%nat; Some 1%nat; Some 2%nat; Some 1%nat], cells w).
Proof. eexists. split; [vm_compute; reflexivity|]. eexists _, _. split; vm_compute; reflexivity. Qed.
