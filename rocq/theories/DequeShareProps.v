(** DequeShareProps.v -- C112: copies of a deque. *)
From Verif Require Import Base DequeSpec DequeShareSpec DequeShareModel DequeShareProofs.
Local Open Scope Z_scope.

Local Notation vrun1 := (vrun (T := nat) 0%nat 1000 Nat.eqb).
Local Notation crun1 := (crun (T := nat) 0%nat 1000 Nat.eqb).
Local Notation wrun1 := (wrun (T := nat) 0%nat 1000 Nat.eqb).
Ltac deque_answer := first [exact (d_push_front _ _ _) | exact (d_push_back _ _ _) | exact (d_pop_front _ _ _)
  | refine (d_set _ _ _ _ _); unfold inside; cbn; lia | refine (d_get _ _ _ _); lia | exact (d_len _ _) | exact (d_clear _ _)
  | exact (d_retain _ _ _) | exact (d_fill _ _ _)].
Ltac roomy := unfold fits; cbn; lia.
Ltac var xs c := eapply (v_call _ _ _ _ _ xs c); [reflexivity|deque_answer|roomy].
Ltac tidy := match goal with |- crun _ _ _ ?s _ _ => let s' := eval vm_compute in s in change s with s' end.
Ltac here xs := eapply (c_call_here _ _ _ _ _ _ _ _ _ xs); [reflexivity|reflexivity|reflexivity|deque_answer|reflexivity].
Ltac away xs := eapply (c_call_leaves _ _ _ _ _ _ _ _ _ xs); [reflexivity|reflexivity|reflexivity|deque_answer|reflexivity|roomy].

(** *** A copy is not a deque of its own: y := x; y.Set(0, 9); x.Get(0) gives 9. *)
Theorem C112_refuted : exists p l, vrun1 [] p l /\ wrun1 nothing p <> Ret l.
Proof.
  exists [WNew; WCall 0 (PushBack 5%nat); WCopy 0; WCall 1 (Set_ 0 9%nat); WCall 0 (Get 0)],
    [Done; Done; Done; Value None; Value (Some 5%nat)].
  split; [|vm_compute; discriminate].
  eapply vr_cons; [apply v_new|]. eapply vr_cons; [var (@nil nat) 7%nat|]. eapply vr_cons; [eapply v_copy; reflexivity|].
  eapply vr_cons; [var [5%nat] 7%nat|]. eapply vr_cons; [var [5%nat] 7%nat|]. apply vr_nil.
Qed.
Print Assumptions C112_refuted.

(** *** What holds without copies: any number of deques, each with its own contents and
    capacity; a call on one changes no other (Append empties its argument). *)
Theorem C112_without_copies_partial : forall (T : Type) (zero : T) (limit : Z) (eqb : T -> T -> bool), 7 <= limit < 2 ^ 63 ->
  forall p l, vrun zero limit eqb [] p l -> Forall (fun o => copies o = false) p -> wrun zero limit eqb nothing p = Ret l.
Proof. intros T zero limit eqb HL p l H F. exact (vrun_sim zero limit HL eqb [] p l H F nothing (apart_nothing limit)). Qed.
Print Assumptions C112_without_copies_partial.

Example C112_without_copies_nonvacuous :
  let p := [WNew; WWithLen 2; WCall 0 (PushFront 4%nat); WCall 1 (PushFront 3%nat); WCapacity 1; WAppend 0 1; WCapacity 0;
            WCall 0 (Get 3); WCall 1 Len] in
  let l := [Done; Done; Done; Done; Number 4; Done; Number 10; Value (Some 0%nat); Number 0] in
  vrun1 [] p l /\ Forall (fun o => copies o = false) p /\ wrun1 nothing p = Ret l.
Proof.
  split; [|split; [repeat constructor|vm_compute; reflexivity]].
  eapply vr_cons; [apply v_new|]. eapply vr_cons; [apply v_with_len; roomy|]. eapply vr_cons; [var (@nil nat) 7%nat|].
  eapply vr_cons; [var [0%nat; 0%nat] 2%nat|].
  eapply vr_cons; [refine (v_capacity _ _ _ _ 1%nat [3%nat; 0%nat; 0%nat] 4%nat _); reflexivity|].
  eapply vr_cons; [eapply (v_append _ _ _ _ 0%nat 1%nat [4%nat] 7%nat [3%nat; 0%nat; 0%nat] 4%nat); [lia|reflexivity|reflexivity|roomy]|].
  eapply vr_cons; [refine (v_capacity _ _ _ _ 0%nat [4%nat; 3%nat; 0%nat; 0%nat] 10%nat _); reflexivity|].
  eapply vr_cons; [var [4%nat; 3%nat; 0%nat; 0%nat] 10%nat|]. eapply vr_cons; [var (@nil nat) 7%nat|]. apply vr_nil.
Qed.

(** *** What holds with copies: windows on shared circles. *)
Theorem C112_characterised : forall (T : Type) (zero : T) (limit : Z) (eqb : T -> T -> bool), 7 <= limit < 2 ^ 63 ->
  forall p l, crun zero limit eqb ([], []) p l -> wrun zero limit eqb nothing p = Ret l.
Proof. intros T zero limit eqb HL p l H. exact (crun_sim zero limit HL eqb ([], []) p l H _ nothing (sim_nothing limit)). Qed.
Print Assumptions C112_characterised.

(** Nothing a program does makes a window's contents unknown: every variable always shows
    elements, so every call a deque of these elements can answer has its step. *)
Theorem C112_always_contents : forall (T : Type) (zero : T) (limit : Z) (eqb : T -> T -> bool), 7 <= limit < 2 ^ 63 ->
  forall rs ws i w, reached zero limit eqb (rs, ws) -> nth_error ws i = Some w ->
  exists r l, nth_error rs (on w) = Some r /\ contents r w = map Some l /\ (length l <= length r)%nat /\ fits limit (length r).
Proof. intros T zero limit eqb HL rs ws i w. exact (reached_contents zero limit HL eqb rs ws i w). Qed.
Print Assumptions C112_always_contents.

(** Two variables on one circle: what x pushes in front appears in y in the place of what y
    had pushed there; after y.Clear() they are apart. *)
Example C112_nonvacuous :
  let p := [WNew; WCall 0 (PushBack 1%nat); WCopy 0; WCall 1 (PushFront 2%nat); WCall 0 (PushFront 3%nat); WCall 1 (Get 0);
            WCall 0 PopFront; WCall 1 (PushBack 4%nat); WCall 0 Len; WCall 1 (Set_ 1 7%nat); WCall 0 (Get 0); WCall 1 Clear;
            WCall 1 (PushBack 6%nat); WCall 0 (Get 0); WAppend 1 0; WCapacity 1] in
  let l := [Done; Done; Done; Done; Done; Value (Some 3%nat);
            Value (Some 3%nat); Done; Number 1; Value None; Value (Some 7%nat); Done;
            Done; Value (Some 7%nat); Done; Number 8] in
  crun1 ([], []) p l /\ wrun1 nothing p = Ret l.
Proof.
  split; [|vm_compute; reflexivity].
  eapply cr_cons; [apply c_new|tidy]. eapply cr_cons; [here (@nil nat)|]. eapply cr_cons; [eapply c_copy; reflexivity|tidy].
  eapply cr_cons; [here [1%nat]|tidy]. eapply cr_cons; [here [1%nat]|tidy]. eapply cr_cons; [here [3%nat; 1%nat]|tidy].
  eapply cr_cons; [here [3%nat; 1%nat]|tidy]. eapply cr_cons; [here [3%nat; 1%nat]|tidy]. eapply cr_cons; [here [1%nat]|tidy].
  eapply cr_cons; [here [3%nat; 1%nat; 4%nat]|tidy]. eapply cr_cons; [here [7%nat]|tidy]. eapply cr_cons; [away [3%nat; 7%nat; 4%nat]|tidy].
  eapply cr_cons; [here (@nil nat)|]. eapply cr_cons; [here [7%nat]|tidy].
  eapply cr_cons; [eapply (c_append _ _ _ _ _ _ _ _ _ [6%nat] _ _ [7%nat]); [lia|reflexivity|reflexivity|reflexivity|reflexivity|reflexivity|reflexivity|discriminate|roomy]|tidy].
  eapply cr_cons; [refine (c_capacity _ _ _ _ _ 1%nat _ ([Some 6; Some 7] ++ repeat None 6)%nat _ _); reflexivity|]. apply cr_nil.
Qed.
