(** DequeShareSpec.v -- programs over several VecDeque variables, some of which may be copies
    (y := x, a parameter, a struct field) of others. *)
From Verif Require Import Base.
From Verif Require Import DequeSpec.
Local Open Scope nat_scope.

Section Spec.
  Context {T : Type}.
  Variable zero : T.
  Variable limit : Z.                (* the largest buffer that can be made *)
  Variable eqb : T -> T -> bool.     (* the elements' Eq *)

  (** A new variable: VecDequeNew(), VecDequeWithCapacity(n), VecDequeWithLen(n), a copy of
      variable i; a method of variable i; its Capacity(); i.Append(&j). *)
  Inductive wop :=
  | WNew | WWithCapacity (n : nat) | WWithLen (n : nat) | WCopy (i : nat)
  | WCall (i : nat) (o : dop (T := T)) | WCapacity (i : nat) | WAppend (i j : nat).

  (** The capacity after a call on a deque of n elements and capacity c. *)
  Definition capacity_after (o : dop (T := T)) (n c : nat) : nat :=
    match o with
    | PushFront _ | PushBack _ => if Nat.eqb n c then c + c else c
    | Reserve k => c + Z.to_nat k
    | Clear => 7
    | _ => c
    end.
  Definition fits (c : nat) : Prop := (Z.of_nat c <= limit)%Z.

  (** *** Variables with contents of their own: (elements, capacity). *)
  Definition vars := list (list T * nat).
  Inductive vstep : vars -> wop -> vars -> danswer (T := T) -> Prop :=
  | v_new : forall s, vstep s WNew (s ++ [([], 7)]) Done
  | v_with_capacity : forall s n, fits (Nat.max n 1) -> vstep s (WWithCapacity n) (s ++ [([], Nat.max n 1)]) Done
  | v_with_len : forall s n, fits (Nat.max n 1) -> vstep s (WWithLen n) (s ++ [(repeat zero n, Nat.max n 1)]) Done
  | v_copy : forall s i v, nth_error s i = Some v -> vstep s (WCopy i) (s ++ [v]) Done
  | v_call : forall s i l c o l' a, nth_error s i = Some (l, c) -> dstep eqb l o l' a -> fits (capacity_after o (length l) c) ->
      vstep s (WCall i o) (list_set s i (l', capacity_after o (length l) c)) a
  | v_capacity : forall s i l c, nth_error s i = Some (l, c) -> vstep s (WCapacity i) s (Number (Z.of_nat c))
  | v_append : forall s i j l c l2 c2, i <> j -> nth_error s i = Some (l, c) -> nth_error s j = Some (l2, c2) -> fits (c + length l2) ->
      vstep s (WAppend i j) (list_set (list_set s i (l ++ l2, c + length l2)) j ([], 7)) Done.
  Inductive vrun : vars -> list wop -> list (danswer (T := T)) -> Prop :=
  | vr_nil : forall s, vrun s [] []
  | vr_cons : forall s o s' a p l, vstep s o s' a -> vrun s' p l -> vrun s (o :: p) (a :: l).
  Definition copies (o : wop) : bool := match o with WCopy _ => true | _ => false end.

  (** *** Variables as windows on rings.  A ring is a circle of cells (None: nothing is known
      about it); a window is a ring, the place of its first cell and the number of its cells.
      A copy is a window of its own on the same ring. *)
  Definition circle := list (option T).
  Record window := mkWin { on : nat; first : nat; count : nat }.
  Definition place (r : circle) (p : nat) : nat := p mod length r.
  Definition contents (r : circle) (w : window) : list (option T) :=
    map (fun i => nth (place r (first w + i)) r None) (seq 0 (count w)).
  (** The elements xs written around the circle from place p on. *)
  Fixpoint lay (r : circle) (p : nat) (xs : list T) : circle :=
    match xs with
    | [] => r
    | x :: xs' => lay (list_set r (place r p) (Some x)) (S p) xs'
    end.
  (** A new circle of c cells with the elements xs. *)
  Definition fresh (xs : list T) (c : nat) : circle := map Some xs ++ repeat None (c - length xs).
  Definition moved (o : dop (T := T)) (l : list T) (r : circle) (p : nat) : nat :=
    match o, l with
    | PushFront _, _ => place r (p + length r - 1)
    | PopFront, _ :: _ => place r (p + 1)
    | _, _ => p
    end.
  (** Clear, and every call that changes the capacity, leaves the old circle to the others. *)
  Definition leaves (o : dop (T := T)) (n c : nat) : bool :=
    match o with Clear => true | _ => negb (Nat.eqb (capacity_after o n c) c) end.

  Definition circles : Type := list circle * list window.
  Inductive cstep : circles -> wop -> circles -> danswer (T := T) -> Prop :=
  | c_new : forall rs ws, cstep (rs, ws) WNew (rs ++ [fresh [] 7], ws ++ [mkWin (length rs) 0 0]) Done
  | c_with_capacity : forall rs ws n, fits (Nat.max n 1) ->
      cstep (rs, ws) (WWithCapacity n) (rs ++ [fresh [] (Nat.max n 1)], ws ++ [mkWin (length rs) 0 0]) Done
  | c_with_len : forall rs ws n, fits (Nat.max n 1) ->
      cstep (rs, ws) (WWithLen n) (rs ++ [fresh (repeat zero n) (Nat.max n 1)], ws ++ [mkWin (length rs) 0 n]) Done
  | c_copy : forall rs ws i w, nth_error ws i = Some w -> cstep (rs, ws) (WCopy i) (rs, ws ++ [w]) Done
  | c_call_here : forall rs ws i w r o l l' a, nth_error ws i = Some w -> nth_error rs (on w) = Some r -> contents r w = map Some l ->
      dstep eqb l o l' a -> leaves o (length l) (length r) = false ->
      cstep (rs, ws) (WCall i o)
        (list_set rs (on w) (lay r (moved o l r (first w)) l'), list_set ws i (mkWin (on w) (moved o l r (first w)) (length l'))) a
  | c_call_leaves : forall rs ws i w r o l l' a, nth_error ws i = Some w -> nth_error rs (on w) = Some r -> contents r w = map Some l ->
      dstep eqb l o l' a -> leaves o (length l) (length r) = true -> fits (capacity_after o (length l) (length r)) ->
      cstep (rs, ws) (WCall i o)
        (rs ++ [fresh l' (capacity_after o (length l) (length r))], list_set ws i (mkWin (length rs) 0 (length l'))) a
  | c_capacity : forall rs ws i w r, nth_error ws i = Some w -> nth_error rs (on w) = Some r ->
      cstep (rs, ws) (WCapacity i) (rs, ws) (Number (Z.of_nat (length r)))
  | c_append_nothing : forall rs ws i j w w2, i <> j -> nth_error ws i = Some w -> nth_error ws j = Some w2 -> count w2 = 0 ->
      cstep (rs, ws) (WAppend i j) (rs ++ [fresh [] 7], list_set ws j (mkWin (length rs) 0 0)) Done
  | c_append : forall rs ws i j w r l w2 r2 l2, i <> j ->
      nth_error ws i = Some w -> nth_error rs (on w) = Some r -> contents r w = map Some l ->
      nth_error ws j = Some w2 -> nth_error rs (on w2) = Some r2 -> contents r2 w2 = map Some l2 -> l2 <> [] -> fits (length r + length l2) ->
      cstep (rs, ws) (WAppend i j)
        (rs ++ [fresh (l ++ l2) (length r + length l2)] ++ [fresh [] 7],
         list_set (list_set ws i (mkWin (length rs) 0 (length (l ++ l2)))) j (mkWin (S (length rs)) 0 0)) Done.
  Inductive crun : circles -> list wop -> list (danswer (T := T)) -> Prop :=
  | cr_nil : forall s, crun s [] []
  | cr_cons : forall s o s' a p l, cstep s o s' a -> crun s' p l -> crun s (o :: p) (a :: l).
  (** The circles and windows a program can lead to. *)
  Inductive reached : circles -> Prop :=
  | reached_nothing : reached ([], [])
  | reached_more : forall s o s' a, reached s -> cstep s o s' a -> reached s'.
End Spec.
