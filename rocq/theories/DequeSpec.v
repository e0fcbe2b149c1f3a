(** DequeSpec.v -- what a double-ended queue should do, in terms of plain lists. *)
From Verif Require Import Base Effect VecSpec.
Local Open Scope Z_scope.

Section Spec.
  Context {T : Type}.

  (** The element at an unsigned index. *)
  Definition at_ (l : list T) (i : Z) : option T := if i <? 0 then None else nth_error l (Z.to_nat i).
  Definition inside (l : list T) (i : Z) : Prop := 0 <= i < Z.of_nat (length l).

  Inductive dop :=
  | PushFront (x : T) | PushBack (x : T) | PopFront | PopBack
  | Get (i : Z) | Set_ (i : Z) (x : T) | Swap (i j : Z) | Front | Back
  | Clear | Len | IsEmpty | Contains (x : T) | Reserve (n : Z)
  | Retain (p : T -> bool) | Dedup | Fill (x : T).
  Inductive danswer := Done | Value (o : option T) | Number (n : Z) | Truth (b : bool).

  Variable eqb : T -> T -> bool.    (* the elements' Eq *)

  (** One call on the sequence l (front first). *)
  Inductive dstep : list T -> dop -> list T -> danswer -> Prop :=
  | d_push_front : forall l x, dstep l (PushFront x) (x :: l) Done
  | d_push_back : forall l x, dstep l (PushBack x) (l ++ [x]) Done
  | d_pop_front_empty : dstep [] PopFront [] (Value None)
  | d_pop_front : forall x l, dstep (x :: l) PopFront l (Value (Some x))
  | d_pop_back_empty : dstep [] PopBack [] (Value None)
  | d_pop_back : forall l x, dstep (l ++ [x]) PopBack l (Value (Some x))
  | d_get : forall l i, 0 <= i < 2 ^ 64 -> dstep l (Get i) l (Value (at_ l i))
  | d_set : forall l i x, inside l i -> dstep l (Set_ i x) (seq_set l (Z.to_nat i) x) (Value None)
  | d_set_out : forall l i x, Z.of_nat (length l) <= i < 2 ^ 64 -> dstep l (Set_ i x) l (Value (Some x))
  | d_swap : forall l l' i j, inside l i -> inside l j -> exchanged l l' (Z.to_nat i) (Z.to_nat j) ->
      dstep l (Swap i j) l' Done
  | d_front : forall l, dstep l Front l (Value (hd_error l))
  | d_back : forall l, dstep l Back l (Value (hd_error (rev l)))
  | d_clear : forall l, dstep l Clear [] Done
  | d_len : forall l, dstep l Len l (Number (Z.of_nat (length l)))
  | d_is_empty : forall l, dstep l IsEmpty l (Truth (match l with [] => true | _ => false end))
  | d_contains : forall l x, dstep l (Contains x) l (Truth (existsb (eqb x) l))
  | d_reserve : forall l n, 0 <= n < 2 ^ 64 -> dstep l (Reserve n) l Done
  | d_retain : forall l p, dstep l (Retain p) (filter p l) Done
  | d_dedup : forall l, dstep l Dedup (dedup (fun kept x => eqb x kept) l) Done
  | d_fill : forall l x, dstep l (Fill x) (map (fun _ => x) l) Done.

  Inductive dhistory : list T -> list dop -> list T -> list danswer -> Prop :=
  | h_nil : forall l, dhistory l [] l []
  | h_cons : forall l o l1 a ops l2 r,
      dstep l o l1 a -> dhistory l1 ops l2 r -> dhistory l (o :: ops) l2 (a :: r).

  (** An upper bound for the cells a history can need. *)
  Definition cost (o : dop) : Z :=
    match o with
    | PushFront _ | PushBack _ => 2
    | Reserve n => n
    | _ => 0
    end.
  Definition space (start : Z) (ops : list dop) : Z := fold_left (fun b o => b + cost o) ops (7 + 2 * start).

  (** *** Closures called on the elements, front to back *)
  Fixpoint each_filter {S} (f : T -> M S bool) (l : list T) : M S (list T) :=
    match l with
    | [] => mret []
    | x :: r => b <~ f x ;; k <~ each_filter f r ;; mret (if (b : bool) then x :: k else k)
    end.
  Fixpoint each_map {S} (f : T -> M S T) (l : list T) : M S (list T) :=
    match l with
    | [] => mret []
    | x :: r => y <~ f x ;; k <~ each_map f r ;; mret (y :: k)
    end.
  Fixpoint each_fold {S} (f : T -> T -> M S T) (a : T) (l : list T) : M S T :=
    match l with
    | [] => mret a
    | x :: r => a' <~ f a x ;; each_fold f a' r
    end.
  Fixpoint replicate {S} (f : M S T) (n : nat) : M S (list T) :=
    match n with
    | O => mret []
    | Datatypes.S k => x <~ f ;; r <~ replicate f k ;; mret (x :: r)
    end.
End Spec.
