(** PanicSpec.v -- user's functions that may panic in the middle of a container's method,
    with a caller that recovers (C108). *)
From Verif Require Import Base VecSpec.

(** A user's function works on a state of its own, and answers or panics ([None]). *)
Definition user (U A B : Type) : Type := A -> U -> U * option B.
(** It never panics. *)
Definition safe {U A B} (f : user U A B) : Prop := forall a u, snd (f a u) <> None.

(** Calling f on the elements one after the other until it panics: the answers, the user's
    state afterwards, and whether all calls returned. *)
Fixpoint calls {U A B} (f : user U A B) (xs : list A) (u : U) : list B * U * bool :=
  match xs with
  | [] => ([], u, true)
  | x :: r => match f x u with
              | (u', None) => ([], u', false)
              | (u', Some b) => let '(bs, u2, all) := calls f r u' in (b :: bs, u2, all)
              end
  end.

(** The elements with the answer true. *)
Fixpoint chosen {T} (l : list T) (bs : list bool) : list T :=
  match l, bs with
  | x :: l, b :: bs => if b then x :: chosen l bs else chosen l bs
  | _, _ => []
  end.
(** The elements whose key was not met before. *)
Fixpoint first_of_keys {T K} (keq : K -> K -> bool) (met : list K) (l : list T) (ks : list K) : list T :=
  match l, ks with
  | x :: l, k :: ks => if existsb (keq k) met then first_of_keys keq met l ks
                       else x :: first_of_keys keq (k :: met) l ks
  | _, _ => []
  end.
(** xs written over the beginning of l. *)
Definition over {T} (xs l : list T) : list T := xs ++ skipn (length xs) l.

(** Comparing each element with the last one kept: the elements kept after [last], the
    user's state, and whether all calls of Eq returned.  (Eq's receiver is the new element.) *)
Fixpoint deduped {U T} (eq : user U (T * T) bool) (last : T) (l : list T) (u : U) : list T * U * bool :=
  match l with
  | [] => ([], u, true)
  | x :: r => match eq (x, last) u with
              | (u', None) => ([], u', false)
              | (u', Some true) => deduped eq last r u'
              | (u', Some false) => let '(ks, u2, all) := deduped eq x r u' in (x :: ks, u2, all)
              end
  end.

(** A comparison that is c where it answers. *)
Definition answers_like {U T} (cmp : user U (T * T) ordering) (c : T -> T -> ordering) : Prop :=
  forall a b u o, snd (cmp (a, b) u) = Some o -> o = c a b.
(** The order of a heap, but for the element at place p. *)
Definition ordered_but {T} (c : T -> T -> ordering) (p : nat) (l : list T) : Prop :=
  forall i x y, 0 < i -> i <> p -> nth_error l i = Some x -> nth_error l ((i - 1) / 2) = Some y -> le_by c x y.

(** The same, but for the element at place p and its children. *)
Definition ordered_around {T} (c : T -> T -> ordering) (p : nat) (l : list T) : Prop :=
  forall i x y, 0 < i -> i <> p -> (i - 1) / 2 <> p -> nth_error l i = Some x -> nth_error l ((i - 1) / 2) = Some y -> le_by c x y.

(** How many entries of a sorted leaf, from its end, Cmp says are greater than the new key:
    the number, the user's state, and whether all calls returned. *)
Fixpoint greater_from_end {U K V} (cmp : user U (K * K) ordering) (key : K) (r : list (K * V)) (u : U) : nat * U * bool :=
  match r with
  | [] => (0, u, true)
  | e :: r => match cmp (fst e, key) u with
              | (u', None) => (0, u', false)
              | (u', Some Greater) => let '(n, u2, all) := greater_from_end cmp key r u' in (S n, u2, all)
              | (u', Some _) => (0, u', true)
              end
  end.
