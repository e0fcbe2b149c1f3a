(** BTreeIterModel.v -- the iterators of BTreeMap and BTreeSet (btree_map.go:757-1090,
    btree_set.go:301-403).  One shape, as with the hash containers: a buffer and a
    position ([cursor] and [Next] of HashModel.v).  The iterators over a map's entries,
    keys and values have pointer receivers for Next, Map, Filter and Fold, so these four
    advance the iterator that the caller, and the closure, hold: that iterator is part
    of the state here, next to a state [S] of the closure's own.  Every other method,
    and every method but Next of the iterator over a set, has a value receiver and works
    on a copy: they are [c_Map] .. [c_CollectToLinkedList] of HashModel.v, whose bodies
    are the same. *)
From Verif Require Import Base Effect StringModel HashModel BTreeModel.
Local Open Scope Z_scope.

Section PointerIterator.
  Context {T S : Type}.
  (** self is the first component. *)
  Definition world : Type := (cursor T * S)%type.
  (** btree_map.go:774-782, 888-896, 1002-1010. *)
  Definition p_Next : M world (option T) := fun w =>
    r <- Next (fst w) ;; Ret (snd r, (fst r, snd w)).
  (** for { value := self.Next(); if value.IsNone() { return a }; body }.  [fuel] bounds
      the rounds: position grows in each. *)
  Fixpoint p_rounds {A} (fuel : nat) (body : A -> T -> M world A) (a : A) : M world A :=
    match fuel with
    | O => fun _ => Diverge
    | Datatypes.S k => value <~ p_Next ;;
        match value with
        | None => mret a
        | Some x => a' <~ body a x ;; p_rounds k body a'
        end
    end.
  Definition p_loop {A} (body : A -> T -> M world A) (a : A) : M world A :=
    fun w => p_rounds (length (vec (fst w)) + 1) body a w.
  (** btree_map.go:785-796, 899-910, 1013-1024; the result is a new VecIter. *)
  Definition p_Map (f : T -> M world T) : M world (cursor T) :=
    newVec <~ p_loop (fun newVec x => y <~ f x ;; mret (newVec ++ [y])) [] ;; mret (cursor_of newVec).
  (** btree_map.go:799-813, 913-927, 1027-1041. *)
  Definition p_Filter (f : T -> M world bool) : M world (cursor T) :=
    newVec <~ p_loop (fun newVec x => b <~ f x ;; mret (if (b : bool) then newVec ++ [x] else newVec)) [] ;;
    mret (cursor_of newVec).
  (** btree_map.go:816-826, 930-940, 1044-1054. *)
  Definition p_Fold (init : T) (f : T -> T -> M world T) : M world T := p_loop f init.
End PointerIterator.
Arguments world T S : clear implicits.

(** btree_map.go:763-771, 877-885, 991-999; btree_set.go:307-311. *)
Definition bIntoIter {K V} (m : BTreeMap) (h : heap K V) : out (cursor (K * V)) :=
  v <- IntoIter_vec m h ;; Ret (cursor_of v).
Definition bKeys {K V} (m : BTreeMap) (h : heap K V) : out (cursor K) := v <- Keys_vec m h ;; Ret (cursor_of v).
Definition bValues {K V} (m : BTreeMap) (h : heap K V) : out (cursor V) := v <- Values_vec m h ;; Ret (cursor_of v).
Definition bsIntoIter {K} (s : BTreeSet) (h : heap K unit) : out (cursor K) := v <- sIntoIter_vec s h ;; Ret (cursor_of v).
