(** HashHistory.v -- running operations on a map; step n ranges in the order [ords n]. *)
From Verif Require Import Base HashModel HashSpec.
Local Open Scope Z_scope.

Section Run.
  Context {K V : Type}.
  Variable keqb : K -> K -> bool.
  Definition exec (ord : order K V) (m : HashMap K V) (o : mop) : HashMap K V * @manswer K V :=
    match o with
    | MInsert k v => let r := Insert keqb m k v in (fst r, Value (snd r))
    | MRemove k => let r := Remove keqb m k in (fst r, Value (snd r))
    | MGet k => (m, Value (Get keqb m k))
    | MContainsKey k => (m, Truth (ContainsKey keqb m k))
    | MClear => (Clear m, Done)
    | MLen => (m, Number (Len m))
    | MIsEmpty => (m, Truth (IsEmpty m))
    | MEntries => (m, Entries (IntoIter_vec ord m))
    | MKeys => (m, KeyList (Keys_vec ord m))
    | MValues => (m, ValueList (Values_vec ord m))
    end.
  Fixpoint run (ords : nat -> order K V) (n : nat) (m : HashMap K V) (ops : list (@mop K V)) : HashMap K V * list (@manswer K V) :=
    match ops with
    | [] => (m, [])
    | o :: r => let '(m', a) := exec (ords n) m o in
                let '(m'', rs) := run ords (S n) m' r in (m'', a :: rs)
    end.
End Run.

(** Step n on sets ranges in the orders [ords n 0] and [ords n 1]; the keys' Clone
    is [clone]. *)
Section RunSets.
  Context {K : Type}.
  Variable keqb : K -> K -> bool.
  Variable clone : K -> K.
  Definition sexec (ord : nat -> sorder K) (hs : list (HashSet K)) (o : @sop K) : out (list (HashSet K) * @sanswer K) :=
    let at_ i := nth i hs HashSetNew in
    match o with
    | SNew => Ret (hs ++ [HashSetNew], SDone)
    | SFromSlice xs => Ret (hs ++ [HashSetFromSlice keqb xs], SDone)
    | SUnion i j => Ret (hs ++ [Union keqb (ord 0%nat) (ord 1%nat) (at_ i) (at_ j)], SDone)
    | SIntersection i j => Ret (hs ++ [Intersection keqb (ord 0%nat) (at_ i) (at_ j)], SDone)
    | SSymmetricDifference i j => Ret (hs ++ [SymmetricDifference keqb (ord 0%nat) (ord 1%nat) (at_ i) (at_ j)], SDone)
    | SClone i => s <- sClone keqb (ord 0%nat) (Some clone) (at_ i) ;; Ret (hs ++ [s], SDone)
    | SInsert i x => let r := sInsert keqb (at_ i) x in Ret (list_set hs i (fst r), STruth (snd r))
    | SRemove i x => let r := sRemove keqb (at_ i) x in Ret (list_set hs i (fst r), STruth (snd r))
    | SClear i => Ret (list_set hs i (sClear (at_ i)), SDone)
    | SContains i x => Ret (hs, STruth (Contains keqb (at_ i) x))
    | SGet i x => Ret (hs, SFound (sGet keqb (at_ i) x))
    | SLen i => Ret (hs, SNumber (sLen (at_ i)))
    | SIsEmpty i => Ret (hs, STruth (sIsEmpty (at_ i)))
    | SIsSubset i j => Ret (hs, STruth (IsSubset keqb (ord 0%nat) (at_ i) (at_ j)))
    | SIsSuperset i j => Ret (hs, STruth (IsSuperset keqb (ord 0%nat) (at_ i) (at_ j)))
    | SIsDisjoint i j => Ret (hs, STruth (IsDisjoint keqb (ord 0%nat) (at_ i) (at_ j)))
    | SEq i j => Ret (hs, STruth (sEq keqb (ord 0%nat) (at_ i) (at_ j)))
    | SElements i => Ret (hs, SList (elements (ord 0%nat) (at_ i)))
    | SAsSlice i => Ret (hs, SList (AsSlice (ord 0%nat) (at_ i)))
    end.
  Fixpoint srun (ords : nat -> nat -> sorder K) (n : nat) (hs : list (HashSet K)) (ops : list (@sop K)) : out (list (HashSet K) * list (@sanswer K)) :=
    match ops with
    | [] => Ret (hs, [])
    | o :: r => x <- sexec (ords n) hs o ;; y <- srun ords (S n) (fst x) r ;; Ret (fst y, snd x :: snd y)
    end.
End RunSets.

(** A map the operations can produce, whatever the runtime's orders. *)
Definition reached {K V} (keqb : K -> K -> bool) (m : HashMap K V) : Prop :=
  exists ords ops, (forall i, fair (ords i)) /\ m = fst (run keqb ords 0 HashMapNew ops).

(** n calls of Next on one iterator. *)
Fixpoint nexts {T} (n : nat) (it : cursor T) : out (cursor T * list (option T)) :=
  match n with
  | O => Ret (it, [])
  | S k => x <- Next it ;; y <- nexts k (fst x) ;; Ret (fst y, snd x :: snd y)
  end.
