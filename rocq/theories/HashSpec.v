(** HashSpec.v -- finite maps and finite sets, whatever the order the runtime picks. *)
From Coq Require Import Permutation.
From Verif Require Import Base.
Local Open Scope Z_scope.

(** == on keys is an equivalence; NaN is what reflexivity excludes. *)
Definition equivalence {K} (keqb : K -> K -> bool) : Prop :=
  (forall a, keqb a a = true) /\
  (forall a b, keqb a b = true -> keqb b a = true) /\
  (forall a b c, keqb a b = true -> keqb b c = true -> keqb a c = true).

(** An order the runtime may pick: each entry once. *)
Definition fair {E} (ord : list E -> list E) : Prop := forall l, Permutation (ord l) l.

Section Finite.
  Context {K V : Type}.
  Variable keqb : K -> K -> bool.

  (** No key twice. *)
  Fixpoint distinct (ks : list K) : Prop :=
    match ks with
    | [] => True
    | k :: r => (forall k', In k' r -> keqb k k' = false) /\ distinct r
    end.
  (** es lists the map f: every entry of f, and no key twice. *)
  Definition lists (f : K -> option V) (es : list (K * V)) : Prop :=
    distinct (map fst es) /\
    forall k v, f k = Some v <-> exists k', In (k', v) es /\ keqb k' k = true.

  Definition with_ (f : K -> option V) (k : K) (v : V) : K -> option V := fun x => if keqb k x then Some v else f x.
  Definition without (f : K -> option V) (k : K) : K -> option V := fun x => if keqb k x then None else f x.
  Definition nothing : K -> option V := fun _ => None.

  Inductive mop :=
  | MInsert (k : K) (v : V) | MRemove (k : K) | MGet (k : K) | MContainsKey (k : K)
  | MClear | MLen | MIsEmpty | MEntries | MKeys | MValues.
  Inductive manswer :=
  | Done | Value (o : option V) | Truth (b : bool) | Number (z : Z)
  | Entries (es : list (K * V)) | KeyList (ks : list K) | ValueList (vs : list V).

  Inductive mstep : (K -> option V) -> mop -> (K -> option V) -> manswer -> Prop :=
  | ms_insert f k v : mstep f (MInsert k v) (with_ f k v) (Value (f k))
  | ms_remove f k : mstep f (MRemove k) (without f k) (Value (f k))
  | ms_get f k : mstep f (MGet k) f (Value (f k))
  | ms_contains f k b : (b = true <-> f k <> None) -> mstep f (MContainsKey k) f (Truth b)
  | ms_clear f : mstep f MClear nothing Done
  | ms_len f es : lists f es -> mstep f MLen f (Number (Z.of_nat (length es)))
  | ms_empty f b : (b = true <-> forall k, f k = None) -> mstep f MIsEmpty f (Truth b)
  | ms_entries f es : lists f es -> mstep f MEntries f (Entries es)
  | ms_keys f es : lists f es -> mstep f MKeys f (KeyList (map fst es))
  | ms_values f es : lists f es -> mstep f MValues f (ValueList (map snd es)).
  Inductive mhistory : (K -> option V) -> list mop -> (K -> option V) -> list manswer -> Prop :=
  | mh_nil f : mhistory f [] f []
  | mh_cons f o g a ops h rs : mstep f o g a -> mhistory g ops h rs -> mhistory f (o :: ops) h (a :: rs).

  (** The values agree, key by key. *)
  Definition agree (eqv : V -> V -> bool) (a b : option V) : Prop :=
    match a, b with
    | None, None => True
    | Some v, Some w => eqv v w = true
    | _, _ => False
    end.
End Finite.

(** *** Sets: xs lists the set p of keys. *)
Definition set_lists {K} (keqb : K -> K -> bool) (p : K -> Prop) (xs : list K) : Prop :=
  distinct keqb xs /\ forall x, p x <-> exists x', In x' xs /\ keqb x' x = true.
Definition size_is {K} (keqb : K -> K -> bool) (p : K -> Prop) (n : Z) : Prop :=
  exists xs, set_lists keqb p xs /\ n = Z.of_nat (length xs).

(** *** Histories on any number of sets, each a set of its own.  A number that names
    none stands for an empty set that is dropped after the operation. *)
Section Sets.
  Context {K : Type}.
  Variable keqb : K -> K -> bool.
  Inductive sop :=
  | SNew | SFromSlice (xs : list K)                       (* a new set, next number *)
  | SUnion (i j : nat) | SIntersection (i j : nat) | SSymmetricDifference (i j : nat) | SClone (i : nat)   (* likewise *)
  | SInsert (i : nat) (x : K) | SRemove (i : nat) (x : K) | SClear (i : nat)
  | SContains (i : nat) (x : K) | SGet (i : nat) (x : K) | SLen (i : nat) | SIsEmpty (i : nat)
  | SIsSubset (i j : nat) | SIsSuperset (i j : nat) | SIsDisjoint (i j : nat) | SEq (i j : nat)
  | SElements (i : nat) | SAsSlice (i : nat).
  Inductive sanswer := SDone | STruth (b : bool) | SNumber (z : Z) | SFound (o : option K) | SList (xs : list K).

  Definition sets := list (K -> Prop).
  Definition set (ss : sets) (i : nat) : K -> Prop := nth i ss (fun _ => False).

  Inductive sstep : sets -> sop -> sets -> sanswer -> Prop :=
  | ss_new ss : sstep ss SNew (ss ++ [fun _ => False]) SDone
  | ss_slice ss xs : sstep ss (SFromSlice xs) (ss ++ [fun y => exists x, In x xs /\ keqb x y = true]) SDone
  | ss_union ss i j : sstep ss (SUnion i j) (ss ++ [fun x => set ss i x \/ set ss j x]) SDone
  | ss_inter ss i j : sstep ss (SIntersection i j) (ss ++ [fun x => set ss i x /\ set ss j x]) SDone
  | ss_sym ss i j : sstep ss (SSymmetricDifference i j)
      (ss ++ [fun x => set ss i x /\ ~ set ss j x \/ set ss j x /\ ~ set ss i x]) SDone
  | ss_clone ss i : sstep ss (SClone i) (ss ++ [set ss i]) SDone
  | ss_insert ss i x b : (b = true <-> ~ set ss i x) ->
      sstep ss (SInsert i x) (list_set ss i (fun y => set ss i y \/ keqb x y = true)) (STruth b)
  | ss_remove ss i x b : (b = true <-> set ss i x) ->
      sstep ss (SRemove i x) (list_set ss i (fun y => set ss i y /\ keqb x y = false)) (STruth b)
  | ss_clear ss i : sstep ss (SClear i) (list_set ss i (fun _ => False)) SDone
  | ss_contains ss i x b : (b = true <-> set ss i x) -> sstep ss (SContains i x) ss (STruth b)
  | ss_get_some ss i x : set ss i x -> sstep ss (SGet i x) ss (SFound (Some x))
  | ss_get_none ss i x : ~ set ss i x -> sstep ss (SGet i x) ss (SFound None)
  | ss_len ss i n : size_is keqb (set ss i) n -> sstep ss (SLen i) ss (SNumber n)
  | ss_empty ss i b : (b = true <-> forall x, ~ set ss i x) -> sstep ss (SIsEmpty i) ss (STruth b)
  | ss_subset ss i j b : (b = true <-> forall x, set ss i x -> set ss j x) -> sstep ss (SIsSubset i j) ss (STruth b)
  | ss_superset ss i j b : (b = true <-> forall x, set ss j x -> set ss i x) -> sstep ss (SIsSuperset i j) ss (STruth b)
  | ss_disjoint ss i j b : (b = true <-> forall x, ~ (set ss i x /\ set ss j x)) -> sstep ss (SIsDisjoint i j) ss (STruth b)
  | ss_eq ss i j b : (b = true <-> forall x, set ss i x <-> set ss j x) -> sstep ss (SEq i j) ss (STruth b)
  | ss_elements ss i xs : set_lists keqb (set ss i) xs -> sstep ss (SElements i) ss (SList xs)
  | ss_asslice ss i xs : set_lists keqb (set ss i) xs -> sstep ss (SAsSlice i) ss (SList xs).
  Inductive shistory : sets -> list sop -> sets -> list sanswer -> Prop :=
  | sh_nil ss : shistory ss [] ss []
  | sh_cons ss o ss' a ops ss'' rs : sstep ss o ss' a -> shistory ss' ops ss'' rs -> shistory ss (o :: ops) ss'' (a :: rs).
End Sets.
