(** BTreeHistory.v -- running operations on one BTreeMap. *)
From Verif Require Import Base Effect HashModel BTreeModel BTreeSpec.

Section Run.
  Context {K V : Type}.
  Variable cmp : K -> K -> ordering.
  Definition asking {A} (m : BTreeMap) (f : heap K V -> out A) (g : A -> banswer K V) : M (heap K V) (BTreeMap * banswer K V) :=
    fun h => a <- f h ;; Ret ((m, g a), h).
  Definition exec (m : BTreeMap) (o : bop K V) : M (heap K V) (BTreeMap * banswer K V) :=
    match o with
    | BInsert k v => r <~ Insert cmp m k v ;; mret (fst r, Value (snd r))
    | BRemove k => r <~ Remove cmp m k ;; mret (fst r, Value (snd r))
    | BGet k => asking m (Get cmp m k) Value
    | BContainsKey k => asking m (ContainsKey cmp m k) Truth
    | BLen => mret (m, Number (Len m))
    | BIsEmpty => mret (m, Truth (IsEmpty m))
    | BClear => mret (Clear m, Done)
    | BEntries => asking m (IntoIter_vec m) Entries
    | BKeys => asking m (Keys_vec m) KeyList
    | BValues => asking m (Values_vec m) ValueList
    end.
  Fixpoint run (m : BTreeMap) (ops : list (bop K V)) : M (heap K V) (BTreeMap * list (banswer K V)) :=
    match ops with
    | [] => mret (m, [])
    | o :: r => x <~ exec m o ;; y <~ run (fst x) r ;; mret (fst y, snd x :: snd y)
    end.
End Run.

(** Inserting elements into a set, one after the other. *)
Fixpoint add_all {K} (cmp : K -> K -> ordering) (l : list K) (s : BTreeSet) : M (heap K unit) BTreeSet :=
  match l with
  | [] => mret s
  | x :: r => y <~ sInsert cmp s x ;; add_all cmp r (fst y)
  end.

(** Operations on two maps in any order; [true] is the first one. *)
Fixpoint run2 {K V} (cmp : K -> K -> ordering) (a b : BTreeMap) (ops : list (bool * bop K V)) : M (heap K V) (BTreeMap * BTreeMap) :=
  match ops with
  | [] => mret (a, b)
  | (true, o) :: r => x <~ exec cmp a o ;; run2 cmp (fst x) b r
  | (false, o) :: r => x <~ exec cmp b o ;; run2 cmp a (fst x) r
  end.

(** Two sets made by insertions, and what a set shows to its user: [p] says which
    elements it has. *)
Definition add_both {K} (cmp : K -> K -> ordering) (xs ys : list K) : M (heap K unit) (BTreeSet * BTreeSet) :=
  s <~ add_all cmp xs BTreeSetNew ;; o <~ add_all cmp ys BTreeSetNew ;; mret (s, o).
Definition shows {K} (cmp : K -> K -> ordering) (h : heap K unit) (s : BTreeSet) (p : K -> bool) : Prop :=
  (forall x, Contains cmp s x h = Ret (p x)) /\
  exists l, ascending cmp l /\ (forall x, mem cmp x l = p x) /\ sLen s = Z.of_nat (length l) /\
    sIsEmpty s = (match l with [] => true | _ => false end) /\
    sIntoIter_vec s h = match l with [] => Panic | _ => Ret l end.
