(** CodeTreeModel.v -- histories of a B-tree map whose comparisons answer with any integers: the
    calls of BTreeHistory.v, with the functions of CodeModel.v that call Cmp. *)
From Verif Require Import Base Effect HashModel BTreeModel BTreeSpec BTreeHistory.
From Verif Require CodeModel.

(** A history of a map with such comparisons. *)
Section History.
  Context {K V : Type}.
  Variable cmp : K -> K -> Z.
  (** btree_map.go:48-208, 763-770, 877-884 (Values: 991-998), one call. *)
  Definition code_exec (m : BTreeMap) (o : bop K V) : M (heap K V) (BTreeMap * banswer K V) :=
    match o with
    | BInsert k v => r <~ CodeModel.Insert cmp m k v ;; mret (fst r, Value (snd r))
    | BRemove k => r <~ CodeModel.Remove cmp m k ;; mret (fst r, Value (snd r))
    | BGet k => asking m (CodeModel.Get cmp m k) Value
    | BContainsKey k => asking m (CodeModel.ContainsKey cmp m k) Truth
    | BLen => mret (m, Number (Len m))
    | BIsEmpty => mret (m, Truth (IsEmpty m))
    | BClear => mret (Clear m, Done)
    | BEntries => asking m (IntoIter_vec m) Entries
    | BKeys => asking m (Keys_vec m) KeyList
    | BValues => asking m (Values_vec m) ValueList
    end.
  (** One call after the other. *)
  Fixpoint code_run (m : BTreeMap) (ops : list (bop K V)) : M (heap K V) (BTreeMap * list (banswer K V)) :=
    match ops with
    | [] => mret (m, [])
    | o :: r => x <~ code_exec m o ;; y <~ code_run (fst x) r ;; mret (fst y, snd x :: snd y)
    end.
End History.
