(** BTreeShareSpec.v -- a variable that holds a B-tree map and a reference made by AsRef,
    which has the variable's nodes but a Len of its own: what the variable shows after one
    operation through the reference (C105). *)
From Verif Require Import Base BTreeSpec BTreeTreeSpec BTreeProgSpec.
Local Open Scope nat_scope.

Section Share.
  Context {K V : Type}.
  Variable cmp : K -> K -> ordering.
  (** The same tree, and a Len of n. *)
  Definition recount (n : Z) (t : tree K V) : tree K V :=
    match t with
    | One s => One (mkSlots (live s) (rest s) n)
    | Two seps kids _ => Two seps kids n
    end.
  (** What the variable has left: a whole tree, or one leaf of it and a Len of n. *)
  Inductive view := Whole (t : tree K V) | Leaf (c : kid K V) (n : Z).
  (** The map was a tree t, the operation made it t':
      - a map without nodes and a map that is cleared have nothing in common with the reference;
      - a key beyond the eleventh: the variable keeps the first kid of the new tree;
      - the last key removed: the variable keeps a node without live keys, where the
        removed one may still be;
      - otherwise the variable sees it all, but its Len is what it was. *)
  Definition seen (t : tree K V) (o : bop K V) (t' : tree K V) : view :=
    let n := size cmp t in
    match o with
    | BClear => Whole t
    | _ =>
        match t, t' with
        | One s, Two _ kids _ => Leaf (nth 0 kids no_kid) n
        | One s, One s' =>
            match live s, live s' with
            | [], _ => Whole t
            | _, [] => match o with BRemove k => Leaf (mkKid (all_slots (match live_index cmp k (live s) 0 with Some i => take_out s i | None => s end)) 0) n | _ => Whole t end
            | _, _ => Whole (recount n t')
            end
        | Two _ _ _, _ => Whole (recount n t')
        end
    end.
  (** What the variable answers when it has one leaf left. *)
  Definition leaf_answer (c : kid K V) (n : Z) (q : bop K V) : banswer K V :=
    match q with
    | BGet k => Value (match seek cmp k (cells c) 0 with Some i => slot_value (cells c) i | None => None end)
    | BContainsKey k => Truth (is_some (seek cmp k (cells c) 0))
    | BLen => Number n
    | BIsEmpty => Truth (n =? 0)%Z
    | BEntries => Entries (somes (cells c))
    | BKeys => KeyList (map fst (somes (firstn (used c) (cells c))))
    | BValues => ValueList (map snd (somes (cells c)))
    | _ => Done
    end.
End Share.
