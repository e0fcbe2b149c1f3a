(** CodeTreeSpec.v -- what a B-tree map does with comparisons that answer with any integers
    (C119): the machine of BTreeTreeSpec.v, with three readings of an answer that is none of
    OrderingLess, OrderingEqual and OrderingGreater. *)
From Verif Require Import Base BTreeSpec BTreeTreeSpec CodeSpec.
Local Open Scope nat_scope.

Section Tree.
  Context {K V : Type}.
  Variable same : forall a b : K, {a = b} + {a <> b}.
  Variable cmp : K -> K -> Z.

  (** Looking a key up: it counts as Less. *)
  Definition finding : K -> K -> ordering := via (or_else Less) cmp.
  (** Putting in a key that was not found: answers of the other keys count as Equal. *)
  Definition inserting (k a b : K) : ordering := if same a k then or_else Less (cmp a b) else or_else Equal (cmp a b).
  (** Taking a key out: it counts as Greater. *)
  Definition removing : K -> K -> ordering := via (or_else Greater) cmp.

  Definition code_step (t : tree K V) (o : bop K V) : option (tree K V * banswer K V) :=
    match o with
    | BInsert k v => tree_step (inserting k) t o
    | BRemove k =>
        match t with
        | One s =>
            let s' := match live_index removing k (live s) 0 with Some i => take_out s i | None => s end in
            match seek finding k (all_slots s) 0 with
            | Some i => option_map (fun v => (One (mkSlots (live (emptied s')) (rest (emptied s')) (wrap64 (count s - 1))), Value (Some v)))
                                   (slot_value (all_slots s') i)
            | None => Some (One (emptied s'), Value None)
            end
        | Two seps kids total =>
            match prune removing seps kids k, find finding seps kids k with
            | None, _ => None
            | Some x, None => Some (Two (fst x) (snd x) total, Value None)
            | Some x, Some p =>
                option_map (fun e => (Two (fst x) (snd x) (wrap64 (total - 1)), Value (Some (snd e)))) (content (fst x) (snd x) p)
            end
        end
    | _ => tree_step finding t o
    end.
  Fixpoint code_tree_run (t : tree K V) (ops : list (bop K V)) : option (tree K V * list (banswer K V)) :=
    match ops with
    | [] => Some (t, [])
    | o :: r => match code_step t o with
                | None => None
                | Some (t', a) => match code_tree_run t' r with None => None | Some (t'', rs) => Some (t'', a :: rs) end
                end
    end.
End Tree.
