(** AnyCmpTreeSpec.v -- where the search in a B-tree map starts (C114). *)
From Verif Require Import Base BTreeSpec BTreeTreeSpec.

(** In a map with one node its first slot, else its first separator, or the first slot of
    the first kid if that separator is empty. *)
Definition looked_at_first {K V} (t : tree K V) : option (K * V) :=
  match t with
  | One s => nth 0 (all_slots s) None
  | Two seps kids _ => match nth 0 seps None with Some e => Some e | None => nth 0 (cells (nth 0 kids no_kid)) None end
  end.
