(** BTreeTreeSpec.v -- the machine that the B-tree map turns out to be, for all histories.

    It is the eleven slots of [slot_step] (BTreeSpec.v) until a twelfth live key comes.
    From then on it has separators and, between and around them, kids of eleven slots;
    slots and separators may be empty.  [None] as the result of a step is a panic. *)
From Verif Require Import Base BTreeSpec.
Local Open Scope nat_scope.

Section Tree.
  Context {K V : Type}.
  Variable cmp : K -> K -> ordering.
  Notation slot := (option (K * V)).

  (** The first [used] slots of a kid are in use (as far as they are not empty). *)
  Record kid := mkKid { cells : list slot; used : nat }.
  Definition no_kid : kid := mkKid [] 0.
  Inductive tree :=
  | One (s : slots K V)
  | Two (seps : list slot) (kids : list kid) (total : Z).

  (** *** Finding *)
  (** How many keys are smaller than k, up to the first empty slot. *)
  Fixpoint skip (k : K) (l : list slot) : nat :=
    match l with
    | Some e :: r => match cmp k (fst e) with Greater => S (skip k r) | _ => 0 end
    | _ => 0
    end.
  Inductive spot := Sep (i : nat) | Cell (i j : nat).
  Definition find (seps : list slot) (kids : list kid) (k : K) : option spot :=
    let i := skip k seps in
    let below := option_map (Cell i) (seek cmp k (cells (nth i kids no_kid)) 0) in
    match nth i seps None with
    | Some e => match cmp k (fst e) with Equal => Some (Sep i) | _ => below end
    | None => below
    end.
  Definition content (seps : list slot) (kids : list kid) (p : spot) : slot :=
    match p with
    | Sep i => nth i seps None
    | Cell i j => nth j (cells (nth i kids no_kid)) None
    end.
  Definition with_value (v : V) (s : slot) : slot := option_map (fun e => (fst e, v)) s.
  Definition set_value (seps : list slot) (kids : list kid) (p : spot) (v : V) : list slot * list kid :=
    match p with
    | Sep i => (list_set seps i (with_value v (nth i seps None)), kids)
    | Cell i j => let c := nth i kids no_kid in
                  (seps, list_set kids i (mkKid (list_set (cells c) j (with_value v (nth j (cells c) None))) (used c)))
    end.

  (** *** A new key *)
  (** How many keys at the end are greater than k, up to the first empty slot. *)
  Fixpoint greater_from_end (k : K) (rl : list slot) : nat :=
    match rl with
    | Some e :: r => match cmp (fst e) k with Greater => S (greater_from_end k r) | _ => 0 end
    | _ => 0
    end.
  (** Put e before them. *)
  Definition settle (e : K * V) (l : list slot) : list slot :=
    let m := length l - greater_from_end (fst e) (rev l) in firstn m l ++ Some e :: skipn m l.
  Definition filled (e : K * V) (c : kid) : kid := mkKid (settle e (firstn 10 (cells c))) 11.
  (** The kid to take the key is split, whatever it holds: its eleventh slot is copied
      between it and a kid of empty slots, and the key goes left or right. *)
  Definition grow (seps : list slot) (kids : list kid) (e : K * V) : option (list slot * list kid) :=
    if length seps =? 10 then None
    else
      let i := length seps - greater_from_end (fst e) (rev seps) in
      let c := nth i kids no_kid in
      let up := nth 10 (cells c) None in
      let left := mkKid (cells c) 10 in
      let right := mkKid (repeat None 11) 10 in
      let goes_right := match up with Some u => match cmp (fst u) (fst e) with Less => true | _ => false end | None => false end in
      Some (firstn i seps ++ up :: skipn i seps,
            firstn i kids ++ (if goes_right then [left; filled e right] else [filled e left; right]) ++ skipn (S i) kids).

  (** *** Removing *)
  (** How many keys are smaller than k, up to the first empty slot: the other way round. *)
  Fixpoint below (k : K) (l : list slot) : nat :=
    match l with
    | Some e :: r => match cmp (fst e) k with Less => S (below k r) | _ => 0 end
    | _ => 0
    end.
  Definition holds (k : K) (s : slot) : bool :=
    match s with Some e => match cmp (fst e) k with Equal => true | _ => false end | None => false end.
  (** Slot i goes: those after it move down and leave an empty one; the last one stays
      where it is and is only no longer counted. *)
  Definition pull (c : kid) (i : nat) : kid :=
    mkKid (if S i =? used c then cells c
           else firstn i (cells c) ++ firstn (used c - S i) (skipn (S i) (cells c)) ++ None :: skipn (used c) (cells c))
          (used c - 1).
  Definition kid_remove (k : K) (c : kid) : kid :=
    let live := firstn (used c) (cells c) in
    let i := below k live in
    if holds k (nth i live None) then pull c i else c.
  Definition spare (c : kid) : bool := 11 <=? used c.
  (** A separator is replaced by the last cell of the kid before it or by the first one of
      the kid after it, if these have a cell to spare.  A kid without a cell to spare gets
      the separator of a neighbour that has one, which gives a cell for it.  If there is
      no such neighbour there is a panic. *)
  Definition prune (seps : list slot) (kids : list kid) (k : K) : option (list slot * list kid) :=
    let i := below k seps in
    let c := nth i kids no_kid in
    let next := nth (S i) kids no_kid in
    if holds k (nth i seps None) then
      if spare c then
        match nth 10 (cells c) None with
        | None => None
        | Some e => Some (list_set seps i (Some e), list_set kids i (kid_remove (fst e) c))
        end
      else if spare next then
        match nth 0 (cells next) None with
        | None => None
        | Some e => Some (list_set seps i (Some e), list_set kids (S i) (kid_remove (fst e) next))
        end
      else None
    else if spare c then Some (seps, list_set kids i (kid_remove k c))
    else
      let prev := nth (i - 1) kids no_kid in
      if (0 <? i) && spare prev then
        Some (list_set seps (i - 1) (nth 10 (cells prev) None),
              list_set (list_set kids (i - 1) (mkKid (cells prev) 10))
                       i (kid_remove k (mkKid (nth (i - 1) seps None :: firstn 10 (cells c)) 11)))
      else if (i <? length seps) && spare next then
        Some (list_set seps i (nth 0 (cells next) None),
              list_set (list_set kids (S i) (mkKid (skipn 1 (cells next) ++ [nth 10 (cells next) None]) 10))
                       i (kid_remove k (mkKid (firstn 10 (cells c) ++ [nth i seps None]) 11)))
      else None.

  (** *** Listings *)
  Fixpoint entries (seps : list slot) (kids : list kid) : list (K * V) :=
    match kids, seps with
    | c :: cs, s :: ss => somes (cells c) ++ somes [s] ++ entries ss cs
    | c :: _, [] => somes (cells c)
    | [], _ => []
    end.
  (** Without the last kid, and of the others only the slots in use. *)
  Fixpoint key_list (seps : list slot) (kids : list kid) : list K :=
    match kids, seps with
    | c :: cs, s :: ss => map fst (somes (firstn (used c) (cells c)) ++ somes [s]) ++ key_list ss cs
    | _, _ => []
    end.

  Definition tree_step (t : tree) (o : bop K V) : option (tree * banswer K V) :=
    match t with
    | One s =>
        match slot_step cmp s o, o with
        | Some (s', a), _ => if lost cmp s o a then None else Some (One s', a)
        | None, BInsert k v =>
            option_map (fun x => (Two (fst x) (snd x) (wrap64 (count s + 1)), Value None)) (grow [] [mkKid (map Some (live s)) 11] (k, v))
        | None, _ => None
        end
    | Two seps kids total =>
        match o with
        | BInsert k v =>
            match find seps kids k with
            | Some p => let x := set_value seps kids p v in
                        Some (Two (fst x) (snd x) total, Value (option_map snd (content seps kids p)))
            | None => option_map (fun x => (Two (fst x) (snd x) (wrap64 (total + 1)), Value None)) (grow seps kids (k, v))
            end
        | BRemove k =>
            match prune seps kids k, find seps kids k with
            | None, _ => None
            | Some x, None => Some (Two (fst x) (snd x) total, Value None)
            | Some x, Some p =>
                match content (fst x) (snd x) p with
                | None => None
                | Some e => Some (Two (fst x) (snd x) (wrap64 (total - 1)), Value (Some (snd e)))
                end
            end
        | BGet k => Some (t, Value (match find seps kids k with Some p => option_map snd (content seps kids p) | None => None end))
        | BContainsKey k => Some (t, Truth (is_some (find seps kids k)))
        | BLen => Some (t, Number total)
        | BIsEmpty => Some (t, Truth (total =? 0)%Z)
        | BClear => Some (One no_slots, Done)
        | BEntries => Some (t, Entries (entries seps kids))
        | BKeys => Some (t, KeyList (key_list seps kids))
        | BValues => Some (t, ValueList (map snd (entries seps kids)))
        end
    end.
  Fixpoint tree_run (t : tree) (ops : list (bop K V)) : option (tree * list (banswer K V)) :=
    match ops with
    | [] => Some (t, [])
    | o :: r => match tree_step t o with
                | None => None
                | Some (t', a) => match tree_run t' r with None => None | Some (t'', rs) => Some (t'', a :: rs) end
                end
    end.
End Tree.
Arguments kid K V : clear implicits.
Arguments tree K V : clear implicits.
