(** BTreeProgSpec.v -- programs over any number of B-tree maps or sets: each variable is a
    machine of BTreeTreeSpec.v of its own, and every method is what these machines answer. *)
From Verif Require Import Base CmpSpec VecSpec TextSpec BTreeSpec BTreeTreeSpec BTreeShowSpec.
Local Open Scope nat_scope.

Section Machine.
  Context {K V : Type}.
  Variable cmp : K -> K -> ordering.
  Notation tree := (tree K V).
  Definition empty : tree := One no_slots.
  (** What a machine answers to the calls that do not change it. *)
  Definition has (t : tree) (k : K) : bool := match tree_step cmp t (BContainsKey k) with Some (_, Truth b) => b | _ => false end.
  Definition value_of (t : tree) (k : K) : option V := match tree_step cmp t (BGet k) with Some (_, Value v) => v | _ => None end.
  Definition size (t : tree) : Z := match tree_step cmp t BLen with Some (_, Number z) => z | _ => 0%Z end.
  Definition keys_of (t : tree) : list K := match tree_step cmp t BKeys with Some (_, KeyList l) => l | _ => [] end.
  Definition entries_of (t : tree) : list (K * V) := match tree_step cmp t BEntries with Some (_, Entries l) => l | _ => [] end.
  (** No node: nothing was ever inserted, or all was cleared or removed. *)
  Definition hollow (t : tree) : bool := match t with One s => match live s with [] => true | _ => false end | Two _ _ _ => false end.
End Machine.

(** *** Programs over maps *)
Section Maps.
  Context {K V : Type}.
  Variable cmp : K -> K -> ordering.
  Variable eq : V -> V -> bool.
  Variable dk : K -> list Z.
  Variable dv : V -> list Z.
  (** A new map; a method of map i; i.Eq(j); i.Display(). *)
  Inductive mop := MNew | MDo (i : nat) (o : bop K V) | MEq (i j : nat) | MDisplay (i : nat).
  Inductive manswer := MDone | MAnswer (a : banswer K V) | MTruth (b : bool) | MText (s : list Z).
  Definition mstep (ts : list (tree K V)) (o : mop) : option (list (tree K V) * manswer) :=
    match o with
    | MNew => Some (ts ++ [empty], MDone)
    | MDo i o =>
        match nth_error ts i with
        | None => None
        | Some t => match tree_step cmp t o with
                    | None => None
                    | Some (t', a) => Some (list_set ts i t', MAnswer a)
                    end
        end
    | MEq i j =>
        match nth_error ts i, nth_error ts j with
        | Some t, Some u =>
            Some (ts, MTruth ((size cmp t =? size cmp u)%Z &&
                              forallb (fun e => match value_of cmp u (fst e) with Some w => eq w (snd e) | None => false end) (entries_of cmp t)))
        | _, _ => None
        end
    | MDisplay i =>
        match nth_error ts i with
        | Some t => Some (ts, MText (zs "BTreeMap{" ++ comma_separated (shown dk dv (value_of cmp t) (keys_of cmp t)) ++ zs "}"))
        | None => None
        end
    end.
  Fixpoint mrun (ts : list (tree K V)) (ops : list mop) : option (list (tree K V) * list manswer) :=
    match ops with
    | [] => Some (ts, [])
    | o :: r => match mstep ts o with
                | None => None
                | Some (ts', a) => option_map (fun x => (fst x, a :: snd x)) (mrun ts' r)
                end
    end.
End Maps.

(** *** Programs over sets *)
Section Sets.
  Context {K : Type}.
  Variable cmp : K -> K -> ordering.
  Variable dk : K -> list Z.
  Notation tree := (tree K unit).
  (** The elements an iterator gives; there is none over a set without nodes (a panic). *)
  Definition elements (t : tree) : option (list K) := if hollow t then None else Some (keys_of cmp t).
  Definition add (t : tree) (x : K) : option tree := option_map fst (tree_step cmp t (BInsert x tt)).
  Fixpoint add_those (p : K -> bool) (l : list K) (t : tree) : option tree :=
    match l with
    | [] => Some t
    | x :: r => if p x then match add t x with Some t' => add_those p r t' | None => None end else add_those p r t
    end.
  Definition intersection (t u : tree) : option tree :=
    match elements t with Some l => add_those (has cmp u) l empty | None => None end.
  Definition both (p q : K -> bool) (t u : tree) : option tree :=
    match elements t with
    | None => None
    | Some l => match add_those p l empty with
                | None => None
                | Some v => match elements u with Some l' => add_those q l' v | None => None end
                end
    end.
  Definition union (t u : tree) : option tree := both (fun _ => true) (fun _ => true) t u.
  Definition symmetric (t u : tree) : option tree := both (fun x => negb (has cmp u x)) (fun x => negb (has cmp t x)) t u.
  Definition subset (t u : tree) : option bool :=
    if (size cmp u <? size cmp t)%Z then Some false else option_map (forallb (has cmp u)) (elements t).
  Definition disjoint (t u : tree) : option bool := option_map (forallb (fun x => negb (has cmp u x))) (elements t).
  Definition equal (t u : tree) : option bool :=
    if (size cmp t =? size cmp u)%Z then option_map (forallb (has cmp u)) (elements t) else Some false.

  (** A new set; Insert, Remove, Contains, Len, IsEmpty, Clear of set i; the elements its
      iterator gives; comparisons; Display; a new set made from two. *)
  Inductive zop :=
  | ZNew | ZDo (i : nat) (o : sop (K := K)) | ZElements (i : nat)
  | ZSubset (i j : nat) | ZSuperset (i j : nat) | ZDisjoint (i j : nat) | ZEq (i j : nat) | ZDisplay (i : nat)
  | ZIntersection (i j : nat) | ZUnion (i j : nat) | ZSymmetricDifference (i j : nat).
  Inductive zanswer := ZDone | ZAnswer (a : sanswer) | ZTruth (b : bool) | ZList (l : list K) | ZText (s : list Z).
  Definition set_call (t : tree) (o : sop (K := K)) : option (tree * sanswer) :=
    match o with
    | SAdd x => option_map (fun r => (fst r, match snd r with Value v => STruth (negb (is_some v)) | _ => SDone end)) (tree_step cmp t (BInsert x tt))
    | STake x => option_map (fun r => (fst r, match snd r with Value v => STruth (is_some v) | _ => SDone end)) (tree_step cmp t (BRemove x))
    | SHas x => Some (t, STruth (has cmp t x))
    | SCount => Some (t, SNumber (size cmp t))
    | SNone => Some (t, STruth (size cmp t =? 0)%Z)
    | SWipe => Some (empty, SDone)
    end.
  Definition on_one {A} (ts : list tree) (i : nat) (f : tree -> option A) : option A :=
    match nth_error ts i with Some t => f t | None => None end.
  Definition on_two {A} (ts : list tree) (i j : nat) (f : tree -> tree -> option A) : option A :=
    match nth_error ts i, nth_error ts j with Some t, Some u => f t u | _, _ => None end.
  Definition zstep (ts : list tree) (o : zop) : option (list tree * zanswer) :=
    let told := option_map (fun b => (ts, ZTruth b)) in
    let made := option_map (fun t => (ts ++ [t], ZDone)) in
    match o with
    | ZNew => Some (ts ++ [empty], ZDone)
    | ZDo i o => on_one ts i (fun t => option_map (fun r => (list_set ts i (fst r), ZAnswer (snd r))) (set_call t o))
    | ZElements i => on_one ts i (fun t => option_map (fun l => (ts, ZList l)) (elements t))
    | ZSubset i j => told (on_two ts i j subset)
    | ZSuperset i j => told (on_two ts j i subset)
    | ZDisjoint i j => told (on_two ts i j disjoint)
    | ZEq i j => told (on_two ts i j equal)
    | ZDisplay i => on_one ts i (fun t => option_map (fun l => (ts, ZText (zs "BTreeSet{" ++ comma_separated (map dk l) ++ zs "}"))) (elements t))
    | ZIntersection i j => made (on_two ts i j intersection)
    | ZUnion i j => made (on_two ts i j union)
    | ZSymmetricDifference i j => made (on_two ts i j symmetric)
    end.
  Fixpoint zrun (ts : list tree) (ops : list zop) : option (list tree * list zanswer) :=
    match ops with
    | [] => Some (ts, [])
    | o :: r => match zstep ts o with
                | None => None
                | Some (ts', a) => option_map (fun x => (fst x, a :: snd x)) (zrun ts' r)
                end
    end.
End Sets.
Arguments mop K V : clear implicits.
Arguments manswer K V : clear implicits.
Arguments zop K : clear implicits.
Arguments zanswer K : clear implicits.
