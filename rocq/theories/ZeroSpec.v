(** ZeroSpec.v -- which calls make a variable that was only declared (var x ...) usable, and
    which calls cannot be served before. *)
From Verif Require Import Base.
From Verif Require HashSpec DequeSpec.
Local Open Scope Z_scope.

Section Map.
  Context {K V : Type}.
  Definition map_clears (o : @HashSpec.mop K V) : Prop := o = HashSpec.MClear.
  (** The answer of an empty map, or none where a value has to be stored. *)
  Definition map_unprepared (keqb : K -> K -> bool) (o : @HashSpec.mop K V) (a : option (@HashSpec.manswer K V)) : Prop :=
    match o with
    | HashSpec.MInsert _ _ => a = None
    | _ => exists b f, a = Some b /\ HashSpec.mstep keqb HashSpec.nothing o f b /\ forall k, f k = None
    end.
End Map.

Section Deque.
  Context {T : Type}.
  Definition pushes (o : @DequeSpec.dop T) : Prop :=
    match o with DequeSpec.PushFront _ | DequeSpec.PushBack _ => True | _ => False end.
  Definition readies (o : @DequeSpec.dop T) : Prop :=
    match o with DequeSpec.Clear => True | DequeSpec.Reserve n => 0 < n | _ => False end.
  (** Calls an empty deque answers and stays empty. *)
  Definition harmless (eqb : T -> T -> bool) (o : @DequeSpec.dop T) : Prop :=
    ~ readies o /\ exists b, DequeSpec.dstep eqb [] o [] b.
  Definition deque_unprepared (eqb : T -> T -> bool) (o : @DequeSpec.dop T) (a : option (@DequeSpec.danswer T)) : Prop :=
    (pushes o /\ a = None) \/ (~ pushes o /\ exists b, a = Some b /\ DequeSpec.dstep eqb [] o [] b).
End Deque.

(** Sets: a declaration, or a call.  [news]: which of the variables have only been
    declared so far. *)
Section Sets.
  Context {K : Type}.
  Inductive vop := Declare | Do (o : @HashSpec.sop K).
  Definition as_new (o : vop) : @HashSpec.sop K := match o with Declare => HashSpec.SNew | Do o => o end.
  Definition declared_only (news : list bool) (o : vop) : list bool :=
    match o with
    | Declare => news ++ [true]
    | Do (HashSpec.SNew | HashSpec.SFromSlice _ | HashSpec.SUnion _ _ | HashSpec.SIntersection _ _
         | HashSpec.SSymmetricDifference _ _ | HashSpec.SClone _) => news ++ [false]
    | Do (HashSpec.SClear i) => list_set news i false
    | Do _ => news
    end.
  Definition refused (news : list bool) (o : vop) : bool :=
    match o with Do (HashSpec.SInsert i _) => nth i news false | _ => false end.
  (** Which calls of a history are refused, and what is left of it without them. *)
  Fixpoint refusals (news : list bool) (ops : list vop) : list bool :=
    match ops with
    | [] => []
    | o :: r => refused news o :: refusals (declared_only news o) r
    end.
  Fixpoint served (news : list bool) (ops : list vop) : list vop :=
    match ops with
    | [] => []
    | o :: r => if refused news o then served news r else o :: served (declared_only news o) r
    end.
  (** The answers that were given. *)
  Fixpoint given {A} (l : list (option A)) : list A :=
    match l with [] => [] | Some a :: r => a :: given r | None :: r => given r end.
End Sets.
