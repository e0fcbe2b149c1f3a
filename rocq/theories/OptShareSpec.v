(** OptShareSpec.v -- programs over Option variables and references into them, and what they
    should answer if an Option is a value. *)
From Coq Require Import List Arith Bool.
Import ListNotations.

Section Spec.
  Context {T : Type}.
  (** Right-hand sides.  Variables and references are numbered.  [EOrElse y z] is
      y.OrElse(f) for a function f that returns the variable z; [EClone y c] clones with the
      element's Clone c. *)
  Inductive expr :=
  | ESome (v : T) | ENone | EVar (y : nat)
  | EFilter (y : nat) (f : T -> bool) | EOr (y z : nat) | EOrElse (y z : nat) | EXor (y z : nat)
  | EMap (y : nat) (f : T -> T) | EClone (y : nat) (c : T -> T) | ETake (y : nat) | EReplace (y : nat) (v : T).
  (** x = e; r = x.Insert(v); r = x.GetOrInsert(v); *r = v; *r; x.IsSome(); x.Unwrap(). *)
  Inductive stmt :=
  | Assign (x : nat) (e : expr)
  | DoInsert (x : nat) (v : T) (r : nat) | DoGetOrInsert (x : nat) (v : T) (r : nat)
  | Write (r : nat) (v : T) | Read (r : nat) | AskSome (x : nat) | AskUnwrap (x : nat).
  (** [AUnwrap None]: the call panicked. *)
  Inductive answer := ADone | AValue (v : T) | ABool (b : bool) | AUnwrap (o : option T).

  Definition set {A} (f : nat -> A) (x : nat) (a : A) : nat -> A := fun y => if Nat.eqb y x then a else f y.

  (** *** Options as values: [val] the variables, [at_] the variable a reference refers to.
      Giving a variable a new value ends the references to the old one. *)
  Record vstate := mkV { val : nat -> option T; at_ : nat -> option nat }.
  Definition ends (x : nat) (a : nat -> option nat) : nat -> option nat :=
    fun r => match a r with Some y => if Nat.eqb y x then None else Some y | None => None end.
  Definition vset (s : vstate) (x : nat) (o : option T) : vstate := mkV (set (val s) x o) (ends x (at_ s)).
  Definition orelse (a b : option T) : option T := match a with Some _ => a | None => b end.
  Definition veval (s : vstate) (e : expr) : vstate * option T :=
    match e with
    | ESome v => (s, Some v)
    | ENone => (s, None)
    | EVar y => (s, val s y)
    | EFilter y f => (s, match val s y with Some v => if f v then Some v else None | None => None end)
    | EOr y z | EOrElse y z => (s, orelse (val s y) (val s z))
    | EXor y z => (s, match val s y, val s z with Some v, None | None, Some v => Some v | _, _ => None end)
    | EMap y f => (s, option_map f (val s y))
    | EClone y c => (s, option_map c (val s y))
    | ETake y => (match val s y with Some _ => vset s y None | None => s end, val s y)
    | EReplace y v => (match val s y with Some _ => vset s y (Some v) | None => s end, val s y)
    end.
  Definition vrefer (s : vstate) (r x : nat) : vstate := mkV (val s) (set (at_ s) r (Some x)).
  (** None: the program uses a reference that has ended. *)
  Definition vstep (s : vstate) (c : stmt) : option (vstate * answer) :=
    match c with
    | Assign x e => let (s', o) := veval s e in Some (vset s' x o, ADone)
    | DoInsert x v r => Some (vrefer (vset s x (Some v)) r x, ADone)
    | DoGetOrInsert x v r =>
        Some (match val s x with Some _ => vrefer s r x | None => vrefer (vset s x (Some v)) r x end, ADone)
    | Write r v => match at_ s r with Some x => Some (mkV (set (val s) x (Some v)) (at_ s), ADone) | None => None end
    | Read r => match at_ s r with
                | Some x => match val s x with Some v => Some (s, AValue v) | None => None end
                | None => None
                end
    | AskSome x => Some (s, ABool (match val s x with Some _ => true | None => false end))
    | AskUnwrap x => Some (s, AUnwrap (val s x))
    end.
  Fixpoint vrun (s : vstate) (p : list stmt) : option (list answer) :=
    match p with
    | [] => Some []
    | c :: p' => match vstep s c with
                 | Some (s', a) => match vrun s' p' with Some l => Some (a :: l) | None => None end
                 | None => None
                 end
    end.
  Definition vstart : vstate := mkV (fun _ => None) (fun _ => None).

  (** *** Options that stay tied to those they were derived from.  Every value that is made
      (by Some, Map, Clone, Take, Replace, Insert) is given a new tag; an assignment,
      Filter, Or, OrElse and Xor hand on the tag with the value; and a write through a
      reference changes every variable with the same tag. *)
  Record tstate := mkT { tval : nat -> option (T * nat); tat : nat -> option nat; fresh : nat }.
  Definition tset (s : tstate) (x : nat) (o : option (T * nat)) : tstate := mkT (set (tval s) x o) (ends x (tat s)) (fresh s).
  Definition made (s : tstate) (o : option T) : tstate * option (T * nat) :=
    match o with Some v => (mkT (tval s) (tat s) (S (fresh s)), Some (v, fresh s)) | None => (s, None) end.
  Definition untag (o : option (T * nat)) : option T := option_map fst o.
  Definition teval (s : tstate) (e : expr) : tstate * option (T * nat) :=
    match e with
    | ESome v => made s (Some v)
    | ENone => (s, None)
    | EVar y => (s, tval s y)
    | EFilter y f => (s, match tval s y with Some (v, t) => if f v then Some (v, t) else None | None => None end)
    | EOr y z | EOrElse y z => (s, match tval s y with Some _ => tval s y | None => tval s z end)
    | EXor y z => (s, match tval s y, tval s z with Some a, None | None, Some a => Some a | _, _ => None end)
    | EMap y f => made s (option_map f (untag (tval s y)))
    | EClone y c => made s (option_map c (untag (tval s y)))
    | ETake y => made (match tval s y with Some _ => tset s y None | None => s end) (untag (tval s y))
    | EReplace y v =>
        match tval s y with
        | Some (w, _) => let (s', o) := made s (Some v) in made (tset s' y o) (Some w)
        | None => (s, None)
        end
    end.
  Definition trefer (s : tstate) (r x : nat) : tstate := mkT (tval s) (set (tat s) r (Some x)) (fresh s).
  Definition tmake (s : tstate) (x : nat) (v : T) : tstate := let (s', o) := made s (Some v) in tset s' x o.
  Definition tstep (s : tstate) (c : stmt) : option (tstate * answer) :=
    match c with
    | Assign x e => let (s', o) := teval s e in Some (tset s' x o, ADone)
    | DoInsert x v r => Some (trefer (tmake s x v) r x, ADone)
    | DoGetOrInsert x v r =>
        Some (match tval s x with Some _ => trefer s r x | None => trefer (tmake s x v) r x end, ADone)
    | Write r v =>
        match tat s r with
        | Some x =>
            match tval s x with
            | Some (_, t) =>
                Some (mkT (fun y => match tval s y with
                                    | Some (w, u) => Some (if Nat.eqb u t then v else w, u)
                                    | None => None
                                    end) (tat s) (fresh s), ADone)
            | None => None
            end
        | None => None
        end
    | Read r => match tat s r with
                | Some x => match tval s x with Some (v, _) => Some (s, AValue v) | None => None end
                | None => None
                end
    | AskSome x => Some (s, ABool (match tval s x with Some _ => true | None => false end))
    | AskUnwrap x => Some (s, AUnwrap (untag (tval s x)))
    end.
  Fixpoint trun (s : tstate) (p : list stmt) : option (list answer) :=
    match p with
    | [] => Some []
    | c :: p' => match tstep s c with
                 | Some (s', a) => match trun s' p' with Some l => Some (a :: l) | None => None end
                 | None => None
                 end
    end.
  Definition tstart : tstate := mkT (fun _ => None) (fun _ => None) 0.

  (** Statements that make no two variables share a value, and statements that do not write
      through a reference. *)
  Definition derives (c : stmt) : bool :=
    match c with Assign _ (EVar _ | EFilter _ _ | EOr _ _ | EOrElse _ _ | EXor _ _) => true | _ => false end.
  Definition writes (c : stmt) : bool := match c with Write _ _ => true | _ => false end.
End Spec.
Arguments expr T : clear implicits.
Arguments stmt T : clear implicits.
Arguments answer T : clear implicits.
Arguments vstate T : clear implicits.
Arguments tstate T : clear implicits.
