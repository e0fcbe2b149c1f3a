(** OptShareModel.v -- programs over Option variables (option.go) with the cells their pointers
    refer to: the combinators of OptionModel.v again, over its heap.  An Option variable is a
    pointer or nil; the closures given to Filter, Map and OrElse have no effects here
    (C27 has them). *)
From Verif Require Import Base OptionModel OptShareSpec.
Import ListNotations.

Section Model.
  Context {T : Type}.
  (** [*self.value]. *)
  Definition load (h : heap T) (o : opt) : out T := match o with Some a => of_option (nth_error h a) | None => Panic end.
  (** option.go:111-117: None is returned as it is, Some is made again. *)
  Definition HMap (h : heap T) (o : opt) (f : T -> T) : out (heap T * opt) :=
    if IsNone o then Ret (h, o) else x <- load h o ;; Ret (HSome h (f x)).
  (** option.go:204-212: the receiver itself. *)
  Definition HFilter (h : heap T) (o : opt) (f : T -> bool) : out opt :=
    if IsNone o then Ret o else x <- load h o ;; Ret (if f x then o else None).
  (** option.go:224-230, 239-245, 256-264: the receiver or the argument itself. *)
  Definition HOr (o optb : opt) : opt := if IsNone o then optb else o.
  Definition HOrElse (o result : opt) : opt := if IsNone o then result else o.
  Definition HXor (o optb : opt) : opt := if IsNone o then optb else if IsNone optb then o else None.
  (** option.go:372-378, for an element type with a Clone. *)
  Definition HClone (c : T -> T) (h : heap T) (o : opt) : out (heap T * opt) :=
    if IsNone o then Ret (h, None) else x <- load h o ;; Ret (HSome h (c x)).

  (** The cells, the variables and the references. *)
  Record state := mkS { cells : heap T; vars : nat -> opt; refs : nat -> option nat }.
  Definition put (s : state) (x : nat) (o : opt) : state := mkS (cells s) (set (vars s) x o) (refs s).
  Definition with_cells (s : state) (h : heap T) : state := mkS h (vars s) (refs s).
  Definition eval (s : state) (e : expr T) : out (state * opt) :=
    match e with
    | ESome v => let (h, o) := HSome (cells s) v in Ret (with_cells s h, o)
    | ENone => Ret (s, None)
    | EVar y => Ret (s, vars s y)
    | EFilter y f => o <- HFilter (cells s) (vars s y) f ;; Ret (s, o)
    | EOr y z => Ret (s, HOr (vars s y) (vars s z))
    | EOrElse y z => Ret (s, HOrElse (vars s y) (vars s z))
    | EXor y z => Ret (s, HXor (vars s y) (vars s z))
    | EMap y f => p <- HMap (cells s) (vars s y) f ;; Ret (with_cells s (fst p), snd p)
    | EClone y c => p <- HClone c (cells s) (vars s y) ;; Ret (with_cells s (fst p), snd p)
    | ETake y => p <- Take (cells s) (vars s y) ;; let '(h, o, r) := p in Ret (put (with_cells s h) y o, r)
    | EReplace y v => p <- Replace (cells s) (vars s y) v ;; let '(h, o, r) := p in Ret (put (with_cells s h) y o, r)
    end.
  (** r = x.Insert(v) and the like: the new cells, the variable and the pointer. *)
  Definition keep_ref (s : state) (x r : nat) (p : heap T * opt * nat) : state :=
    let '(h, o, a) := p in mkS h (set (vars s) x o) (set (refs s) r (Some a)).
  (** One statement; a panic of Unwrap is recovered by the program.  option.go:28-30, 70-72. *)
  Definition step (s : state) (c : stmt T) : out (state * answer T) :=
    match c with
    | Assign x e => p <- eval s e ;; Ret (put (fst p) x (snd p), ADone)
    | DoInsert x v r => Ret (keep_ref s x r (Insert (cells s) (vars s x) v), ADone)
    | DoGetOrInsert x v r => Ret (keep_ref s x r (GetOrInsert (cells s) (vars s x) v), ADone)
    | Write r v => a <- of_option (refs s r) ;; Ret (with_cells s (write (cells s) a v), ADone)
    | Read r => v <- load (cells s) (refs s r) ;; Ret (s, AValue v)
    | AskSome x => Ret (s, ABool (IsSome (vars s x)))
    | AskUnwrap x => Ret (s, AUnwrap (match load (cells s) (vars s x) with Ret v => Some v | _ => None end))
    end.
  Fixpoint run (s : state) (p : list (stmt T)) : out (list (answer T)) :=
    match p with
    | [] => Ret []
    | c :: p' => x <- step s c ;; l <- run (fst x) p' ;; Ret (snd x :: l)
    end.
  (** var x Option[T] for every variable: nil pointers. *)
  Definition start : state := mkS [] (fun _ => None) (fun _ => None).
End Model.
