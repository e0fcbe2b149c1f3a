(** OptionModel.v -- option.go, result.go and syntax.go.  A pointer field that is
    never written through is an [option]; the methods that hand out or replace
    the pointer are modelled again over an explicit heap at the end.  Closures are
    state transformers (Effect.v). *)
From Verif Require Import Base Effect.
Import ListNotations.
Local Open Scope bool_scope.

Section Option.
  Context {S T : Type}.
  (** Some and None of option.go:15-22 are Coq's; option.go:28-30, 48-50. *)
  Definition IsSome (o : option T) : bool := match o with Some _ => true | None => false end.
  Definition IsNone (o : option T) : bool := match o with Some _ => false | None => true end.
  (** Go's [*self.value]: a nil dereference panics. *)
  Definition deref (o : option T) : M S T := match o with Some x => mret x | None => mpanic end.
  (** option.go:36-42. *)
  Definition IsSomeAnd (o : option T) (f : T -> M S bool) : M S bool :=
    if IsNone o then mret false else x <~ deref o ;; f x.
  (** option.go:56-62, 70-72 (the panic value is not modelled). *)
  Definition Expect (o : option T) : M S T := if IsNone o then mpanic else deref o.
  Definition Unwrap (o : option T) : M S T := deref o.
  (** option.go:82-88, 94-100. *)
  Definition UnwrapOr (o : option T) (value : T) : M S T := if IsNone o then mret value else deref o.
  Definition UnwrapOrElse (o : option T) (f : M S T) : M S T := if IsNone o then f else deref o.
  (** option.go:111-117. *)
  Definition Map (o : option T) (f : T -> M S T) : M S (option T) :=
    if IsNone o then mret o else x <~ deref o ;; y <~ f x ;; mret (Some y).
  (** option.go:127-133. *)
  Definition MapOr (o : option T) (defaultValue : T) (f : T -> M S T) : M S T :=
    if IsNone o then mret defaultValue else x <~ deref o ;; f x.
  (** option.go:139-145. *)
  Definition MapOrElse (o : option T) (defaultValue : M S T) (f : T -> M S T) : M S T :=
    if IsNone o then defaultValue else x <~ deref o ;; f x.
  (** option.go:174-180, 190-196.  An Option[any] is an [option (option B)]: the
      inner [None] is the nil interface.  On None the code answers Some[any](nil). *)
  Definition And {B} (o : option T) (optb : option (option B)) : M S (option (option B)) :=
    if IsNone o then mret (Some None) else mret optb.
  Definition AndThen {B} (o : option T) (f : T -> M S (option (option B))) : M S (option (option B)) :=
    if IsNone o then mret (Some None) else x <~ deref o ;; f x.
  (** option.go:204-212. *)
  Definition Filter (o : option T) (predicate : T -> M S bool) : M S (option T) :=
    if IsNone o then mret o
    else x <~ deref o ;; b <~ predicate x ;; if b then mret o else mret None.
  (** option.go:224-230, 239-245. *)
  Definition Or (o optb : option T) : M S (option T) := if IsNone o then mret optb else mret o.
  Definition OrElse (o : option T) (f : M S (option T)) : M S (option T) := if IsNone o then f else mret o.
  (** option.go:256-264. *)
  Definition Xor (o optb : option T) : M S (option T) :=
    if IsNone o then mret optb else if IsNone optb then mret o else mret None.
  (** option.go:372-378: [clone] is None when the element type has no Clone. *)
  Definition Opt_Clone (clone : option (T -> T)) (o : option T) : M S (option T) :=
    if IsNone o then mret None
    else x <~ deref o ;; match clone with Some c => mret (Some (c x)) | None => mpanic end.
  (** option.go:381-389. *)
  Definition Opt_Eq (eq : option (T -> T -> bool)) (o rhs : option T) : M S bool :=
    if IsNone o && IsNone rhs then mret true
    else if IsSome o && IsSome rhs then
      x <~ deref o ;; y <~ deref rhs ;; match eq with Some e => mret (e x y) | None => mpanic end
    else mret false.
  (** option.go:345-360, 362-364: Display and Debug ("None", "Some(...)"). *)
  Definition Opt_Display (display : option (T -> list Z)) (o : option T) : M S (list Z) :=
    if IsNone o then mret [78; 111; 110; 101]%Z
    else x <~ deref o ;; match display with
         | Some d => mret ([83; 111; 109; 101; 40] ++ d x ++ [41])%Z
         | None => mpanic
         end.
End Option.

(** *** Options with identity: the methods with a pointer receiver.
    The heap is the list of cells of type T allocated so far; an address is an
    index.  An Option[T] variable holds [option nat].  A write through a [*T]
    updates the cell.  Closures here do not touch these cells (simplification), except in
    [GetOrInsertWith_shared]. *)
Section OptionHeap.
  Context {S T : Type}.
  Definition heap := list T.
  Definition opt := option nat.
  Definition alloc (h : heap) (v : T) : heap * nat := (h ++ [v], length h).
  (** option.go:15-17: Some takes the address of its parameter: a fresh cell. *)
  Definition HSome (h : heap) (v : T) : heap * opt := let (h', a) := alloc h v in (h', Some a).
  (** option.go:275-278. *)
  Definition Insert (h : heap) (o : opt) (value : T) : heap * opt * nat :=
    let (h', a) := alloc h value in (h', Some a, a).
  (** option.go:288-293. *)
  Definition GetOrInsert (h : heap) (o : opt) (value : T) : heap * opt * nat :=
    match o with
    | None => let (h', a) := alloc h value in (h', Some a, a)
    | Some a => (h, o, a)
    end.
  (** option.go:302-308. *)
  Definition GetOrInsertWith (h : heap) (o : opt) (f : M S T) : M S (heap * opt * nat) :=
    match o with
    | None => value <~ f ;; let (h', a) := alloc h value in mret (h', Some a, a)
    | Some a => mret (h, o, a)
    end.
  (** option.go:302-308 again, for a closure that may do anything to the program's options: the
      state has the cells and the program's Option variables, of which the receiver is the one
      numbered r.  The returned pointer is read from the receiver at the end. *)
  Definition GetOrInsertWith_shared (r : nat) (f : M (S * heap * list opt) T) : M (S * heap * list opt) nat := fun w =>
    o <- of_option (nth_error (snd w) r) ;;
    p <- match o with
         | None => q <- f w ;;
                   let '(value, (s, h, vars)) := q in
                   let (h', a) := alloc h value in
                   Ret (s, h', list_set vars r (Some a))
         | Some _ => Ret w
         end ;;
    o' <- of_option (nth_error (snd p) r) ;;
    a <- of_option o' ;;
    Ret (a, p).
  (** option.go:317-325: (heap, receiver afterwards, returned option). *)
  Definition Take (h : heap) (o : opt) : out (heap * opt * opt) :=
    match o with
    | None => Ret (h, o, o)
    | Some a => value <- of_option (nth_error h a) ;;
                let (h', r) := HSome h value in Ret (h', None, r)
    end.
  (** option.go:334-342: on None nothing is stored. *)
  Definition Replace (h : heap) (o : opt) (value : T) : out (heap * opt * opt) :=
    match o with
    | None => Ret (h, o, o)
    | Some a => oldValue <- of_option (nth_error h a) ;;
                let (h1, b) := alloc h value in
                let (h2, r) := HSome h1 oldValue in Ret (h2, Some b, r)
    end.
  (** [*p = v] in the caller. *)
  Definition write (h : heap) (p : nat) (v : T) : heap := list_set h p v.
End OptionHeap.
Arguments heap T : clear implicits.

(** *** Result.  [E] is the type of non-nil errors; a nil error is [None]. *)
Section Result.
  Context {S T E : Type}.
  (** result.go:10-13. *)
  Record Result := mkR { ok : option T; err : option E }.
  (** result.go:17-19, 22-24: Err accepts a nil error. *)
  Definition Ok (v : T) : Result := mkR (Some v) None.
  Definition Err (e : option E) : Result := mkR None e.
  (** result.go:33-35, 59-61. *)
  Definition IsOk (r : Result) : bool := IsSome (ok r).
  Definition IsErr (r : Result) : bool := IsSome (err r).
  (** result.go:44-50, 70-76. *)
  Definition IsOkAnd (r : Result) (p : T -> M S bool) : M S bool :=
    if IsOk r then x <~ deref (ok r) ;; p x else mret false.
  Definition IsErrAnd (r : Result) (p : option E -> M S bool) : M S bool :=
    if IsErr r then p (err r) else mret false.
  (** result.go:86-92, 102-108. *)
  Definition R_Ok (r : Result) : M S (option T) :=
    if IsOk r then x <~ deref (ok r) ;; mret (Some x) else mret None.
  Definition R_Err (r : Result) : M S (option (option E)) :=
    if IsErr r then mret (Some (err r)) else mret None.
  (** result.go:118-124, 134-140, 150-156, 166-172. *)
  Definition R_Map (r : Result) (f : T -> M S T) : M S Result :=
    if IsOk r then x <~ deref (ok r) ;; y <~ f x ;; mret (Ok y) else mret r.
  Definition R_MapOr (r : Result) (d : T) (f : T -> M S T) : M S T :=
    if IsOk r then x <~ deref (ok r) ;; f x else mret d.
  Definition R_MapOrElse (r : Result) (d : M S T) (f : T -> M S T) : M S T :=
    if IsOk r then x <~ deref (ok r) ;; f x else d.
  Definition R_MapErr (r : Result) (f : option E -> M S (option E)) : M S Result :=
    if IsErr r then e <~ f (err r) ;; mret (Err e) else mret r.
  (** result.go:179-185, 192-198, 204-210, 216-222. *)
  Definition R_Expect (r : Result) : M S T := if IsOk r then deref (ok r) else mpanic.
  Definition R_Unwrap (r : Result) : M S T := if IsOk r then deref (ok r) else mpanic.
  Definition R_ExpectErr (r : Result) : M S (option E) := if IsErr r then mret (err r) else mpanic.
  Definition R_UnwrapErr (r : Result) : M S (option E) := if IsErr r then mret (err r) else mpanic.
  (** result.go:232-238, 248-254, 264-270, 280-286. *)
  Definition R_And (r res : Result) : M S Result := if IsOk r then mret res else mret r.
  Definition R_AndThen (r : Result) (op : T -> M S Result) : M S Result :=
    if IsOk r then x <~ deref (ok r) ;; op x else mret r.
  Definition R_Or (r res : Result) : M S Result := if IsErr r then mret res else mret r.
  Definition R_OrElse (r : Result) (op : option E -> M S Result) : M S Result :=
    if IsErr r then op (err r) else mret r.
  (** result.go:296-302, 311-317. *)
  Definition R_UnwrapOr (r : Result) (d : T) : M S T := if IsOk r then deref (ok r) else mret d.
  Definition R_UnwrapOrElse (r : Result) (f : M S T) : M S T := if IsOk r then deref (ok r) else f.
  (** result.go:320-334 ("Ok(...)" or the error's text; a nil error panics). *)
  Definition R_Display (display : option (T -> list Z)) (errorText : E -> list Z) (r : Result) : M S (list Z) :=
    if IsOk r then
      x <~ deref (ok r) ;; match display with
      | Some d => mret ([79; 107; 40] ++ d x ++ [41])%Z
      | None => mpanic
      end
    else e <~ deref (err r) ;; mret (errorText e).
  (** result.go:347-353. *)
  Definition R_Clone (clone : option (T -> T)) (r : Result) : M S Result :=
    if IsOk r then x <~ deref (ok r) ;; match clone with Some c => mret (Ok (c x)) | None => mpanic end
    else mret (Err (err r)).
  (** result.go:356-364: errors are compared with Go's == on interfaces
      ([errEq]; it panics on uncomparable dynamic types). *)
  Definition R_Eq (eq : option (T -> T -> bool)) (errEq : E -> E -> out bool) (r rhs : Result) : M S bool :=
    if IsOk r && IsOk rhs then
      x <~ deref (ok r) ;; y <~ deref (ok rhs) ;; match eq with Some e => mret (e x y) | None => mpanic end
    else if IsErr r && IsErr rhs then
      x <~ deref (err r) ;; y <~ deref (err rhs) ;; fun s => b <- errEq x y ;; Ret (b, s)
    else mret false.
End Result.
Arguments Result T E : clear implicits.

(** *** If / ElseIf / Else (syntax.go).  The context is its returnValue pointer. *)
Section Syntax.
  Context {S T : Type}.
  (** syntax.go:23-32. *)
  Definition If (condition : bool) (expression : M S T) : M S (option T) :=
    if condition then value <~ expression ;; mret (Some value) else mret None.
  (** syntax.go:42-49. *)
  Definition ElseIf (self : option T) (condition : bool) (expression : M S T) : M S (option T) :=
    if condition then value <~ expression ;; mret (Some value) else mret self.
  (** syntax.go:34-40. *)
  Definition Else (self : option T) (expression : M S T) : M S T :=
    match self with Some v => mret v | None => expression end.
  (** The call chain If(c,e).ElseIf(c1,e1). ... .Else(last), as written by a caller. *)
  Fixpoint ElseIfs (self : option T) (more : list (bool * M S T)) : M S (option T) :=
    match more with
    | [] => mret self
    | (c, e) :: rest => ctx <~ ElseIf self c e ;; ElseIfs ctx rest
    end.
  Definition Chain (c : bool) (e : M S T) (more : list (bool * M S T)) (last : M S T) : M S T :=
    ctx <~ If c e ;; ctx' <~ ElseIfs ctx more ;; Else ctx' last.
End Syntax.
