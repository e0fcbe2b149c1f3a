(** ReenterSpec.v -- closures that use the container whose method is calling them (C113). *)
From Verif Require Import Base VecSpec IterShareSpec.
From Verif Require DequeSpec DequeShareSpec.
Local Open Scope nat_scope.

(** The body of a closure: it makes calls (O) and goes on depending on their answers (R). *)
Inductive body (O R A : Type) :=
| Return (a : A)
| Call (o : O) (k : R -> body O R A).
Arguments Return {O R A} a.
Arguments Call {O R A} o k.

(** *** Vectors *)
Section Vectors.
  Context {T S : Type}.
  Variable zero : T.
  Variable eqb deq : T -> T -> bool.
  Variable clone : T -> T.
  Notation step := (step zero eqb deq clone).
  Notation vbody := (body (@op T) (@answer T)).

  (** A body run on vectors that are lists of their own; None: a call panics. *)
  Fixpoint vdo {A} (p : vbody A) (s : vectors (T := T)) : option (A * vectors (T := T)) :=
    match p with
    | Return a => Some (a, s)
    | Call o k => match step s o with Some (s', r) => vdo (k r) s' | None => None end
    end.
  (** The closure (with a state S of its own) called on the elements in turn; those it
      accepts. *)
  Fixpoint vaccepted (f : S -> T -> vbody (bool * S)) (st : S) (l : list T) (s : vectors (T := T))
    : option (S * list T * vectors (T := T)) :=
    match l with
    | [] => Some (st, [], s)
    | x :: r =>
        match vdo (f st x) s with
        | Some ((b, st'), s') =>
            match vaccepted f st' r s' with
            | Some (st'', kept, s'') => Some (st'', if (b : bool) then x :: kept else kept, s'')
            | None => None
            end
        | None => None
        end
    end.
  (** Retain of vector v, its elements being l: at the end v has the accepted elements, and
      nothing else of what the closure did to v is left. *)
  Definition vretained (f : S -> T -> vbody (bool * S)) (st : S) (v : nat) (l : list T) (s : vectors (T := T))
    : option (S * vectors (T := T)) :=
    match vaccepted f st l s with
    | Some (st', kept, s') => Some (st', put s' v kept)
    | None => None
    end.

  (** DedupByKey of vector v, its elements being l: the key of each element is asked for, in
      order; the elements whose key is none of the keys before ([ks]) stay. *)
  Fixpoint vfirsts {K} (keq : K -> K -> bool) (key : S -> T -> vbody (K * S)) (st : S) (ks : list K) (l : list T) (s : vectors (T := T))
    : option (S * list T * vectors (T := T)) :=
    match l with
    | [] => Some (st, [], s)
    | x :: r =>
        match vdo (key st x) s with
        | Some ((k, st'), s') =>
            let known := existsb (keq k) ks in
            match vfirsts keq key st' (k :: ks) r s' with
            | Some (st'', kept, s'') => Some (st'', if known then kept else x :: kept, s'')
            | None => None
            end
        | None => None
        end
    end.
  Definition vdeduped {K} (keq : K -> K -> bool) (key : S -> T -> vbody (K * S)) (st : S) (v : nat) (l : list T) (s : vectors (T := T))
    : option (S * vectors (T := T)) :=
    match vfirsts keq key st [] l s with
    | Some (st', kept, s') => Some (st', put s' v kept)
    | None => None
    end.

  (** A body that writes none of the first n places of vector v as long as v has not been
      given other storage ([on]); Some on': it is so, and afterwards on'. *)
  Fixpoint careful {A} (v n : nat) (p : vbody A) (s : vectors (T := T)) (on : bool) : option bool :=
    match p with
    | Return _ => Some on
    | Call o k =>
        if on && disturbs s v n o then None
        else match step s o with
             | Some (s', r) => careful v n (k r) s' (on && negb (leaves v o))
             | None => Some on
             end
    end.
  Fixpoint always_careful {B} (v n : nat) (f : S -> T -> vbody (B * S)) (st : S) (l : list T) (s : vectors (T := T)) (on : bool) : Prop :=
    match l with
    | [] => True
    | x :: r =>
        match careful v n (f st x) s on with
        | None => False
        | Some on' => match vdo (f st x) s with
                      | Some ((_, st'), s') => always_careful v n f st' r s' on'
                      | None => True
                      end
        end
    end.
  (** The calls that change no vector. *)
  Definition looks (o : @op T) : bool :=
    match o with
    | OGet _ _ | OGetUnchecked _ _ | OLen _ | OIsEmpty _ | OContains _ _ | OEq _ _ => true
    | _ => false
    end.
  Fixpoint looking {A} (p : vbody A) : Prop :=
    match p with
    | Return _ => True
    | Call o k => looks o = true /\ forall r, looking (k r)
    end.
  (** A closure that may do anything except add elements to vector v or remove some: it may
      change the elements of v, and do anything to other vectors. *)
  Fixpoint keeping {A} (v : nat) (p : vbody A) : Prop :=
    match p with
    | Return _ => True
    | Call o k => resizes v o = false /\ forall r, keeping v (k r)
    end.
  (** FillWith of vector v when each assignment is made to the vector as the closure leaves it:
      from place i on, the closure is called as long as the vector has a place i; its answer
      goes there.  None: a call of the closure panics, or it leaves no place i. *)
  Inductive vfilling (f : S -> vbody (T * S)) (v : nat) : S -> nat -> vectors (T := T) -> option (S * vectors (T := T)) -> Prop :=
  | vfilling_end st i s l : nth_error s v = Some l -> length l <= i -> vfilling f v st i s (Some (st, s))
  | vfilling_panics st i s l : nth_error s v = Some l -> i < length l -> vdo (f st) s = None -> vfilling f v st i s None
  | vfilling_short st i s l x st' s' l' : nth_error s v = Some l -> i < length l -> vdo (f st) s = Some ((x, st'), s') ->
      nth_error s' v = Some l' -> length l' <= i -> vfilling f v st i s None
  | vfilling_next st i s l x st' s' l' r : nth_error s v = Some l -> i < length l -> vdo (f st) s = Some ((x, st'), s') ->
      nth_error s' v = Some l' -> i < length l' -> vfilling f v st' (i + 1) (put s' v (seq_set l' i x)) r -> vfilling f v st i s r.
End Vectors.

(** *** Deques *)
Section Deques.
  Context {T S : Type}.
  Variable limit : Z.
  Variable eqb : T -> T -> bool.
  Import DequeSpec.
  Notation dbody := (body (@dop T) (@danswer T)).
  Notation fits := (DequeShareSpec.fits limit).
  Notation capacity_after := DequeShareSpec.capacity_after.

  (** A body run on a deque: (elements, capacity). *)
  Inductive does {A} : dbody A -> list T * nat -> A -> list T * nat -> Prop :=
  | does_return : forall a q, does (Return a) q a q
  | does_call : forall o k l c l' r a q, dstep eqb l o l' r -> fits (capacity_after o (length l) c) ->
      does (k r) (l', capacity_after o (length l) c) a q -> does (Call o k) (l, c) a q.

  (** Retain as it is: the closure is called on the element at place i of the deque as it is
      now; if it accepts it, that element is written to place n. *)
  Inductive retaining (f : S -> T -> dbody (bool * S)) : S -> nat -> nat -> list T * nat -> S -> list T * nat -> Prop :=
  | retaining_end : forall st i n l c, length l <= i -> n <= length l -> retaining f st i n (l, c) st (firstn n l, c)
  | retaining_drop : forall st i n l c x st' q st'' q', nth_error l i = Some x -> does (f st x) (l, c) (false, st') q ->
      retaining f st' (i + 1) n q st'' q' -> retaining f st i n (l, c) st'' q'
  | retaining_keep : forall st i n l c x st' l' c' st'' q', nth_error l i = Some x -> does (f st x) (l, c) (true, st') (l', c') ->
      n < length l' -> retaining f st' (i + 1) (n + 1) (seq_set l' n x, c') st'' q' -> retaining f st i n (l, c) st'' q'.
  (** FillWith as it is: place i is written if the deque still has it. *)
  Inductive filling (f : S -> dbody (T * S)) : S -> nat -> list T * nat -> S -> list T * nat -> Prop :=
  | filling_end : forall st i l c, length l <= i -> filling f st i (l, c) st (l, c)
  | filling_step : forall st i l c x st' l' c' st'' q', i < length l -> does (f st) (l, c) (x, st') (l', c') -> i < length l' ->
      filling f st' (i + 1) (seq_set l' i x, c') st'' q' -> filling f st i (l, c) st'' q'
  | filling_gone : forall st i l c x st' l' c' st'' q', i < length l -> does (f st) (l, c) (x, st') (l', c') -> length l' <= i < c' ->
      filling f st' (i + 1) (l', c') st'' q' -> filling f st i (l, c) st'' q'.

  Definition peeks (o : @dop T) : bool :=
    match o with
    | Get i => ((0 <=? i) && (i <? 2 ^ 64))%Z
    | Front | Back | Len | IsEmpty | Contains _ => true
    | _ => false
    end.
  Fixpoint peeking {A} (p : dbody A) : Prop :=
    match p with
    | Return _ => True
    | Call o k => peeks o = true /\ forall r, peeking (k r)
    end.
  (** The property for closures that only look: the closure is called once on each element, in
      order, and what it sees is [sight kept] (kept: the elements accepted so far). *)
  Inductive accepting (f : S -> T -> dbody (bool * S)) (sight : list T -> list T * nat)
    : S -> list T -> list T -> S -> list T -> Prop :=
  | accepting_end : forall st kept, accepting f sight st [] kept st kept
  | accepting_next : forall st x r kept b st' st'' kept', does (f st x) (sight kept) (b, st') (sight kept) ->
      accepting f sight st' r (if (b : bool) then kept ++ [x] else kept) st'' kept' ->
      accepting f sight st (x :: r) kept st'' kept'.
  (** FillWith: the closure is called n times; made: its answers so far. *)
  Inductive answering (f : S -> dbody (T * S)) (sight : list T -> list T * nat)
    : S -> nat -> list T -> S -> list T -> Prop :=
  | answering_end : forall st made, answering f sight st 0 made st made
  | answering_next : forall st n made x st' st'' made', does (f st) (sight made) (x, st') (sight made) ->
      answering f sight st' n (made ++ [x]) st'' made' -> answering f sight st (Datatypes.S n) made st'' made'.
  (** What it should see, and what it sees. *)
  Definition unchanged (l : list T) (c : nat) (kept : list T) : list T * nat := (l, c).
  Definition overwritten (l : list T) (c : nat) (kept : list T) : list T * nat := (kept ++ skipn (length kept) l, c).
End Deques.
