(** IterReenterSpec.v -- functions given to Map, Filter and Fold of a Vec's iterator that use the
    Vec themselves (C128). *)
From Verif Require Import Base VecSpec IterShareSpec ReenterSpec.
Local Open Scope nat_scope.

Section Vectors.
  Context {T : Type}.
  Variable zero : T.
  Variable eqb deq : T -> T -> bool.
  Variable clone : T -> T.
  Notation vbody := (body (@op T) (@answer T)).
  Notation vdo := (vdo zero eqb deq clone).
  Notation careful := (careful zero eqb deq clone).

  (** The function (with a state S of its own) called on the values in turn; [keep] says what
      the new vector gets for an answer and the value.  None: a call panics. *)
  Fixpoint collected {S B} (keep : B -> T -> option T) (f : S -> T -> vbody (B * S)) (st : S) (l : list T) (s : vectors (T := T))
    : option (S * list T * vectors (T := T)) :=
    match l with
    | [] => Some (st, [], s)
    | x :: r =>
        match vdo (f st x) s with
        | Some ((b, st'), s') =>
            match collected keep f st' r s' with
            | Some (st'', made, s'') => Some (st'', match keep b x with Some y => y :: made | None => made end, s'')
            | None => None
            end
        | None => None
        end
    end.
  Definition mapped (y x : T) : option T := Some y.
  Definition filtered (b : bool) (x : T) : option T := if b then Some x else None.
  (** The same for Fold: the answer and the state go into the next call. *)
  Fixpoint folded {S} (f : S -> T -> T -> vbody (T * S)) (acc : T) (st : S) (l : list T) (s : vectors (T := T))
    : option (T * S * vectors (T := T)) :=
    match l with
    | [] => Some (acc, st, s)
    | x :: r =>
        match vdo (f st acc x) s with
        | Some ((acc', st'), s') => folded f acc' st' r s'
        | None => None
        end
    end.

  (** No call of the function writes the first n places of vector v, as long as v has not been
      given other storage (see [careful] in ReenterSpec.v). *)
  Fixpoint collect_careful {S B} (v n : nat) (f : S -> T -> vbody (B * S)) (st : S) (l : list T) (s : vectors (T := T)) (on : bool) : Prop :=
    match l with
    | [] => True
    | x :: r =>
        match careful v n (f st x) s on with
        | None => False
        | Some on' => match vdo (f st x) s with
                      | Some ((_, st'), s') => collect_careful v n f st' r s' on'
                      | None => True
                      end
        end
    end.
  Fixpoint fold_careful {S} (v n : nat) (f : S -> T -> T -> vbody (T * S)) (acc : T) (st : S) (l : list T) (s : vectors (T := T)) (on : bool) : Prop :=
    match l with
    | [] => True
    | x :: r =>
        match careful v n (f st acc x) s on with
        | None => False
        | Some on' => match vdo (f st acc x) s with
                      | Some ((acc', st'), s') => fold_careful v n f acc' st' r s' on'
                      | None => True
                      end
        end
    end.

  (** The opposite reading of Fold: n more calls, and the value is the element that is at place
      i of vector v at that time. *)
  Fixpoint folded_live {S} (f : S -> T -> T -> vbody (T * S)) (v n i : nat) (acc : T) (st : S) (s : vectors (T := T))
    : option (T * S * vectors (T := T)) :=
    match n with
    | O => Some (acc, st, s)
    | Datatypes.S n' =>
        match nth_error (nth v s []) i with
        | Some x =>
            match vdo (f st acc x) s with
            | Some ((acc', st'), s') => folded_live f v n' (i + 1) acc' st' s'
            | None => None
            end
        | None => None
        end
    end.
End Vectors.

(** *** Linked lists *)
From Verif Require ListSpec.
Section Lists.
  (** A: the accumulator's type (in Go it is T). *)
  Context {T S A : Type}.
  Variable eqb : T -> T -> bool.
  Variable clone : T -> T.
  Notation lbody := (body (ListSpec.lop T) (ListSpec.lanswer T)).
  Notation lstep := (ListSpec.lstep eqb clone).
  Notation countable := ListSpec.countable.

  (** A body run on lists. *)
  Inductive lruns {R} : lbody R -> list (list T) -> R -> list (list T) -> Prop :=
  | lruns_return a w : lruns (Return a) w a w
  | lruns_call o k w w1 x a w2 : lstep w o w1 x -> countable w1 -> lruns (k x) w1 a w2 -> lruns (Call o k) w a w2.
  (** The property: the function is called on the elements l in turn. *)
  Inductive lfolded (f : S -> A -> T -> lbody (A * S)) : A -> S -> list T -> list (list T) -> A -> S -> list (list T) -> Prop :=
  | lfolded_nil acc st w : lfolded f acc st [] w acc st w
  | lfolded_cons acc st x l w acc1 st1 w1 acc2 st2 w2 : lruns (f st acc x) w (acc1, st1) w1 ->
      lfolded f acc1 st1 l w1 acc2 st2 w2 -> lfolded f acc st (x :: l) w acc2 st2 w2.
  (** Functions that add and remove nothing at the back of a list, append no lists and do not
      write through Front and Back. *)
  Fixpoint lcareful {R} (p : lbody R) : Prop :=
    match p with
    | Return _ => True
    | Call o k => frontal o = true /\ forall x, lcareful (k x)
    end.

  (** What the code does: a body run on lists while an iterator stands at r (see [lmoved]), *)
  Inductive lmoves {R} : lbody R -> list (list T) -> @lrest T -> R -> list (list T) -> @lrest T -> Prop :=
  | lmoves_return a w r : lmoves (Return a) w r a w r
  | lmoves_call o k w r w1 x a w2 r2 : lstep w o w1 x -> countable w1 -> lmoves (k x) w1 (lmoved w o r) a w2 r2 ->
      lmoves (Call o k) w r a w2 r2.
  (** and n calls of the function, each on what the iterator gives then (see [lgiven]). *)
  Inductive lrounds (f : S -> A -> T -> lbody (A * S)) : nat -> A -> S -> list (list T) -> @lrest T -> A -> S -> list (list T) -> @lrest T -> Prop :=
  | lrounds_0 acc st w r : lrounds f 0 acc st w r acc st w r
  | lrounds_S n acc st w r x acc1 st1 w1 r1 acc2 st2 w2 r2 : fst (lgiven w r) = Some x ->
      lmoves (f st acc x) w (snd (lgiven w r)) (acc1, st1) w1 r1 ->
      lrounds f n acc1 st1 w1 r1 acc2 st2 w2 r2 -> lrounds f (Datatypes.S n) acc st w r acc2 st2 w2 r2.
  (** Where an iterator of list v with the elements l begins. *)
  Definition lbegin (v : nat) (l : list T) : @lrest T := ([], match l with [] => None | _ => Some (v, 0) end).

  (** Map and Filter: list n collects; [keep] is [mapped] or [filtered].  The property: the
      function is called on the elements l in turn, and what is kept goes to the back of n. *)
  Inductive lcollected {B} (keep : B -> T -> option T) (n : nat) (f : S -> T -> lbody (B * S)) : S -> list T -> list (list T) -> S -> list (list T) -> Prop :=
  | lcollected_nil st w : lcollected keep n f st [] w st w
  | lcollected_keep st x l w b st1 w1 y m st2 w2 : lruns (f st x) w (b, st1) w1 -> keep b x = Some y ->
      nth_error w1 n = Some m -> countable (list_set w1 n (m ++ [y])) ->
      lcollected keep n f st1 l (list_set w1 n (m ++ [y])) st2 w2 -> lcollected keep n f st (x :: l) w st2 w2
  | lcollected_drop st x l w b st1 w1 st2 w2 : lruns (f st x) w (b, st1) w1 -> keep b x = None ->
      lcollected keep n f st1 l w1 st2 w2 -> lcollected keep n f st (x :: l) w st2 w2.
  (** The same as one body: what Fold would call. *)
  Fixpoint lthen {R R'} (p : lbody R) (g : R -> lbody R') : lbody R' :=
    match p with
    | Return a => g a
    | Call o k => Call o (fun x => lthen (k x) g)
    end.
  Definition lcollecting {B} (keep : B -> T -> option T) (n : nat) (f : S -> T -> lbody (B * S)) (st : S) (acc : unit) (x : T) : lbody (unit * S) :=
    lthen (f st x) (fun p => match keep (fst p) x with
                             | Some y => Call (ListSpec.PushBack n y) (fun _ => Return (acc, snd p))
                             | None => Return (acc, snd p)
                             end).
End Lists.

(** *** A deque *)
From Verif Require DequeSpec.
Section Deque.
  Context {T S : Type}.
  Variable eqb : T -> T -> bool.
  Notation dbody := (body (DequeSpec.dop (T := T)) (DequeSpec.danswer (T := T))).
  Notation dstep := (DequeSpec.dstep eqb).

  (** A body run on the deque l; ops are the calls it makes. *)
  Inductive druns {R} : dbody R -> list T -> list DequeSpec.dop -> R -> list T -> Prop :=
  | druns_return a l : druns (Return a) l [] a l
  | druns_call o k l l1 x ops a l2 : dstep l o l1 x -> druns (k x) l1 ops a l2 -> druns (Call o k) l (o :: ops) a l2.
  (** The property: the function is called on the elements es in turn. *)
  Inductive dfolded (f : S -> T -> T -> dbody (T * S)) : T -> S -> list T -> list T -> list DequeSpec.dop -> T -> S -> list T -> Prop :=
  | dfolded_nil acc st l : dfolded f acc st [] l [] acc st l
  | dfolded_cons acc st x es l ops1 acc1 st1 l1 ops2 acc2 st2 l2 : druns (f st acc x) l ops1 (acc1, st1) l1 ->
      dfolded f acc1 st1 es l1 ops2 acc2 st2 l2 -> dfolded f acc st (x :: es) l (ops1 ++ ops2) acc2 st2 l2.
  (** Calls that leave the elements of the iterator alone (see [after]). *)
  Inductive dgentle : list T -> dwatch -> list DequeSpec.dop -> Prop :=
  | dgentle_nil l w : dgentle l w []
  | dgentle_cons l w o l1 x w1 ops : dstep l o l1 x -> after l o w = Some w1 -> dgentle l1 w1 ops -> dgentle l w (o :: ops).
  (** What the code does for functions that do not resize the deque: call i is on what is at
      place i then. *)
  Inductive dfolded_live (f : S -> T -> T -> dbody (T * S)) : nat -> nat -> T -> S -> list T -> list DequeSpec.dop -> T -> S -> list T -> Prop :=
  | dfolded_live_end i acc st l : dfolded_live f i 0 acc st l [] acc st l
  | dfolded_live_next i n acc st x l ops1 acc1 st1 l1 ops2 acc2 st2 l2 : nth_error l i = Some x -> druns (f st acc x) l ops1 (acc1, st1) l1 ->
      dfolded_live f (Datatypes.S i) n acc1 st1 l1 ops2 acc2 st2 l2 ->
      dfolded_live f i (Datatypes.S n) acc st l (ops1 ++ ops2) acc2 st2 l2.
  (** Map and Filter: [keep] is [mapped] or [filtered]; kept is what is collected. *)
  Definition kept_with (y : option T) (kept : list T) : list T := match y with Some y => y :: kept | None => kept end.
  Inductive dcollected {B} (keep : B -> T -> option T) (f : S -> T -> dbody (B * S)) : S -> list T -> list T -> list DequeSpec.dop -> list T -> S -> list T -> Prop :=
  | dcollected_nil st l : dcollected keep f st [] l [] [] st l
  | dcollected_cons st x es l ops1 b st1 l1 ops2 kept st2 l2 : druns (f st x) l ops1 (b, st1) l1 ->
      dcollected keep f st1 es l1 ops2 kept st2 l2 ->
      dcollected keep f st (x :: es) l (ops1 ++ ops2) (kept_with (keep b x) kept) st2 l2.
  Inductive dcollected_live {B} (keep : B -> T -> option T) (f : S -> T -> dbody (B * S)) : nat -> nat -> S -> list T -> list DequeSpec.dop -> list T -> S -> list T -> Prop :=
  | dcollected_live_end i st l : dcollected_live keep f i 0 st l [] [] st l
  | dcollected_live_next i n st x l ops1 b st1 l1 ops2 kept st2 l2 : nth_error l i = Some x -> druns (f st x) l ops1 (b, st1) l1 ->
      dcollected_live keep f (Datatypes.S i) n st1 l1 ops2 kept st2 l2 ->
      dcollected_live keep f i (Datatypes.S n) st l (ops1 ++ ops2) (kept_with (keep b x) kept) st2 l2.
End Deque.
