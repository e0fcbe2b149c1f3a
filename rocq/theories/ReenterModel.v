(** ReenterModel.v -- Retain and FillWith with closures that call methods of the container
    itself (VecModel.v and DequeModel.v have closures that cannot). *)
From Verif Require Import Base Effect ReenterSpec.
From Verif Require VecModel VecSpec VecHistory DequeModel DequeSpec DequeHistory.
Local Open Scope nat_scope.

(** *** vec.go *)
Section Vec.
  Import VecModel VecHistory.
  Context {T S : Type}.
  Variable zero : T.
  Variable extra : nat -> nat -> nat.
  Variable eqb deq : T -> T -> bool.
  Variable clone : T -> T.
  Notation vbody := (body (@VecSpec.op T) (@VecSpec.answer T)).

  (** The closure's calls, on the program's Vec variables. *)
  Fixpoint vperform {A} (p : vbody A) (w : world (T := T)) : out (A * world (T := T)) :=
    match p with
    | Return a => Ret (a, w)
    | Call o k => r <- exec zero extra eqb deq clone w o ;; vperform (k (snd r)) (fst r)
    end.
  (** vec.go:160-168: [old] is the slice the range statement evaluated once; its elements are
      read one by one.  newData is a local variable, which the closure cannot reach. *)
  Fixpoint vretain_loop (l : list nat) (predicate : S -> T -> vbody (bool * S)) (st : S) (old : slice)
      (w : world (T := T)) (newData : slice) : out (S * world (T := T) * slice) :=
    match l with
    | [] => Ret (st, w, newData)
    | i :: r =>
        value <- idx (contents (fst w) old) i ;;
        p <- vperform (predicate st value) w ;;
        let '((b, st'), w') := p in
        if b then let (m, n) := append zero extra (fst w') newData [value] in vretain_loop r predicate st' old (m, snd w') n
        else vretain_loop r predicate st' old w' newData
    end.
  Definition Vec_Retain (w : world (T := T)) (v : nat) (predicate : S -> T -> vbody (bool * S)) (st : S)
    : out (S * world (T := T)) :=
    old <- var w v ;;
    let (m, newData) := make_cap zero (fst w) (slen old) in
    p <- vretain_loop (seq 0 (slen old)) predicate st old (m, snd w) newData ;;
    let '(st', w', newData) := p in
    Ret (st', assign (fst w') (snd w') v newData).
  (** vec.go:182-193, as Retain; [known] is the map of the keys met so far.  Keys are compared
      with Go's == ([keq]) and are of a type that a map can have as keys. *)
  Fixpoint vdedup_loop {K} (keq : K -> K -> bool) (l : list nat) (key : S -> T -> vbody (K * S)) (st : S) (known : list K) (old : slice)
      (w : world (T := T)) (newData : slice) : out (S * world (T := T) * slice) :=
    match l with
    | [] => Ret (st, w, newData)
    | i :: r =>
        value <- idx (contents (fst w) old) i ;;
        p <- vperform (key st value) w ;;
        let '((k, st'), w') := p in
        if negb (existsb (keq k) known) then
          let (m, n) := append zero extra (fst w') newData [value] in vdedup_loop keq r key st' (k :: known) old (m, snd w') n
        else vdedup_loop keq r key st' known old w' newData
    end.
  Definition Vec_DedupByKey {K} (keq : K -> K -> bool) (w : world (T := T)) (v : nat) (key : S -> T -> vbody (K * S)) (st : S)
    : out (S * world (T := T)) :=
    old <- var w v ;;
    let (m, newData) := make_cap zero (fst w) (slen old) in
    p <- vdedup_loop keq (seq 0 (slen old)) key st [] old (m, snd w) newData ;;
    let '(st', w', newData) := p in
    Ret (st', assign (fst w') (snd w') v newData).
  (** vec.go:426-430.  The length is read again before each round.  In [self.data[i] = f()] the
      language leaves open whether the slice of the assignment is read before the call or after
      it: [late i] says so for the assignment to place i. *)
  Fixpoint vfill_loop (late : nat -> bool) (fuel : nat) (v : nat) (f : S -> vbody (T * S)) (st : S) (i : nat)
      (w : world (T := T)) : out (S * world (T := T)) :=
    match fuel with
    | O => Diverge
    | Datatypes.S k =>
        s <- var w v ;;
        if i <? slen s then
          p <- vperform (f st) w ;;
          let '((x, st'), w') := p in
          s' <- (if late i then var w' v else Ret s) ;;
          m <- SetUnchecked (fst w') s' i x ;;
          vfill_loop late k v f st' (i + 1) (m, snd w')
        else Ret (st, w)
    end.
  Definition Vec_FillWith (late : nat -> bool) (fuel : nat) (w : world (T := T)) (v : nat) (f : S -> vbody (T * S)) (st : S)
    : out (S * world (T := T)) := vfill_loop late fuel v f st 0 w.
  (** What the program sees afterwards; a panic is None. *)
  Definition seen (r : out (S * world (T := T))) : option (S * list (list T)) :=
    match r with Ret (st, w) => Some (st, view w) | _ => None end.
End Vec.

(** *** vec_deque.go *)
Section Deque.
  Import DequeModel.
  Context {T S : Type}.
  Variable zero : T.
  Variable limit : Z.
  Variable eqb : T -> T -> bool.
  Notation dbody := (body (@DequeSpec.dop T) (@DequeSpec.danswer T)).

  Fixpoint perform {A} (p : dbody A) (d : VecDeque T) : out (A * VecDeque T) :=
    match p with
    | Return a => Ret (a, d)
    | Call o k => r <- DequeHistory.exec zero limit eqb d o ;; perform (k (snd r)) (fst r)
    end.
  (** vec_deque.go:196-208: the length is read again in each round (hence the fuel), and all
      reads and writes go to the deque as the closure left it. *)
  Fixpoint retain_loop (fuel : nat) (f : S -> T -> dbody (bool * S)) (st : S) (i newLen : Z) (d : VecDeque T) : out (S * VecDeque T) :=
    match fuel with
    | O => Diverge
    | Datatypes.S k =>
        if (i <? Len d)%Z then
          value <- GetUnchecked d i ;;
          p <- perform (f st value) d ;;
          let '((b, st'), d) := p in
          if b then d <- SetUnchecked d newLen value ;; retain_loop k f st' (u64 (i + 1)) (u64 (newLen + 1)) d
          else retain_loop k f st' (u64 (i + 1)) newLen d
        else Ret (st, mkDeque (buffer d) newLen (head d))
    end.
  Definition Deque_Retain (fuel : nat) (d : VecDeque T) (f : S -> T -> dbody (bool * S)) (st : S) : out (S * VecDeque T) :=
    retain_loop fuel f st 0 0 d.
  (** vec_deque.go:395-399: the closure is called before SetUnchecked. *)
  Fixpoint fill_loop (fuel : nat) (f : S -> dbody (T * S)) (st : S) (i : Z) (d : VecDeque T) : out (S * VecDeque T) :=
    match fuel with
    | O => Diverge
    | Datatypes.S k =>
        if (i <? Len d)%Z then
          p <- perform (f st) d ;;
          let '((x, st'), d) := p in
          d <- SetUnchecked d i x ;; fill_loop k f st' (u64 (i + 1)) d
        else Ret (st, d)
    end.
  Definition Deque_FillWith (fuel : nat) (d : VecDeque T) (f : S -> dbody (T * S)) (st : S) : out (S * VecDeque T) :=
    fill_loop fuel f st 0 d.
End Deque.
