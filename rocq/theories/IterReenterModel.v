(** IterReenterModel.v -- Map, Filter and Fold of the iterators of Vec, LinkedList and VecDeque with functions that call
    methods of such variables, the iterated one among them.  (VecModel.v and ListModel.v have functions that
    cannot.) *)
From Verif Require Import Base Effect VecModel VecHistory IterShareModel ReenterSpec ReenterModel.
From Verif Require VecSpec.
Local Open Scope nat_scope.

Section Vec.
  Context {T : Type}.
  Variable zero : T.
  Variable extra : nat -> nat -> nat.
  Variable eqb deq : T -> T -> bool.
  Variable clone : T -> T.
  Notation vbody := (body (@VecSpec.op T) (@VecSpec.answer T)).
  Notation vperform := (vperform zero extra eqb deq clone).

  (** vec.go:554-561, 569-579: the loops of Map and Filter, which differ in what is pushed
      ([keep]).  The iterator is a copy (value receiver); newVec is a local variable. *)
  Fixpoint collect_loop {S B} (keep : B -> T -> option T) (fuel : nat) (f : S -> T -> vbody (B * S)) (st : S) (self : viter)
      (w : world (T := T)) (newVec : slice) : out (S * world (T := T) * slice) :=
    match fuel with
    | O => Diverge
    | Datatypes.S k =>
        r <- VIter_Next (fst w) self ;;
        match snd r with
        | None => Ret (st, w, newVec)
        | Some value =>
            p <- vperform (f st value) w ;;
            let '((b, st'), w') := p in
            match keep b value with
            | Some y => let (m, n) := Push zero extra (fst w') newVec y in collect_loop keep k f st' (fst r) (m, snd w') n
            | None => collect_loop keep k f st' (fst r) w' newVec
            end
        end
    end.
  Definition collect {S B} (keep : B -> T -> option T) (fuel : nat) (w : world (T := T)) (self : viter) (f : S -> T -> vbody (B * S)) (st : S)
    : out (S * world (T := T) * viter) :=
    let (m, newVec) := VecNew zero (fst w) in
    p <- collect_loop keep fuel f st self (m, snd w) newVec ;;
    Ret (fst p, Vec_IntoIter (snd p)).
  (** vec.go:551-562. *)
  Definition VIter_Map {S} (fuel : nat) (w : world (T := T)) (self : viter) (f : S -> T -> vbody (T * S)) (st : S) :=
    collect (fun y _ => Some y) fuel w self f st.
  (** vec.go:565-580. *)
  Definition VIter_Filter {S} (fuel : nat) (w : world (T := T)) (self : viter) (f : S -> T -> vbody (bool * S)) (st : S) :=
    collect (fun (b : bool) unwraped => if b then Some unwraped else None) fuel w self f st.
  (** vec.go:583-593. *)
  Fixpoint VIter_Fold {S} (fuel : nat) (w : world (T := T)) (self : viter) (init : T) (f : S -> T -> T -> vbody (T * S)) (st : S)
    : out (T * S * world (T := T)) :=
    match fuel with
    | O => Diverge
    | Datatypes.S k =>
        r <- VIter_Next (fst w) self ;;
        match snd r with
        | None => Ret (init, st, w)
        | Some value =>
            p <- vperform (f st init value) w ;;
            let '((init', st'), w') := p in VIter_Fold k w' (fst r) init' f st'
        end
    end.

  (** What the program sees: the function's state, what the new iterator will give, all vectors. *)
  Definition collect_seen {S} (r : out (S * world (T := T) * viter)) : option (S * list T * list (list T)) :=
    match r with
    | Ret (st, w, it) => Some (st, skipn (ipos it) (contents (fst w) (ivec it)), view w)
    | _ => None
    end.
  Definition fold_seen {S} (r : out (T * S * world (T := T))) : option (T * S * list (list T)) :=
    match r with Ret (acc, st, w) => Some (acc, st, view w) | _ => None end.
End Vec.

(** *** linked_list.go *)
From Verif Require ListModel ListSpec ListHistory.
Section Lists.
  Context {T S A : Type}.
  Variable eqb : T -> T -> bool.
  Variable clone : T -> T.
  Notation lbody := (body (ListSpec.lop T) (ListSpec.lanswer T)).

  (** The function's calls, on the program's list variables. *)
  Fixpoint lperform {R} (p : lbody R) (w : ListHistory.world T) : out (R * ListHistory.world T) :=
    match p with
    | Return a => Ret (a, w)
    | Call o k => r <- ListHistory.exec eqb clone w o ;; lperform (k (snd r)) (fst r)
    end.
  (** linked_list.go:301-317: currentIter is a copy.  The accumulator has any type A here; in
      Go it is T. *)
  Fixpoint LIter_Fold (fuel : nat) (w : ListHistory.world T) (currentIter : ListModel.LinkedListIter) (result : A)
      (f : S -> A -> T -> lbody (A * S)) (st : S) : out (A * S * ListHistory.world T) :=
    match fuel with
    | O => Diverge
    | Datatypes.S k =>
        r <- ListModel.Next currentIter (ListHistory.cells w) ;;
        let w := ListHistory.mkWorld (snd r) (ListHistory.vars w) in
        match snd (fst r) with
        | None => Ret (result, st, w)
        | Some value =>
            p <- lperform (f st result value) w ;;
            let '((result', st'), w') := p in LIter_Fold k w' (fst (fst r)) result' f st'
        end
    end.

  (** linked_list.go:265-275, 285-297: the loops of Map and Filter, which differ in what is
      pushed ([keep]).  newList is a local variable; here it is list variable n, a number that
      the program does not use for any other list. *)
  Fixpoint lcollect_loop {B} (keep : B -> T -> option T) (n : nat) (fuel : nat) (w : ListHistory.world T) (currentIter : ListModel.LinkedListIter)
      (f : S -> T -> lbody (B * S)) (st : S) : out (S * ListHistory.world T) :=
    match fuel with
    | O => Diverge
    | Datatypes.S k =>
        r <- ListModel.Next currentIter (ListHistory.cells w) ;;
        let w := ListHistory.mkWorld (snd r) (ListHistory.vars w) in
        match snd (fst r) with
        | None => Ret (st, w)
        | Some value =>
            p <- lperform (f st value) w ;;
            let '((b, st'), w') := p in
            match keep b value with
            | Some y => q <- ListHistory.exec eqb clone w' (ListSpec.PushBack n y) ;; lcollect_loop keep n k (fst q) (fst (fst r)) f st'
            | None => lcollect_loop keep n k w' (fst (fst r)) f st'
            end
        end
    end.
  Definition lcollect {B} (keep : B -> T -> option T) (fuel : nat) (w : ListHistory.world T) (self : ListModel.LinkedListIter)
      (f : S -> T -> lbody (B * S)) (st : S) : out (S * ListHistory.world T * ListModel.LinkedListIter) :=
    let n := length (ListHistory.vars w) in
    r <- ListHistory.exec eqb clone w ListSpec.New ;;
    p <- lcollect_loop keep n fuel (fst r) self f st ;;
    newList <- idx (ListHistory.vars (snd p)) n ;;
    Ret (p, ListModel.IntoIter newList).
  (** linked_list.go:260-277. *)
  Definition LIter_Map (fuel : nat) (w : ListHistory.world T) (self : ListModel.LinkedListIter) (f : S -> T -> lbody (T * S)) (st : S) :=
    lcollect (fun y _ => Some y) fuel w self f st.
  (** linked_list.go:280-298. *)
  Definition LIter_Filter (fuel : nat) (w : ListHistory.world T) (self : ListModel.LinkedListIter) (f : S -> T -> lbody (bool * S)) (st : S) :=
    lcollect (fun (b : bool) x => if b then Some x else None) fuel w self f st.
End Lists.

(** *** vec_deque.go *)
From Verif Require DequeModel DequeSpec DequeHistory.
Section Deque.
  Context {T S : Type}.
  Variable zero : T.
  Variable limit : Z.
  Variable eqb : T -> T -> bool.
  Notation dbody := (body (DequeSpec.dop (T := T)) (DequeSpec.danswer (T := T))).

  (** The function's calls; the iterator sees what they do to the buffer it shares (see
      IterShareModel.v, [seen]). *)
  Fixpoint dperform {R} (p : dbody R) (d : DequeModel.VecDeque T) (it : diter (T := T)) : out (R * (DequeModel.VecDeque T * diter (T := T))) :=
    match p with
    | Return a => Ret (a, (d, it))
    | Call o k => r <- DequeHistory.exec zero limit eqb d o ;; dperform (k (snd r)) (fst r) (IterShareModel.seen o d (fst r) it)
    end.
  (** vec_deque.go:747-755: the loop, from i. *)
  Fixpoint dfold_loop (fuel : nat) (i : Z) (d : DequeModel.VecDeque T) (self : diter (T := T)) (accumulator : T)
      (f : S -> T -> T -> dbody (T * S)) (st : S) : out (T * S * DequeModel.VecDeque T) :=
    match fuel with
    | O => Diverge
    | Datatypes.S k =>
        if (i <? DequeModel.Len (hdr self))%Z then
          v <- DequeModel.Get (hdr self) i ;;
          match v with
          | None => Panic
          | Some x =>
              p <- dperform (f st accumulator x) d self ;;
              let '((accumulator', st'), (d', self')) := p in dfold_loop k (i + 1)%Z d' self' accumulator' f st'
          end
        else Ret (accumulator, st, d)
    end.
  Definition DIter_Fold (fuel : nat) (d : DequeModel.VecDeque T) (self : diter (T := T)) (initial : T) (f : S -> T -> T -> dbody (T * S)) (st : S) :=
    dfold_loop fuel 0 d self initial f st.
  (** vec_deque.go:725-727, 736-741: the loops of Map and Filter, which differ in what is pushed
      ([keep]).  newDeque is a local variable with a buffer of its own. *)
  Fixpoint dcollect_loop {B} (keep : B -> T -> option T) (fuel : nat) (i : Z) (d : DequeModel.VecDeque T) (self : diter (T := T)) (newDeque : DequeModel.VecDeque T)
      (f : S -> T -> dbody (B * S)) (st : S) : out (S * DequeModel.VecDeque T * DequeModel.VecDeque T) :=
    match fuel with
    | O => Diverge
    | Datatypes.S k =>
        if (i <? DequeModel.Len (hdr self))%Z then
          v <- DequeModel.Get (hdr self) i ;;
          match v with
          | None => Panic
          | Some x =>
              p <- dperform (f st x) d self ;;
              let '((b, st'), (d', self')) := p in
              newDeque' <- match keep b x with Some y => DequeModel.PushBack zero limit newDeque y | None => Ret newDeque end ;;
              dcollect_loop keep k (i + 1)%Z d' self' newDeque' f st'
          end
        else Ret (st, d, newDeque)
    end.
  Definition dcollect {B} (keep : B -> T -> option T) (fuel : nat) (d : DequeModel.VecDeque T) (self : diter (T := T)) (f : S -> T -> dbody (B * S)) (st : S)
    : out (S * DequeModel.VecDeque T * diter (T := T)) :=
    newDeque <- DequeModel.VecDequeWithCapacity zero limit (DequeModel.Capacity (hdr self)) ;;
    p <- dcollect_loop keep fuel 0 d self newDeque f st ;;
    Ret (fst p, Deque_IntoIter (snd p)).
  (** vec_deque.go:722-730. *)
  Definition DIter_Map (fuel : nat) (d : DequeModel.VecDeque T) (self : diter (T := T)) (f : S -> T -> dbody (T * S)) (st : S) :=
    dcollect (fun y _ => Some y) fuel d self f st.
  (** vec_deque.go:733-744. *)
  Definition DIter_Filter (fuel : nat) (d : DequeModel.VecDeque T) (self : diter (T := T)) (f : S -> T -> dbody (bool * S)) (st : S) :=
    dcollect (fun (b : bool) value => if b then Some value else None) fuel d self f st.
End Deque.
