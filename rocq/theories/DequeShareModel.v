(** DequeShareModel.v -- VecDeque variables whose buffers are shared as in Go (vec_deque.go:14-18):
    a variable is a header, that is a slice (its buffer), a length and a head; copying a
    variable copies the header.  A method runs on the header and the buffer it refers to
    (DequeModel.v); the buffer is written in place, unless the method has put a new one in
    its place: _Grow and Reserve make a larger one (vec_deque.go:82-94, 590-608) and leave the
    old one as it was, Clear makes a new one (vec_deque.go:336-340). *)
From Verif Require Import Base Effect.
From Verif Require Import DequeSpec DequeShareSpec.
From Verif Require DequeModel DequeHistory IterShareModel.
Local Open Scope Z_scope.

Section Model.
  Context {T : Type}.
  Variable zero : T.
  Variable limit : Z.
  Variable eqb : T -> T -> bool.
  Notation VecDeque := (DequeModel.VecDeque T).

  Record header := mkHeader { buf : nat; hlen : Z; hhead : Z }.
  Definition world : Type := list (list T) * list header.
  (** The struct a header and its buffer amount to. *)
  Definition view (bs : list (list T)) (h : header) : out VecDeque :=
    b <- of_option (nth_error bs (buf h)) ;; Ret (DequeModel.mkDeque b (hlen h) (hhead h)).
  (** The variable i is now d, in its buffer or in a new one. *)
  Definition stored (w : world) (i : nat) (h : header) (new : bool) (d : VecDeque) : world :=
    let (bs, hs) := w in
    if new then (bs ++ [DequeModel.buffer d], list_set hs i (mkHeader (length bs) (DequeModel.dlen d) (DequeModel.head d)))
    else (list_set bs (buf h) (DequeModel.buffer d), list_set hs i (mkHeader (buf h) (DequeModel.dlen d) (DequeModel.head d))).
  Definition declared (w : world) (d : VecDeque) : world :=
    let (bs, hs) := w in (bs ++ [DequeModel.buffer d], hs ++ [mkHeader (length bs) (DequeModel.dlen d) (DequeModel.head d)]).
  Definition wexec (w : world) (o : wop (T := T)) : out (world * danswer (T := T)) :=
    let (bs, hs) := w in
    match o with
    | WNew => d <- DequeModel.VecDequeNew zero limit ;; Ret (declared w d, Done)
    | WWithCapacity n => d <- DequeModel.VecDequeWithCapacity zero limit (Z.of_nat n) ;; Ret (declared w d, Done)
    | WWithLen n => d <- DequeModel.VecDequeWithLen zero limit (Z.of_nat n) ;; Ret (declared w d, Done)
    | WCopy i => h <- of_option (nth_error hs i) ;; Ret ((bs, hs ++ [h]), Done)
    | WCall i o =>
        h <- of_option (nth_error hs i) ;; d <- view bs h ;;
        r <- DequeHistory.exec zero limit eqb d o ;;
        Ret (stored w i h (IterShareModel.replaced o d (fst r)) (fst r), snd r)
    | WCapacity i => h <- of_option (nth_error hs i) ;; d <- view bs h ;; Ret (w, Number (DequeModel.Capacity d))
    (* vec_deque.go:175-183: Reserve puts a new buffer in place unless other is empty, so
       that the pushes do not disturb what is read from other; Clear. *)
    | WAppend i j =>
        h <- of_option (nth_error hs i) ;; d <- view bs h ;;
        h2 <- of_option (nth_error hs j) ;; e <- view bs h2 ;;
        r <- DequeModel.Append zero limit d e ;;
        Ret (stored (stored w i h (IterShareModel.replaced (Reserve (DequeModel.Len e)) d (fst r)) (fst r)) j h2 true (snd r), Done)
    end.
  Fixpoint wrun (w : world) (p : list wop) : out (list danswer) :=
    match p with
    | [] => Ret []
    | o :: p' => x <- wexec w o ;; l <- wrun (fst x) p' ;; Ret (snd x :: l)
    end.
  Definition nothing : world := ([], []).
End Model.
