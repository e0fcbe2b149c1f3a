(** IterShareModel.v -- iterators that share storage with the container they were made from:
    vec.go, vec_deque.go, linked_list.go.  (VecModel and DequeModel describe iterators whose
    container is left alone.) *)
From Verif Require Import Base Effect VecModel VecSpec VecHistory IterShareSpec.
From Verif Require DequeModel DequeSpec DequeHistory ListModel ListSpec ListHistory.
Local Open Scope bool_scope.

(** *** Vec *)
Section Vec.
  Context {T : Type}.
  (** vec.go:528-531: a copy of the slice header, and the position. *)
  Record viter := mkVIter { ivec : slice; ipos : nat }.
  (** vec.go:534-536. *)
  Definition Vec_IntoIter (v : slice) : viter := mkVIter v 0.
  (** vec.go:539-548: the length is the header's, the element is read from the array now. *)
  Definition VIter_Next (m : mem T) (it : viter) : out (viter * option T) :=
    if Len (ivec it) <=? ipos it then Ret (it, None)
    else x <- GetUnchecked m (ivec it) (ipos it) ;; Ret (mkVIter (ivec it) (ipos it + 1), Some x).

  Variable zero : T.
  Variable extra : nat -> nat -> nat.
  Variable eqb deq : T -> T -> bool.
  Variable clone : T -> T.

  (** A Go program with Vec variables and iterator variables. *)
  Definition iworld : Type := world (T := T) * list viter.
  Definition iexec (st : iworld) (o : iop) : out (iworld * answer (T := T)) :=
    let '(w, its) := st in
    match o with
    | IOp o => r <- exec zero extra eqb deq clone w o ;; Ret (fst r, its, snd r)
    | IIter v => s <- var w v ;; Ret (w, its ++ [Vec_IntoIter s], Done)
    | INext k => it <- of_option (nth_error its k) ;; r <- VIter_Next (fst w) it ;;
                 Ret (w, list_set its k (fst r), Value (snd r))
    end.
  Fixpoint irun (st : iworld) (prog : list iop) : out (iworld * list (answer (T := T))) :=
    match prog with
    | [] => Ret (st, [])
    | o :: r => p <- iexec st o ;; q <- irun (fst p) r ;; Ret (fst q, snd p :: snd q)
    end.
  Definition answers (r : out (iworld * list (answer (T := T)))) : option (list (answer (T := T))) :=
    match r with Ret (_, l) => Some l | _ => None end.

  (** The iterators of maps and sets have a Vec of their own, filled by Push when they are
      made: hash_map.go:123-130, 238-245, 346-353; hash_set.go:338-345; btree_map.go:763-771,
      877-885, 991-999; btree_set.go:307-311.  Next is as for Vec. *)
  Definition Buf_IntoIter (m : mem T) (xs : list T) : mem T * viter :=
    let (m', v) := fold_left (fun p x => Push zero extra (fst p) (snd p) x) xs (make_len zero m 0) in
    (m', Vec_IntoIter v).
  (** hash_map.go:206-208, 321-323, 429-431; hash_set.go:421-423; btree_map.go:845-847, 959-961,
      1073-1075; btree_set.go:386-388: the iterator's Vec itself. *)
  Definition Buf_CollectToVec (it : viter) : slice := ivec it.
End Vec.

(** *** VecDeque *)
Section Deque.
  Context {T : Type}.
  (** vec_deque.go:699-707: the iterator points to a copy of the struct, whose buffer is the
      deque's.  [hdr] is that copy with the buffer as it is now; [attached]: the deque still
      has that buffer. *)
  Record diter := mkDIter { hdr : DequeModel.VecDeque T; attached : bool; dpos : Z }.
  Definition Deque_IntoIter (d : DequeModel.VecDeque T) : diter := mkDIter d true 0.
  (** The calls that give the deque another buffer: Clear (vec_deque.go:336-340), Reserve and
      the pushes when they make a larger one (82-94, 590-608). *)
  Definition replaced (o : DequeSpec.dop (T := T)) (d d' : DequeModel.VecDeque T) : bool :=
    match o with
    | DequeSpec.Clear => true
    | _ => negb (DequeModel.Capacity d' =? DequeModel.Capacity d)%Z
    end.
  (** The iterator after a call that took the deque from d to d'. *)
  Definition seen (o : DequeSpec.dop (T := T)) (d d' : DequeModel.VecDeque T) (it : diter) : diter :=
    if attached it then
      if replaced o d d' then mkDIter (hdr it) false (dpos it)
      else mkDIter (DequeModel.mkDeque (DequeModel.buffer d') (DequeModel.dlen (hdr it)) (DequeModel.head (hdr it))) true (dpos it)
    else it.

  Variable zero : T.
  Variable limit : Z.
  Variable eqb : T -> T -> bool.
  Definition dworld : Type := DequeModel.VecDeque T * list diter.
  (** vec_deque.go:710-719 is DequeModel.Next. *)
  Definition diexec (st : dworld) (o : diop) : out (dworld * DequeSpec.danswer (T := T)) :=
    let '(d, its) := st in
    match o with
    | DOp o => r <- DequeHistory.exec zero limit eqb d o ;; Ret (fst r, map (seen o d (fst r)) its, snd r)
    | DIter => Ret (d, its ++ [Deque_IntoIter d], DequeSpec.Done)
    | DNext k => it <- of_option (nth_error its k) ;;
                 r <- DequeModel.Next (DequeModel.mkIter (hdr it) (dpos it)) ;;
                 Ret (d, list_set its k (mkDIter (hdr it) (attached it) (DequeModel.position (fst r))), DequeSpec.Value (snd r))
    end.
  Fixpoint dirun (st : dworld) (prog : list diop) : out (dworld * list (DequeSpec.danswer (T := T))) :=
    match prog with
    | [] => Ret (st, [])
    | o :: r => p <- diexec st o ;; q <- dirun (fst p) r ;; Ret (fst q, snd p :: snd q)
    end.
End Deque.

(** *** LinkedList *)
Section Lists.
  Context {T : Type}.
  Variable eqb : T -> T -> bool.
  Variable clone : T -> T.
  (** linked_list.go:237-258 is ListModel.IntoIter and ListModel.Next: an iterator is a pointer
      to a node of the heap that all lists share. *)
  Definition lworld : Type := ListHistory.world T * list ListModel.LinkedListIter.
  Definition liexec (st : lworld) (o : liop) : out (lworld * ListSpec.lanswer T) :=
    let '(w, its) := st in
    match o with
    | LOp o => r <- ListHistory.exec eqb clone w o ;; Ret (fst r, its, snd r)
    | LIter v => l <- idx (ListHistory.vars w) v ;; Ret (w, its ++ [ListModel.IntoIter l], ListSpec.Done)
    | LNext k => it <- of_option (nth_error its k) ;; r <- ListModel.Next it (ListHistory.cells w) ;;
                 Ret (ListHistory.mkWorld (snd r) (ListHistory.vars w), list_set its k (fst (fst r)), ListSpec.Value (snd (fst r)))
    end.
  Fixpoint lirun (st : lworld) (prog : list liop) : out (lworld * list (ListSpec.lanswer T)) :=
    match prog with
    | [] => Ret (st, [])
    | o :: r => p <- liexec st o ;; q <- lirun (fst p) r ;; Ret (fst q, snd p :: snd q)
    end.
End Lists.
