(** IterShareSpec.v -- iterators next to the containers they were made from: what a program
    that goes on using the container should see (C107). *)
From Verif Require Import Base VecSpec.
From Verif Require DequeSpec ListSpec.

(** *** Vectors *)
Section Vectors.
  Context {T : Type}.
  (** A program over vectors and iterators; iterators are numbered in the order in which they
      are made. *)
  Inductive iop :=
  | IOp (o : @op T)        (* a method of a vector *)
  | IIter (v : nat)        (* v.IntoIter() *)
  | INext (k : nat).       (* it.Next() of iterator k *)

  Variable zero : T.
  Variable eqb deq : T -> T -> bool.
  Variable clone : T -> T.

  (** The property: an iterator is the elements the vector had when it was made, and how many
      times Next was called. *)
  Definition snapshot : Type := list T * nat.
  Definition ideal_step (st : vectors (T := T) * list snapshot) (o : iop)
    : option (vectors (T := T) * list snapshot * answer (T := T)) :=
    let '(s, its) := st in
    match o with
    | IOp o => match step zero eqb deq clone s o with Some (s', a) => Some (s', its, a) | None => None end
    | IIter v => match nth_error s v with Some l => Some (s, its ++ [(l, 0)], Done) | None => None end
    | INext k => match nth_error its k with
                 | Some (l, n) => Some (s, firstn k its ++ (l, S n) :: skipn (S k) its, Value (nth_error l n))
                 | None => None end
    end.
  Fixpoint ideal (st : vectors (T := T) * list snapshot) (prog : list iop) : option (list (answer (T := T))) :=
    match prog with
    | [] => Some []
    | o :: r => match ideal_step st o with
                | Some (st', a) => match ideal st' r with Some l => Some (a :: l) | None => None end
                | None => None
                end
    end.

  (** The calls that write one of the first n places of vector v, which then has the elements
      [nth v s []]: what the program has to stay away from while it uses an iterator. *)
  Definition disturbs (s : vectors (T := T)) (v n : nat) (o : @op T) : bool :=
    match o with
    | OPush u _ | OAppend u _ => (u =? v) && (length (nth v s []) <? n)
    | OInsert u i _ | OSet u i _ | OSetUnchecked u i _ => (u =? v) && (i <? n)
    | OSwap u i j => (u =? v) && ((i <? n) || (j <? n))
    | OReverse u | ODedup u | OFill u _ => (u =? v) && (0 <? n)
    | _ => false
    end.
  (** The calls after which vector v lives elsewhere: an older iterator no longer cares. *)
  Definition leaves (v : nat) (o : @op T) : bool :=
    match o with
    | OClear u | ORetain u _ | OAppend _ u => u =? v
    | _ => false
    end.
  (** A program is calm if no call disturbs an iterator; [watched] has, for the iterators made
      so far, the vector and the number of its elements. *)
  Fixpoint calm (s : vectors (T := T)) (watched : list (nat * nat)) (prog : list iop) : Prop :=
    match prog with
    | [] => True
    | IOp o :: r =>
        (forall v n, In (v, n) watched -> disturbs s v n o = false) /\
        match step zero eqb deq clone s o with
        | Some (s', _) => calm s' (filter (fun w => negb (leaves (fst w) o)) watched) r
        | None => True
        end
    | IIter v :: r => calm s ((v, length (nth v s [])) :: watched) r
    | INext _ :: r => calm s watched r
    end.

  (** What every program may count on: the same panics, the same answers of the vectors, and as
      many elements from each iterator; only the elements may be others. *)
  Fixpoint alike (prog : list iop) (l l' : list (answer (T := T))) : Prop :=
    match prog, l, l' with
    | [], [], [] => True
    | INext _ :: r, Value a :: l, Value b :: l' => (a = None <-> b = None) /\ alike r l l'
    | _ :: r, a :: l, b :: l' => a = b /\ alike r l l'
    | _, _, _ => False
    end.

  (** The opposite reading: an iterator is a place in the vector, and Next gives the element
      that is there now. *)
  Definition live_step (st : vectors (T := T) * list (nat * nat)) (o : iop)
    : option (vectors (T := T) * list (nat * nat) * answer (T := T)) :=
    let '(s, its) := st in
    match o with
    | IOp o => match step zero eqb deq clone s o with Some (s', a) => Some (s', its, a) | None => None end
    | IIter v => match nth_error s v with Some _ => Some (s, its ++ [(v, 0)], Done) | None => None end
    | INext k => match nth_error its k with
                 | Some (v, n) => Some (s, firstn k its ++ (v, S n) :: skipn (S k) its, Value (nth_error (nth v s []) n))
                 | None => None end
    end.
  Fixpoint live (st : vectors (T := T) * list (nat * nat)) (prog : list iop) : option (list (answer (T := T))) :=
    match prog with
    | [] => Some []
    | o :: r => match live_step st o with
                | Some (st', a) => match live st' r with Some l => Some (a :: l) | None => None end
                | None => None
                end
    end.
  (** The calls that add or remove elements of vector v. *)
  Definition resizes (v : nat) (o : @op T) : bool :=
    match o with
    | OPush u _ | OPop u | OInsert u _ _ | OClear u | ORetain u _ | ODedup u => u =? v
    | OAppend u w => (u =? v) || (w =? v)
    | _ => false
    end.
  (** A program that, once it has an iterator of a vector, does not resize that vector. *)
  Fixpoint steady (watched : list nat) (prog : list iop) : Prop :=
    match prog with
    | [] => True
    | IOp o :: r => (forall v, In v watched -> resizes v o = false) /\ steady watched r
    | IIter v :: r => steady (v :: watched) r
    | INext _ :: r => steady watched r
    end.
End Vectors.

(** *** One deque and its iterators *)
Section Deque.
  Context {T : Type}.
  Inductive diop :=
  | DOp (o : DequeSpec.dop (T := T))     (* a method of the deque *)
  | DIter                                (* IntoIter() *)
  | DNext (k : nat).                     (* it.Next() of iterator k *)
  Notation danswer := (DequeSpec.danswer (T := T)).

  Variable eqb : T -> T -> bool.

  (** The property: as for vectors. *)
  Inductive dideal : list T -> list (list T * nat) -> list diop -> list danswer -> Prop :=
  | di_nil : forall l its, dideal l its [] []
  | di_op : forall l its o l' a r ans,
      DequeSpec.dstep eqb l o l' a -> dideal l' its r ans -> dideal l its (DOp o :: r) (a :: ans)
  | di_iter : forall l its r ans, dideal l (its ++ [(l, 0)]) r ans -> dideal l its (DIter :: r) (DequeSpec.Done :: ans)
  | di_next : forall l its k e n r ans, nth_error its k = Some (e, n) ->
      dideal l (firstn k its ++ (e, S n) :: skipn (S k) its) r ans ->
      dideal l its (DNext k :: r) (DequeSpec.Value (nth_error e n) :: ans).

  (** Where the elements of an iterator are: [Inside b n], in the deque, n of them after the
      first b; [Shrunk], some have been taken out and nothing was written since; [Gone], the
      deque was cleared since.  [None]: the call may disturb the iterator. *)
  Inductive dwatch := Inside (before n : nat) | Shrunk | Gone.
  Definition after (l : list T) (o : DequeSpec.dop (T := T)) (w : dwatch) : option dwatch :=
    let outside b n i := ((i <? Z.of_nat b) || (Z.of_nat (b + n) <=? i))%Z in
    match w with
    | Gone => Some Gone
    | Shrunk =>
        match o with
        | DequeSpec.PushFront _ | DequeSpec.PushBack _ | DequeSpec.Set_ _ _ | DequeSpec.Swap _ _
        | DequeSpec.Retain _ | DequeSpec.Dedup | DequeSpec.Fill _ => None
        | DequeSpec.Clear => Some Gone
        | _ => Some Shrunk
        end
    | Inside b n =>
        match o with
        | DequeSpec.PushFront _ => Some (Inside (S b) n)
        | DequeSpec.PopFront => match b with S b' => Some (Inside b' n) | O => Some Shrunk end
        | DequeSpec.PopBack => if b + n <? length l then Some w else Some Shrunk
        | DequeSpec.Set_ i _ => if outside b n i then Some w else None
        | DequeSpec.Swap i j => if outside b n i && outside b n j then Some w else None
        | DequeSpec.Retain _ | DequeSpec.Dedup | DequeSpec.Fill _ => None
        | DequeSpec.Clear => Some Gone
        | _ => Some w
        end
    end.
  Inductive dcalm : list T -> list dwatch -> list diop -> Prop :=
  | dc_nil : forall l ws, dcalm l ws []
  | dc_op : forall l ws o l' a ws' r, DequeSpec.dstep eqb l o l' a ->
      Forall2 (fun w w' => after l o w = Some w') ws ws' -> dcalm l' ws' r -> dcalm l ws (DOp o :: r)
  | dc_iter : forall l ws r, dcalm l (ws ++ [Inside 0 (length l)]) r -> dcalm l ws (DIter :: r)
  | dc_next : forall l ws k r, dcalm l ws r -> dcalm l ws (DNext k :: r).

  (** The same answers but for the elements that come from iterators. *)
  Fixpoint dalike (prog : list diop) (l l' : list danswer) : Prop :=
    match prog, l, l' with
    | [], [], [] => True
    | DNext _ :: r, DequeSpec.Value a :: l, DequeSpec.Value b :: l' => (a = None <-> b = None) /\ dalike r l l'
    | _ :: r, a :: l, b :: l' => a = b /\ dalike r l l'
    | _, _, _ => False
    end.

  (** An iterator as a place in the deque. *)
  Inductive dlive : list T -> list nat -> list diop -> list danswer -> Prop :=
  | dl_nil : forall l its, dlive l its [] []
  | dl_op : forall l its o l' a r ans,
      DequeSpec.dstep eqb l o l' a -> dlive l' its r ans -> dlive l its (DOp o :: r) (a :: ans)
  | dl_iter : forall l its r ans, dlive l (its ++ [0]) r ans -> dlive l its (DIter :: r) (DequeSpec.Done :: ans)
  | dl_next : forall l its k n r ans, nth_error its k = Some n ->
      dlive l (firstn k its ++ S n :: skipn (S k) its) r ans ->
      dlive l its (DNext k :: r) (DequeSpec.Value (nth_error l n) :: ans).
  (** After the first IntoIter, no call that adds, removes or makes room. *)
  Definition dresizes (o : DequeSpec.dop (T := T)) : bool :=
    match o with
    | DequeSpec.PushFront _ | DequeSpec.PushBack _ | DequeSpec.PopFront | DequeSpec.PopBack | DequeSpec.Clear
    | DequeSpec.Reserve _ | DequeSpec.Retain _ | DequeSpec.Dedup => true
    | _ => false
    end.
  Fixpoint dsteady (watched : bool) (prog : list diop) : bool :=
    match prog with
    | [] => true
    | DOp o :: r => negb (watched && dresizes o) && dsteady watched r
    | DIter :: r => dsteady true r
    | DNext _ :: r => dsteady watched r
    end.

  Definition calls (prog : list diop) : list (DequeSpec.dop (T := T)) :=
    flat_map (fun o => match o with DOp o => [o] | _ => [] end) prog.
End Deque.

(** *** Several linked lists and their iterators *)
Section Lists.
  Context {T : Type}.
  Inductive liop :=
  | LOp (o : ListSpec.lop T)             (* a method of a list *)
  | LIter (v : nat)                      (* lists[v].IntoIter() *)
  | LNext (k : nat).                     (* it.Next() of iterator k *)
  Variable eqb : T -> T -> bool.
  Variable clone : T -> T.

  (** The property; an iterator is the list of elements it still has to give. *)
  Inductive lideal : list (list T) -> list (list T) -> list liop -> list (ListSpec.lanswer T) -> Prop :=
  | li_nil : forall w its, lideal w its [] []
  | li_op : forall w its o w' a r ans, ListSpec.lstep eqb clone w o w' a -> ListSpec.countable w' ->
      lideal w' its r ans -> lideal w its (LOp o :: r) (a :: ans)
  | li_iter : forall w its v l r ans, nth_error w v = Some l ->
      lideal w (its ++ [l]) r ans -> lideal w its (LIter v :: r) (ListSpec.Done :: ans)
  | li_next : forall w its k e r ans, nth_error its k = Some e ->
      lideal w (list_set its k (tl e)) r ans -> lideal w its (LNext k :: r) (ListSpec.Value (hd_error e) :: ans).
  (** After the first IntoIter: nothing is added or removed at the back of a list, and
      nothing is written through Front or Back. *)
  Definition frontal (o : ListSpec.lop T) : bool :=
    match o with
    | ListSpec.PushBack _ _ | ListSpec.PopBack _ | ListSpec.WriteFront _ _ | ListSpec.WriteBack _ _ | ListSpec.Append _ _ => false
    | _ => true
    end.
  Fixpoint lcalm (watched : bool) (prog : list liop) : bool :=
    match prog with
    | [] => true
    | LOp o :: r => (negb watched || frontal o) && lcalm watched r
    | LIter _ :: r => lcalm true r
    | LNext _ :: r => lcalm watched r
    end.

  (** What the code does.  An iterator stands on an element: some elements that were taken
      out of their list (first component), and then place k of list v (second component). *)
  Definition lrest : Type := list T * option (nat * nat).
  Definition lmoved (w : list (list T)) (o : ListSpec.lop T) (r : lrest) : lrest :=
    match snd r with
    | None => r
    | Some (u, k) =>
        let l := nth u w [] in
        match o with
        | ListSpec.PushFront v _ => if v =? u then (fst r, Some (u, S k)) else r
        | ListSpec.PopFront v =>
            if v =? u then
              match k with
              | O => (fst r ++ firstn 1 l, if 1 <? length l then Some (u, 0) else None)
              | S k' => (fst r, Some (u, k'))
              end
            else r
        | ListSpec.PopBack v => if (v =? u) && (S k =? length l) then (fst r ++ skipn k l, None) else r
        | ListSpec.Clear v => if v =? u then (fst r ++ skipn k l, None) else r
        | ListSpec.Append v v' => if v' =? u then (fst r, Some (v, length (nth v w []) + k)) else r
        | _ => r
        end
    end.
  Definition lgiven (w : list (list T)) (r : lrest) : option T * lrest :=
    match r with
    | (x :: pre, p) => (Some x, (pre, p))
    | ([], None) => (None, ([], None))
    | ([], Some (u, k)) =>
        let l := nth u w [] in (nth_error l k, ([], if S k <? length l then Some (u, S k) else None))
    end.
  Inductive llive : list (list T) -> list lrest -> list liop -> list (ListSpec.lanswer T) -> Prop :=
  | ll_nil : forall w its, llive w its [] []
  | ll_op : forall w its o w' a r ans, ListSpec.lstep eqb clone w o w' a -> ListSpec.countable w' ->
      llive w' (map (lmoved w o) its) r ans -> llive w its (LOp o :: r) (a :: ans)
  | ll_iter : forall w its v l r ans, nth_error w v = Some l ->
      llive w (its ++ [([], match l with [] => None | _ => Some (v, 0) end)]) r ans ->
      llive w its (LIter v :: r) (ListSpec.Done :: ans)
  | ll_next : forall w its k e r ans, nth_error its k = Some e ->
      llive w (list_set its k (snd (lgiven w e))) r ans ->
      llive w its (LNext k :: r) (ListSpec.Value (fst (lgiven w e)) :: ans).
End Lists.
