(** ListShareSpec.v -- programs in which a LinkedList variable is copied (y := x, a parameter, a
    struct field, an element of a slice): the copy refers to the nodes of the original. *)
From Verif Require Import Base ListSpec.
From Verif Require Import IterShareSpec.
Local Open Scope nat_scope.

(** *** Copies that are only read *)
Section Snapshots.
  Context {T : Type}.
  Variable eqb : T -> T -> bool.     (* the elements' Eq *)
  Variable clone : T -> T.           (* the elements' Clone *)

  (** A method of a list; c := lists[v]; the elements of copy c, its Len, IsEmpty, Front, Back,
      and c.Eq(lists[v]). *)
  Inductive sop :=
  | SUse (o : lop T) | SCopy (v : nat)
  | SElements (c : nat) | SLen (c : nat) | SIsEmpty (c : nat) | SFront (c : nat) | SBack (c : nat) | SEq (c v : nat).

  (** The property: a copy is a list of its own. *)
  Inductive values : list (list T) -> list (list T) -> list sop -> list (lanswer T) -> Prop :=
  | vs_nil : forall w cs, values w cs [] []
  | vs_use : forall w cs o w' a p l, lstep eqb clone w o w' a -> countable w' -> values w' cs p l -> values w cs (SUse o :: p) (a :: l)
  | vs_copy : forall w cs v xs p l, nth_error w v = Some xs -> values w (cs ++ [xs]) p l -> values w cs (SCopy v :: p) (Done :: l)
  | vs_elements : forall w cs c xs p l, nth_error cs c = Some xs -> values w cs p l -> values w cs (SElements c :: p) (Many xs :: l)
  | vs_len : forall w cs c xs p l, nth_error cs c = Some xs -> values w cs p l ->
      values w cs (SLen c :: p) (Number (Z.of_nat (length xs)) :: l)
  | vs_is_empty : forall w cs c xs p l, nth_error cs c = Some xs -> values w cs p l ->
      values w cs (SIsEmpty c :: p) (Truth (length xs =? 0) :: l)
  | vs_front : forall w cs c xs p l, nth_error cs c = Some xs -> values w cs p l -> values w cs (SFront c :: p) (Value (hd_error xs) :: l)
  | vs_back : forall w cs c xs p l, nth_error cs c = Some xs -> values w cs p l -> values w cs (SBack c :: p) (Value (hd_error (rev xs)) :: l)
  | vs_eq : forall w cs c v xs ys p l, nth_error cs c = Some xs -> nth_error w v = Some ys -> values w cs p l ->
      values w cs (SEq c v :: p) (Truth (VecSpec.same_elements eqb xs ys) :: l).

  (** What the code does.  A copy keeps the number of elements it was copied with, and two
      places: where the first and the last element of that time are now ([lmoved] of
      IterShareSpec.v says how the calls on the lists move a place).  What a place shows: the
      elements that have been taken out of their list since, in front of it, and then the elements of a list from
      position k on. *)
  Definition from_place (w : list (list T)) (r : lrest) : list T :=
    fst r ++ match snd r with Some (v, k) => skipn k (nth v w []) | None => [] end.
  Record copy := mkCopy { number : nat; first_at : lrest (T := T); last_at : lrest (T := T) }.
  Definition copied (v : nat) (xs : list T) : copy :=
    match xs with
    | [] => mkCopy 0 ([], None) ([], None)
    | _ => mkCopy (length xs) ([], Some (v, 0)) ([], Some (v, length xs - 1))
    end.
  Definition moved (w : list (list T)) (o : lop T) (c : copy) : copy :=
    mkCopy (number c) (lmoved w o (first_at c)) (lmoved w o (last_at c)).
  (** As many elements as both lists have are equal. *)
  Fixpoint agree (xs ys : list T) : bool :=
    match xs, ys with
    | x :: xs', y :: ys' => eqb x y && agree xs' ys'
    | _, _ => true
    end.
  Inductive shared : list (list T) -> list copy -> list sop -> list (lanswer T) -> Prop :=
  | sh_nil : forall w cs, shared w cs [] []
  | sh_use : forall w cs o w' a p l, lstep eqb clone w o w' a -> countable w' -> shared w' (map (moved w o) cs) p l ->
      shared w cs (SUse o :: p) (a :: l)
  | sh_copy : forall w cs v xs p l, nth_error w v = Some xs -> shared w (cs ++ [copied v xs]) p l -> shared w cs (SCopy v :: p) (Done :: l)
  | sh_elements : forall w cs c x p l, nth_error cs c = Some x -> shared w cs p l ->
      shared w cs (SElements c :: p) (Many (from_place w (first_at x)) :: l)
  | sh_len : forall w cs c x p l, nth_error cs c = Some x -> shared w cs p l ->
      shared w cs (SLen c :: p) (Number (Z.of_nat (number x)) :: l)
  | sh_is_empty : forall w cs c x p l, nth_error cs c = Some x -> shared w cs p l ->
      shared w cs (SIsEmpty c :: p) (Truth (number x =? 0) :: l)
  | sh_front : forall w cs c x p l, nth_error cs c = Some x -> shared w cs p l ->
      shared w cs (SFront c :: p) (Value (hd_error (from_place w (first_at x))) :: l)
  | sh_back : forall w cs c x p l, nth_error cs c = Some x -> shared w cs p l ->
      shared w cs (SBack c :: p) (Value (hd_error (from_place w (last_at x))) :: l)
  | sh_eq : forall w cs c v x ys p l, nth_error cs c = Some x -> nth_error w v = Some ys -> shared w cs p l ->
      shared w cs (SEq c v :: p) (Truth ((number x =? length ys) && agree (from_place w (first_at x)) ys) :: l).

  (** Programs that, once there is a copy, neither add or remove elements at the back of a list nor
      write through Front or Back. *)
  Fixpoint only_fronts (watched : bool) (p : list sop) : bool :=
    match p with
    | [] => true
    | SUse o :: r => (negb watched || frontal o) && only_fronts watched r
    | SCopy _ :: r => only_fronts true r
    | _ :: r => only_fronts watched r
    end.
End Snapshots.

(** *** Copies that are used like any other variable *)
Section Programs.
  Context {T : Type}.
  (** x := lists[v], a new variable; any call. *)
  Inductive gop := GCopy (v : nat) | GCall (o : lop T).

  (** Relatives: the variables that came from one another by copying, and those whose elements an
      Append has joined.  A list of the variables' families. *)
  Definition fresh (fs : list nat) : nat := S (list_max fs).
  Definition family (fs : list nat) (v : nat) : nat := nth v fs 0.
  Definition families (fs : list nat) (o : gop) : list nat :=
    match o with
    | GCopy v => fs ++ [family fs v]
    | GCall New | GCall (Clone _) => fs ++ [fresh fs]
    | GCall (Append v u) => map (fun f => if f =? family fs u then family fs v else f) fs
    | GCall _ => fs
    end.
  Definition known (fs : list nat) (o : gop) : Prop :=
    let n := length fs in
    match o with
    | GCall New => True
    | GCopy v | GCall (PushFront v _) | GCall (PushBack v _) | GCall (PopFront v) | GCall (PopBack v) | GCall (Front v) | GCall (Back v)
    | GCall (WriteFront v _) | GCall (WriteBack v _)
    | GCall (Clear v) | GCall (Len v) | GCall (IsEmpty v) | GCall (Clone v) | GCall (Elements v) => v < n
    | GCall (Append v u) | GCall (Eq v u) => v < n /\ u < n
    end.
  (** The variables exist and Append joins no relatives. *)
  Fixpoint orderly (fs : list nat) (p : list gop) : Prop :=
    match p with
    | [] => True
    | o :: r => known fs o /\ match o with GCall (Append v u) => family fs v <> family fs u | _ => True end /\ orderly (families fs o) r
    end.
  Definition writes (o : gop) : bool := match o with GCall (WriteFront _ _) | GCall (WriteBack _ _) => true | _ => false end.

  (** The property again, for such programs: every variable is a list of its own. *)
  Inductive own_lists (eqb : T -> T -> bool) (clone : T -> T) : list (list T) -> list gop -> list (lanswer T) -> Prop :=
  | ol_nil : forall w, own_lists eqb clone w [] []
  | ol_copy : forall w v xs p l, nth_error w v = Some xs -> own_lists eqb clone (w ++ [xs]) p l ->
      own_lists eqb clone w (GCopy v :: p) (Done :: l)
  | ol_call : forall w o w' a p l, lstep eqb clone w o w' a -> countable w' -> own_lists eqb clone w' p l ->
      own_lists eqb clone w (GCall o :: p) (a :: l).
  (** A variable that has been copied is not used any more. *)
  Definition mentions (o : gop) : list nat :=
    match o with
    | GCall New => []
    | GCopy v | GCall (PushFront v _) | GCall (PushBack v _) | GCall (PopFront v) | GCall (PopBack v) | GCall (Front v) | GCall (Back v)
    | GCall (WriteFront v _) | GCall (WriteBack v _)
    | GCall (Clear v) | GCall (Len v) | GCall (IsEmpty v) | GCall (Clone v) | GCall (Elements v) => [v]
    | GCall (Append v u) | GCall (Eq v u) => [v; u]
    end.
  Fixpoint moves (gone : list nat) (p : list gop) : Prop :=
    match p with
    | [] => True
    | o :: r => (forall v, In v (mentions o) -> ~ In v gone) /\ moves (match o with GCopy v => v :: gone | _ => gone end) r
    end.
End Programs.
Arguments gop T : clear implicits.
