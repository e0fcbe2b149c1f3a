(** VecSpec.v -- what a vector should do, in terms of plain lists. *)
From Coq Require Import Permutation Sorted.
From Verif Require Import Base CmpSpec.

(** *** Sequences *)
Section Seq.
  Context {T : Type}.
  Definition seq_insert (l : list T) (i : nat) (x : T) : list T := firstn i l ++ x :: skipn i l.
  Definition seq_set (l : list T) (i : nat) (x : T) : list T := firstn i l ++ x :: skipn (S i) l.
  (** Exchange of two positions: what is found where. *)
  Definition exchanged (l l' : list T) (i j : nat) : Prop :=
    length l' = length l /\
    nth_error l' i = nth_error l j /\ nth_error l' j = nth_error l i /\
    forall k, k <> i -> k <> j -> nth_error l' k = nth_error l k.
  (** Drop every element equal to the last one kept. *)
  Fixpoint dedup_after (eqb : T -> T -> bool) (kept : T) (l : list T) : list T :=
    match l with
    | [] => []
    | x :: r => if eqb kept x then dedup_after eqb kept r else x :: dedup_after eqb x r
    end.
  Definition dedup (eqb : T -> T -> bool) (l : list T) : list T :=
    match l with
    | [] => []
    | x :: r => x :: dedup_after eqb x r
    end.
  (** No two neighbours are equal. *)
  Definition no_repeats (eqb : T -> T -> bool) (l : list T) : Prop :=
    forall i x y, nth_error l i = Some x -> nth_error l (S i) = Some y -> eqb x y = false.
  (** Keep the first element for each key. *)
  Fixpoint keep_first (same : T -> T -> bool) (l : list T) : list T :=
    match l with
    | [] => []
    | x :: r => x :: filter (fun y => negb (same x y)) (keep_first same r)
    end.
End Seq.

(** *** Histories on any number of vectors, each a list of its own.
    [None] is a panic. *)
Section Histories.
  Context {T : Type}.
  Inductive op :=
  | ONew | OWithCapacity (n : nat) | OWithLen (n : nat)     (* a new vector, next number *)
  | OClone (v : nat)                                        (* likewise *)
  | OPush (v : nat) (x : T) | OPop (v : nat) | OInsert (v i : nat) (x : T)
  | OGet (v i : nat) | OGetUnchecked (v i : nat)
  | OSet (v i : nat) (x : T) | OSetUnchecked (v i : nat) (x : T)
  | OSwap (v i j : nat) | OAppend (v w : nat) | OClear (v : nat)
  | OLen (v : nat) | OIsEmpty (v : nat) | OContains (v : nat) (x : T)
  | OReverse (v : nat) | ORetain (v : nat) (p : T -> bool) | ODedup (v : nat)
  | OFill (v : nat) (x : T) | OEq (v w : nat).
  Inductive answer := Done | Value (o : option T) | Number (n : nat) | Truth (b : bool).

  Variable zero : T.
  Variable eqb : T -> T -> bool.       (* the elements' Eq *)
  Variable deq : T -> T -> bool.       (* reflect.DeepEqual on the elements *)
  Variable clone : T -> T.             (* the elements' Clone *)

  Definition vectors := list (list T).
  (** Give vector v the contents l. *)
  Definition put (s : vectors) (v : nat) (l : list T) : vectors := firstn v s ++ l :: skipn (S v) s.
  Fixpoint same_elements (a b : list T) : bool :=
    match a, b with
    | [], [] => true
    | x :: a', y :: b' => andb (eqb x y) (same_elements a' b')
    | _, _ => false
    end.

  Definition step (s : vectors) (o : op) : option (vectors * answer) :=
    match o with
    | ONew => Some (s ++ [[]], Done)
    | OWithCapacity _ => Some (s ++ [[]], Done)
    | OWithLen n => Some (s ++ [repeat zero n], Done)
    | OClone v => match nth_error s v with
                  | Some l => Some (s ++ [map clone l], Done) | None => None end
    | OPush v x => match nth_error s v with
                   | Some l => Some (put s v (l ++ [x]), Done) | None => None end
    | OPop v => match nth_error s v with
                | Some [] => Some (s, Value None)
                | Some l => Some (put s v (removelast l), Value (Some (last l zero)))
                | None => None end
    | OInsert v i x => match nth_error s v with
                       | Some l => if i <=? length l then Some (put s v (seq_insert l i x), Done) else None
                       | None => None end
    | OGet v i => match nth_error s v with
                  | Some l => Some (s, Value (nth_error l i)) | None => None end
    | OGetUnchecked v i => match nth_error s v with
                           | Some l => match nth_error l i with
                                       | Some x => Some (s, Value (Some x)) | None => None end
                           | None => None end
    | OSet v i x => match nth_error s v with
                    | Some l => if i <? length l then Some (put s v (seq_set l i x), Value None) else None
                    | None => None end
    | OSetUnchecked v i x => match nth_error s v with
                             | Some l => if i <? length l then Some (put s v (seq_set l i x), Done) else None
                             | None => None end
    | OSwap v i j => match nth_error s v with
                     | Some l => match nth_error l i, nth_error l j with
                                 | Some x, Some y => Some (put s v (seq_set (seq_set l i y) j x), Done)
                                 | _, _ => None end
                     | None => None end
    | OAppend v w => match nth_error s v, nth_error s w with
                     | Some l, Some l' => Some (put (put s v (l ++ l')) w [], Done)
                     | _, _ => None end
    | OClear v => match nth_error s v with Some _ => Some (put s v [], Done) | None => None end
    | OLen v => match nth_error s v with Some l => Some (s, Number (length l)) | None => None end
    | OIsEmpty v => match nth_error s v with
                    | Some l => Some (s, Truth (match l with [] => true | _ => false end)) | None => None end
    | OContains v x => match nth_error s v with
                       | Some l => Some (s, Truth (existsb (fun y => deq y x) l)) | None => None end
    | OReverse v => match nth_error s v with Some l => Some (put s v (rev l), Done) | None => None end
    | ORetain v p => match nth_error s v with Some l => Some (put s v (filter p l), Done) | None => None end
    | ODedup v => match nth_error s v with Some l => Some (put s v (dedup deq l), Done) | None => None end
    | OFill v x => match nth_error s v with
                   | Some l => Some (put s v (map (fun _ => x) l), Done) | None => None end
    | OEq v w => match nth_error s v, nth_error s w with
                 | Some l, Some l' => Some (s, Truth (same_elements l l'))
                 | _, _ => None end
    end.

  Fixpoint history (s : vectors) (ops : list op) : option (vectors * list answer) :=
    match ops with
    | [] => Some (s, [])
    | o :: r => match step s o with
                | None => None
                | Some (s', a) => match history s' r with
                                  | None => None
                                  | Some (s'', l) => Some (s'', a :: l)
                                  end
                end
    end.
End Histories.

(** *** Sorting *)
Section Sorting.
  Context {T : Type}.
  (** A total preorder given by a three-way comparison. *)
  Record total_preorder (cmp : T -> T -> ordering) : Prop := {
    tp_refl : forall a, cmp a a = Equal;
    tp_flip : forall a b, cmp b a = flip (cmp a b);
    tp_trans : forall a b c, cmp a b <> Greater -> cmp b c <> Greater -> cmp a c <> Greater
  }.
  Definition le_by (cmp : T -> T -> ordering) (a b : T) : Prop := cmp a b <> Greater.
  Definition ascending (cmp : T -> T -> ordering) (l : list T) : Prop := StronglySorted (le_by cmp) l.
  (** Elements that compare equal keep their order: for every x, the elements equal
      to x appear in l' exactly as in l. *)
  Definition stable (cmp : T -> T -> ordering) (l l' : list T) : Prop :=
    forall x, filter (fun y => match cmp x y with Equal => true | _ => false end) l'
            = filter (fun y => match cmp x y with Equal => true | _ => false end) l.
  Definition stably_sorted (cmp : T -> T -> ordering) (l l' : list T) : Prop :=
    Permutation l l' /\ ascending cmp l' /\ stable cmp l l'.
  (** For binary search: first the elements that are too small, then the matches,
      then those that are too big. *)
  Definition rank (o : ordering) : Z := match o with Less => 0 | Equal => 1 | Greater => 2 end.
  Definition split_by (f : T -> ordering) (l : list T) : Prop :=
    forall i j x y, i <= j -> nth_error l i = Some x -> nth_error l j = Some y -> (rank (f x) <= rank (f y))%Z.
End Sorting.

(** Text of a vector: "Vec[" the elements' texts separated by ", " "]". *)
Fixpoint comma_separated (l : list (list Z)) : list Z :=
  match l with
  | [] => []
  | [a] => a
  | a :: r => a ++ [44; 32]%Z ++ comma_separated r
  end.
