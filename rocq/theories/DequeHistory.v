(** DequeHistory.v -- the operations of DequeSpec executed by the model of DequeModel,
    and what can be seen of a deque through its methods. *)
From Verif Require Import Base Effect VecSpec.
From Verif Require DequeModel DequeSpec.
Local Open Scope Z_scope.
Import DequeSpec.

Section Run.
  Context {T : Type}.
  Variable zero : T.
  Variable limit : Z.
  Variable eqb : T -> T -> bool.

  Definition exec (d : DequeModel.VecDeque T) (o : @dop T) : out (DequeModel.VecDeque T * danswer (T := T)) :=
    match o with
    | PushFront x => d' <- DequeModel.PushFront zero limit d x ;; Ret (d', Done)
    | PushBack x => d' <- DequeModel.PushBack zero limit d x ;; Ret (d', Done)
    | PopFront => r <- DequeModel.PopFront d ;; Ret (fst r, Value (snd r))
    | PopBack => r <- DequeModel.PopBack d ;; Ret (fst r, Value (snd r))
    | Get i => r <- DequeModel.Get d i ;; Ret (d, Value r)
    | Set_ i x => r <- DequeModel.Set_ d i x ;; Ret (fst r, Value (snd r))
    | Swap i j => d' <- DequeModel.Swap d i j ;; Ret (d', Done)
    | Front => r <- DequeModel.Front d ;; Ret (d, Value r)
    | Back => r <- DequeModel.Back d ;; Ret (d, Value r)
    | Clear => d' <- DequeModel.Clear zero limit d ;; Ret (d', Done)
    | Len => Ret (d, Number (DequeModel.Len d))
    | IsEmpty => Ret (d, Truth (DequeModel.IsEmpty d))
    | Contains x => b <- DequeModel.Contains (Some eqb) d x ;; Ret (d, Truth b)
    | Reserve n => d' <- DequeModel.Reserve zero limit d n ;; Ret (d', Done)
    | Retain p => r <- DequeModel.Retain d (fun x => mret (p x)) tt ;; Ret (fst r, Done)
    | Dedup => d' <- DequeModel.Dedup (Some eqb) d ;; Ret (d', Done)
    | Fill x => d' <- DequeModel.Fill d x ;; Ret (d', Done)
    end.

  Fixpoint run (d : DequeModel.VecDeque T) (ops : list dop) : out (DequeModel.VecDeque T * list danswer) :=
    match ops with
    | [] => Ret (d, [])
    | o :: r => p <- exec d o ;; q <- run (fst p) r ;; Ret (fst q, snd p :: snd q)
    end.

  (** The ways to make a deque, with the sequence it should show and the size asked for. *)
  Definition makes (m : out (DequeModel.VecDeque T)) (l : list T) (n : Z) : Prop :=
    (m = DequeModel.VecDequeNew zero limit /\ l = [] /\ n = 0) \/
    (m = DequeModel.VecDequeWithCapacity zero limit n /\ l = [] /\ 0 <= n) \/
    (m = DequeModel.VecDequeWithLen zero limit n /\ l = repeat zero (Z.to_nat n) /\ 0 <= n).

  (** What the methods show. *)
  Definition shows (d : DequeModel.VecDeque T) (l : list T) : Prop :=
    DequeModel.Len d = Z.of_nat (length l) /\
    forall i, 0 <= i < 2 ^ 64 -> DequeModel.Get d i = Ret (at_ l i).
  (** Any position of the contents in the buffer. *)
  Definition layout (d : DequeModel.VecDeque T) : Prop :=
    0 <= DequeModel.Len d <= DequeModel.Capacity d /\
    0 <= DequeModel.head d < DequeModel.Capacity d /\
    DequeModel.Capacity d <= limit.
End Run.

(** Neither end but the back is used. *)
Definition front_untouched {T} (o : @dop T) : Prop :=
  match o with PushFront _ | PopFront => False | _ => True end.
