(** ListShareModel.v -- LinkedList variables and their copies (linked_list.go:6-10): the struct
    holds two pointers and a number, copying it copies these.  The nodes are in one heap
    (ListModel.v), so a copy and its original refer to the same nodes. *)
From Verif Require Import Base Effect.
From Verif Require Import ListHistory ListShareSpec.
From Verif Require ListModel ListSpec.
Local Open Scope Z_scope.

Section Model.
  Context {T : Type}.
  Variable eqb : T -> T -> bool.
  Variable clone : T -> T.

  (** Lists with their calls (ListHistory.v, one definition per method there), and copies that are
      only read: linked_list.go:30-32, 42-44, 124-130, 195-201, 237-258, 435-471. *)
  Definition sworld : Type := world T * list ListModel.LinkedList.
  Definition read (st : sworld) (c : nat) (f : ListModel.LinkedList -> M (ListModel.heap T) (ListSpec.lanswer T))
    : out (sworld * ListSpec.lanswer T) :=
    l <- of_option (nth_error (snd st) c) ;; r <- f l (cells (fst st)) ;;
    Ret ((mkWorld (snd r) (vars (fst st)), snd st), fst r).
  Definition sexec (st : sworld) (o : sop) : out (sworld * ListSpec.lanswer T) :=
    let (w, cs) := st in
    match o with
    | SUse o => r <- exec eqb clone w o ;; Ret (fst r, cs, snd r)
    | SCopy v => l <- idx (vars w) v ;; Ret (w, cs ++ [l], ListSpec.Done)
    | SElements c => read st c (fun l => r <~ ListModel.It_CollectToVec (ListModel.IntoIter l) ;; mret (ListSpec.Many r))
    | SLen c => read st c (fun l => mret (ListSpec.Number (ListModel.Len l)))
    | SIsEmpty c => read st c (fun l => mret (ListSpec.Truth (ListModel.IsEmpty l)))
    | SFront c => read st c (fun l => r <~ peek (ListModel.Front l) ;; mret (ListSpec.Value r))
    | SBack c => read st c (fun l => r <~ peek (ListModel.Back l) ;; mret (ListSpec.Value r))
    | SEq c v => k <- idx (vars w) v ;; read st c (fun l => b <~ ListModel.Eq (Some eqb) l k ;; mret (ListSpec.Truth b))
    end.
  Fixpoint srun (st : sworld) (p : list sop) : out (list (ListSpec.lanswer T)) :=
    match p with
    | [] => Ret []
    | o :: r => x <- sexec st o ;; l <- srun (fst x) r ;; Ret (snd x :: l)
    end.

  (** Copies that are variables like any other. *)
  Definition gexec (w : world T) (o : gop T) : out (world T * ListSpec.lanswer T) :=
    match o with
    | GCopy v => l <- idx (vars w) v ;; Ret (mkWorld (cells w) (vars w ++ [l]), ListSpec.Done)
    | GCall o => exec eqb clone w o
    end.
  Fixpoint grun (w : world T) (p : list (gop T)) : out (world T * list (ListSpec.lanswer T)) :=
    match p with
    | [] => Ret (w, [])
    | o :: r => x <- gexec w o ;; q <- grun (fst x) r ;; Ret (fst q, snd x :: snd q)
    end.
End Model.
