(** ListHistory.v -- the operations of ListSpec executed by the model of ListModel on
    several list variables that share one heap. *)
From Verif Require Import Base Effect VecSpec.
From Verif Require ListModel ListSpec.
Local Open Scope Z_scope.
Import ListSpec.

Section Run.
  Context {T : Type}.
  Variable eqb : T -> T -> bool.
  Variable clone : T -> T.

  Record world := mkWorld { cells : ListModel.heap T; vars : list ListModel.LinkedList }.

  (** Read a variable; run a method on it; write it back. *)
  Definition method {A} (w : world) (v : nat) (m : ListModel.LinkedList -> M (ListModel.heap T) (ListModel.LinkedList * A)) : out (world * A) :=
    l <- idx (vars w) v ;; r <- m l (cells w) ;;
    vs <- upd (vars w) v (fst (fst r)) ;; Ret (mkWorld (snd r) vs, snd (fst r)).
  Definition modify (w : world) (v : nat) (m : ListModel.LinkedList -> M (ListModel.heap T) ListModel.LinkedList) : out (world * lanswer T) :=
    method w v (fun l => l' <~ m l ;; mret (l', Done)).
  (** *p for the pointer inside an Option. *)
  Definition peek (p : option nat) : M (ListModel.heap T) (option T) :=
    match p with None => mret None | Some _ => n <~ ListModel.load p ;; mret (Some (ListModel.value n)) end.

  Definition exec (w : world) (o : lop T) : out (world * lanswer T) :=
    match o with
    | New => Ret (mkWorld (cells w) (vars w ++ [ListModel.LinkedListNew]), Done)
    | PushFront v x => modify w v (fun l => ListModel.PushFront l x)
    | PushBack v x => modify w v (fun l => ListModel.PushBack l x)
    | PopFront v => method w v (fun l => r <~ ListModel.PopFront l ;; mret (fst r, Value (snd r)))
    | PopBack v => method w v (fun l => r <~ ListModel.PopBack l ;; mret (fst r, Value (snd r)))
    | Front v => method w v (fun l => r <~ peek (ListModel.Front l) ;; mret (l, Value r))
    | Back v => method w v (fun l => r <~ peek (ListModel.Back l) ;; mret (l, Value r))
    | WriteFront v x => modify w v (fun l => _ <~ ListModel.store (ListModel.Front l) x ;; mret l)
    | WriteBack v x => modify w v (fun l => _ <~ ListModel.store (ListModel.Back l) x ;; mret l)
    | Clear v => modify w v (fun l => mret (ListModel.Clear l))
    | Len v => method w v (fun l => mret (l, Number (ListModel.Len l)))
    | IsEmpty v => method w v (fun l => mret (l, Truth (ListModel.IsEmpty l)))
    | Append v u =>
        if Nat.eqb v u then modify w v ListModel.AppendSelf
        else l <- idx (vars w) v ;; k <- idx (vars w) u ;; r <- ListModel.Append l k (cells w) ;;
             vs <- upd (vars w) v (fst (fst r)) ;; vs' <- upd vs u (snd (fst r)) ;; Ret (mkWorld (snd r) vs', Done)
    | Clone v =>
        l <- idx (vars w) v ;; r <- ListModel.Clone (Some clone) l (cells w) ;;
        Ret (mkWorld (snd r) (vars w ++ [fst r]), Done)
    | Eq v u =>
        l <- idx (vars w) v ;; k <- idx (vars w) u ;; r <- ListModel.Eq (Some eqb) l k (cells w) ;;
        Ret (mkWorld (snd r) (vars w), Truth (fst r))
    | Elements v => method w v (fun l => r <~ ListModel.It_CollectToVec (ListModel.IntoIter l) ;; mret (l, Many r))
    end.

  Fixpoint run (w : world) (ops : list (lop T)) : out (world * list (lanswer T)) :=
    match ops with
    | [] => Ret (w, [])
    | o :: r => p <- exec w o ;; q <- run (fst p) r ;; Ret (fst q, snd p :: snd q)
    end.
  Definition start : world := mkWorld [] [].
End Run.
Arguments world T : clear implicits.
