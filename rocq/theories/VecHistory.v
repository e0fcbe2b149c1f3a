(** VecHistory.v -- a Go program that calls vector methods on any number of Vec
    variables: the operations of VecSpec executed by the model of VecModel.
    Variable number v of the program is the v-th slice header. *)
From Verif Require Import Base VecModel VecSpec.

Section Run.
  Context {T : Type}.
  Variable zero : T.
  Variable extra : nat -> nat -> nat.
  Variable eqb deq : T -> T -> bool.
  Variable clone : T -> T.

  Definition world : Type := mem T * list slice.
  Definition var (w : world) (v : nat) : out slice := of_option (nth_error (snd w) v).

  (** Assign to one variable. *)
  Definition assign (m : mem T) (vs : list slice) (v : nat) (s : slice) : world := (m, list_set vs v s).
  Definition declare (ms : mem T * slice) (vs : list slice) : world := (fst ms, vs ++ [snd ms]).

  Definition exec (w : world) (o : @op T) : out (world * answer (T := T)) :=
    let '(m, vs) := w in
    match o with
    | ONew => Ret (declare (VecNew zero m) vs, Done)
    | OWithCapacity n => Ret (declare (VecWithCapacity zero m n) vs, Done)
    | OWithLen n => Ret (declare (VecWithLen zero m n) vs, Done)
    | OClone v => s <- var w v ;; r <- Clone zero (Some clone) m s ;; Ret (declare r vs, Done)
    | OPush v x => s <- var w v ;; let (m', s') := Push zero extra m s x in Ret (assign m' vs v s', Done)
    | OPop v => s <- var w v ;; r <- Pop m s ;; Ret (assign m vs v (fst r), Value (snd r))
    | OInsert v i x => s <- var w v ;; r <- Insert zero extra m s i x ;; Ret (assign (fst r) vs v (snd r), Done)
    | OGet v i => s <- var w v ;; r <- Get m s i ;; Ret (w, Value r)
    | OGetUnchecked v i => s <- var w v ;; r <- GetUnchecked m s i ;; Ret (w, Value (Some r))
    | OSet v i x => s <- var w v ;; r <- Set_ m s i x ;; Ret ((fst r, vs), Value (snd r))
    | OSetUnchecked v i x => s <- var w v ;; m' <- SetUnchecked m s i x ;; Ret ((m', vs), Done)
    | OSwap v i j => s <- var w v ;; m' <- Swap m s i j ;; Ret ((m', vs), Done)
    | OAppend v u => s <- var w v ;; t <- var w u ;;
        let '(m', s', t') := Append zero extra m s t in
        Ret ((m', list_set (list_set vs v s') u t'), Done)
    | OClear v => _ <- var w v ;; let (m', s') := Clear zero m in Ret (assign m' vs v s', Done)
    | OLen v => s <- var w v ;; Ret (w, Number (Len s))
    | OIsEmpty v => s <- var w v ;; Ret (w, Truth (IsEmpty s))
    | OContains v x => s <- var w v ;; Ret (w, Truth (Contains deq m s x))
    | OReverse v => s <- var w v ;; m' <- Reverse m s ;; Ret ((m', vs), Done)
    | ORetain v p => s <- var w v ;; let (m', s') := Retain zero extra m s p in Ret (assign m' vs v s', Done)
    | ODedup v => s <- var w v ;; r <- Dedup deq m s ;; Ret (assign (fst r) vs v (snd r), Done)
    | OFill v x => s <- var w v ;; m' <- Fill m s x ;; Ret ((m', vs), Done)
    | OEq v u => s <- var w v ;; t <- var w u ;; b <- Eq (Some eqb) m s t ;; Ret (w, Truth b)
    end.

  Fixpoint run (w : world) (ops : list op) : out (world * list answer) :=
    match ops with
    | [] => Ret (w, [])
    | o :: r => p <- exec w o ;; q <- run (fst p) r ;; Ret (fst q, snd p :: snd q)
    end.

  (** What the program can see of each variable. *)
  Definition view (w : world) : list (list T) := map (contents (fst w)) (snd w).
  (** A panic in the code is [None] in the specification. *)
  Definition observed (r : out (world * list answer)) : option (list (list T) * list (answer (T := T))) :=
    match r with
    | Ret (w, l) => Some (view w, l)
    | _ => None
    end.
End Run.
