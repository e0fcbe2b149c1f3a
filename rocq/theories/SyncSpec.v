(** SyncSpec.v -- words for statements about traces of goroutines.

    Everything here is read off the trace: calls, answers, starts, ends, reads and
    writes.  Nothing refers to channels, queues or lock bits. *)
From Verif Require Import Base SyncModel.

Section Spec.
  Context {T : Type}.
  Notation event := (event T).
  Notation trace := (list event).
  Notation user := (user T).
  Notation val := (val T).

  (** [t] starts [t'] in the Spawn call that returns handle (or future) [h]. *)
  Definition spawned (tr : trace) (h t' : nat) : Prop :=
    exists t f tr1 tr2, tr = tr1 ++ EStart t t' :: EAnswer t (Spawn f) (VHandle h) :: tr2.
  Definition spawned_future (tr : trace) (h t' : nat) (zero : val) : Prop :=
    exists t f tr1 tr2, tr = tr1 ++ EStart t t' :: EAnswer t (Gokio_Spawn zero f) (VFuture h) :: tr2.
  Definition finished (tr : trace) (t : nat) (v : val) : Prop := In (EFinish t v) tr.
  (** The function of t has ended without returning: by runtime.Goexit or by a panic. *)
  Definition gone (tr : trace) (t : nat) : Prop := In (EExit t) tr \/ In (EPanic t) tr.

  (** The call goroutine [t] is in the middle of: made, not yet answered. *)
  Definition calling_after (t : nat) (m : option (call user)) (e : event) : option (call user) :=
    match e with
    | ECall u f => if u =? t then Some f else m
    | EAnswer u _ _ => if u =? t then None else m
    | _ => m
    end.
  Definition calling (tr : trace) (t : nat) : option (call user) := fold_left (calling_after t) tr None.

  (** The answers that say "the thread behind h has finished", in order. *)
  Fixpoint joined (tr : trace) (h : nat) : list val :=
    match tr with
    | [] => []
    | EAnswer _ (Join h') v :: r => if h' =? h then v :: joined r h else joined r h
    | EAnswer _ (IsFinished h') (VBool true) :: r => if h' =? h then VBool true :: joined r h else joined r h
    | _ :: r => joined r h
    end.
  (** The values that Await has returned for the future h, in order. *)
  Fixpoint awaited (tr : trace) (h : nat) : list val :=
    match tr with
    | [] => []
    | EAnswer _ (Await h') v :: r => if h' =? h then v :: awaited r h else awaited r h
    | _ :: r => awaited r h
    end.

  (** The mutexes goroutine [t] is inside, with the pointers it was given: from the
      return of Lock or a successful TryLock to the return of Unlock. *)
  Definition release (m : nat) (l : list (nat * nat)) : list (nat * nat) :=
    filter (fun p => negb (fst p =? m)) l.
  Definition holds_after (t : nat) (l : list (nat * nat)) (e : event) : list (nat * nat) :=
    match e with
    | EAnswer u (Lock m) (VPtr a) => if u =? t then (m, a) :: l else l
    | EAnswer u (TryLock m) (VOk (VPtr a)) => if u =? t then (m, a) :: l else l
    | EAnswer u (Unlock m) _ => if u =? t then release m l else l
    | _ => l
    end.
  Definition held (tr : trace) (t : nat) : list (nat * nat) := fold_left (holds_after t) tr [].
  Definition inside (tr : trace) (t m : nat) : Prop := In m (map fst (held tr t)).

  (** How often mutex m has been handed out, and how often it has been given back. *)
  Definition grants (m : nat) (e : event) : bool :=
    match e with EAnswer _ (Lock m') (VPtr _) | EAnswer _ (TryLock m') (VOk _) => m' =? m | _ => false end.
  Definition returns (m : nat) (e : event) : bool :=
    match e with EAnswer _ (Unlock m') _ => m' =? m | _ => false end.
  Definition granted (tr : trace) (m : nat) : nat := length (filter (grants m) tr).
  Definition returned (tr : trace) (m : nat) : nat := length (filter (returns m) tr).
  (** Goroutine u is in the middle of a Lock or TryLock of m. *)
  Definition locking (tr : trace) (u m : nat) : Prop := calling tr u = Some (Lock m) \/ calling tr u = Some (TryLock m).

  (** The rule for using a mutex: a goroutine touches the value only through a
      pointer that Lock or TryLock gave it and before it calls Unlock, and calls
      Unlock only when it is inside.  [D held u]: user code u keeps the rule from now
      on, being inside [held].  Code may run for ever, so the rule is a set of states
      closed under everything the code may see next. *)
  Definition keeps (D : list (nat * nat) -> user -> Prop) : Prop :=
    forall held u, D held u ->
      match u with
      | UReturn _ | UPanic | UGoexit => True
      | ULoad a k => In a (map snd held) /\ forall v, D held (k v)
      | UStore a _ k => In a (map snd held) /\ D held k
      | UCall (Lock m) k => forall a, D ((m, a) :: held) (k (VPtr a))
      | UCall (TryLock m) k => (forall a, D ((m, a) :: held) (k (VOk (VPtr a)))) /\ D held (k VErr)
      | UCall (Unlock m) k => In m (map fst held) /\ forall v, D (release m held) (k v)
      | UCall (Spawn f) k => D [] f /\ forall v, D held (k v)
      | UCall (Gokio_Spawn _ f) k => D [] f /\ forall v, D held (k v)
      | UCall _ k => forall v, D held (k v)
      end.
  Definition disciplined (u : user) : Prop := exists D, keeps D /\ D [] u.

  (** The last value written to a, if any. *)
  Fixpoint last_store (tr : trace) (a : nat) : option val :=
    match tr with
    | [] => None
    | EStore _ a' v :: r => match last_store r a with Some w => Some w | None => if a' =? a then Some v else None end
    | _ :: r => last_store r a
    end.

  (** What mutex m was made with, and what its value at a is now. *)
  Fixpoint initial (tr : trace) (m : nat) : option val :=
    match tr with
    | [] => None
    | EAnswer _ (MutexNew v) (VMutex m') :: r => if m' =? m then Some v else initial r m
    | _ :: r => initial r m
    end.
  Definition current (tr : trace) (m a : nat) : option val :=
    match last_store tr a with Some v => Some v | None => initial tr m end.

  (** An interleaving of the lists [ls]: repeatedly take the head of one of them. *)
  Inductive interleaving {A} : list (list A) -> list A -> Prop :=
  | il_nil ls : (forall l, In l ls -> l = []) -> interleaving ls []
  | il_cons ls i x l r : nth_error ls i = Some (x :: l) -> interleaving (list_set ls i l) r -> interleaving ls (x :: r).

  (** A goroutine that updates the value of a mutex once for every job (b, f): enter
      the mutex with Lock or, if b, by trying TryLock until it works; read the value
      v; write f v; leave. *)
  Definition job : Type := bool * (val -> val).
  CoFixpoint worker (m : nat) (js : list job) : user :=
    match js with
    | [] => UReturn VUnit
    | (false, f) :: r =>
        UCall (Lock m) (fun p => match p with
          | VPtr a => ULoad a (fun v => UStore a (f v) (UCall (Unlock m) (fun _ => worker m r)))
          | _ => UReturn VErr end)
    | (true, f) :: r =>
        UCall (TryLock m) (fun p => match p with
          | VOk (VPtr a) => ULoad a (fun v => UStore a (f v) (UCall (Unlock m) (fun _ => worker m r)))
          | _ => worker m ((true, f) :: r) end)
    end.
  (** Goroutine 0 makes the mutex (number 0); the others are workers on it. *)
  Definition team (v0 : val) (jobs : list (list job)) : list user :=
    UCall (MutexNew v0) (fun _ => UReturn VUnit) :: map (worker 0) jobs.
  Definition apply_all (v0 : val) (fs : list (val -> val)) : val := fold_left (fun v f => f v) fs v0.
End Spec.
