(** SyncModel.v -- sync.go, thread.go (Spawn, Join, IsFinished) and gokio/gokio.go.

    A Go program is a number of goroutines that interleave.  The code of the user is
    an arbitrary interaction tree ([user], coinductive, so it may loop for ever); it
    calls gost functions and reads and writes through pointers.  A gost function is a
    short program over the operations of the Go runtime ([prog]), one operation per
    step, so other goroutines can run between any two operations.

    The runtime is taken by its documented semantics: an unbuffered channel with its
    queues of waiting senders and receivers, sync.Mutex (a TryLock of a free mutex
    may fail, as the Go memory model allows; the scheduler decides), and sequentially
    consistent memory cells (Go promises this for programs without data races).

    A function may also end by a panic that it does not recover from, or by
    runtime.Goexit: the deferred calls of the goroutine run, and then a panic ends the
    process.

    Left out: copies of a Mutex struct, memory other than the values inside mutexes,
    the end of the process when its first goroutine returns. *)
From Verif Require Import Base.

Notation "x <-? m ;; k" := (match m with Some x => k | None => None end)
  (at level 61, m at next level, right associativity).

Section Go.
  Context {T : Type}.

  (** What a variable can hold: data, or something a gost function returned. *)
  Inductive val :=
  | VUnit
  | VBool (b : bool)
  | VData (x : T)
  | VPtr (a : nat)
  | VMutex (m : nat)
  | VHandle (c : nat)          (* JoinHandle: the number of its channel *)
  | VFuture (c : nat)          (* *gokioFuture: the number of its channel *)
  | VOk (v : val)
  | VErr.

  (** The calls of user code.  [U] is the type of user code itself. *)
  Inductive call (U : Type) :=
  | MutexNew (v : val)
  | Lock (m : nat)
  | Unlock (m : nat)
  | TryLock (m : nat)
  | Spawn (f : U)
  | Join (h : nat)
  | IsFinished (h : nat)
  | Gokio_Spawn (zero : val) (f : U)     (* [zero]: the zero value of f's result type *)
  | Await (h : nat).

  CoInductive user :=
  | UReturn (v : val)
  | UCall (f : call user) (k : val -> user)
  | ULoad (a : nat) (k : val -> user)            (* x := *p *)
  | UStore (a : nat) (v : val) (k : user)        (* *p = v *)
  | UPanic                                       (* panic, not recovered *)
  | UGoexit.                                     (* runtime.Goexit() *)
  (** How a function that a goroutine was started with ends. *)
  Inductive ending := Returned (v : val) | Exited | Panicked.

  (** Code inside gost: one runtime operation after the other. *)
  Inductive prog :=
  | Return (v : val)
  | Alloc (v : val) (k : nat -> prog)                        (* &v *)
  | NewMutex (value : nat) (k : nat -> prog)                 (* &Mutex{value, sync.Mutex{}} *)
  | GetValue (m : nat) (k : nat -> prog)                     (* self.value *)
  | LockLock (m : nat) (k : prog)                            (* self.lock.Lock() *)
  | LockUnlock (m : nat) (k : prog)                          (* self.lock.Unlock() *)
  | LockTryLock (m : nat) (k : bool -> prog)                 (* self.lock.TryLock() *)
  | MakeChan (zero : option val) (k : nat -> prog)           (* make(chan T); None: T is Unit *)
  | Send (c : nat) (v : val) (k : prog)                      (* c <- v *)
  | Recv (c : nat) (k : val -> prog)                         (* <-c *)
  | Poll (c : nat) (k : bool -> prog)                        (* select { case <-c: default: } *)
  | Close (c : nat) (k : prog)                               (* close(c) *)
  | Crash                                                    (* the panic reaches the end of the goroutine *)
  | Go (f : user) (rest : ending -> prog) (k : prog).        (* go func() { f() ... }(): rest is what follows f *)

  (** sync.go:16-21. *)
  Definition p_MutexNew (v : val) : prog :=
    Alloc v (fun value => NewMutex value (fun m => Return (VMutex m))).
  (** sync.go:28-31. *)
  Definition p_Lock (m : nat) : prog :=
    LockLock m (GetValue m (fun value => Return (VPtr value))).
  (** sync.go:39-41. *)
  Definition p_Unlock (m : nat) : prog :=
    LockUnlock m (Return VUnit).
  (** sync.go:59-65. *)
  Definition p_TryLock (m : nat) : prog :=
    LockTryLock m (fun ok => if ok then GetValue m (fun value => Return (VOk (VPtr value))) else Return VErr).
  (** thread.go:45-56; nothing is deferred. *)
  Definition p_Spawn (f : user) : prog :=
    MakeChan None (fun channel =>
      Go f (fun r => match r with
                     | Returned _ => Send channel VUnit (Return VUnit)
                     | Exited => Return VUnit
                     | Panicked => Crash
                     end) (Return (VHandle channel))).
  (** thread.go:29-33. *)
  Definition p_Join (channel : nat) : prog :=
    Recv channel (fun _ => Return (VOk VUnit)).
  (** thread.go:36-43. *)
  Definition p_IsFinished (channel : nat) : prog :=
    Poll channel (fun received => Return (VBool received)).
  (** gokio/gokio.go:13-24; the deferred close runs after the send, and also when f does
      not return. *)
  Definition p_Gokio_Spawn (zero : val) (f : user) : prog :=
    MakeChan (Some zero) (fun ch =>
      Go f (fun r => match r with
                     | Returned v => Send ch v (Close ch (Return VUnit))
                     | Exited => Close ch (Return VUnit)
                     | Panicked => Close ch Crash
                     end) (Return (VFuture ch))).
  (** gokio/gokio.go:9-11. *)
  Definition p_Await (ch : nat) : prog := Recv ch (fun v => Return v).

  Definition body (f : call user) : prog :=
    match f with
    | MutexNew _ v => p_MutexNew v
    | Lock _ m => p_Lock m
    | Unlock _ m => p_Unlock m
    | TryLock _ m => p_TryLock m
    | Spawn _ f => p_Spawn f
    | Join _ h => p_Join h
    | IsFinished _ h => p_IsFinished h
    | Gokio_Spawn _ zero f => p_Gokio_Spawn zero f
    | Await _ h => p_Await h
    end.

  (** *** The machine *)
  Record chan := mkChan { zero : option val; sendq : list (nat * val); recvq : list nat; closed : bool }.
  Record mutex := mkMutex { value : nat; locked : bool }.
  (** Where a goroutine is: in user code, inside a gost call, or behind the end of
      the function it was started with. *)
  Inductive thread :=
  | Running (u : user) (rest : ending -> prog)
  | Inside (f : call user) (p : prog) (k : val -> user) (rest : ending -> prog)
  | Ending (p : prog).
  (** [waits]: parked in the queue of a channel. *)
  Record goroutine := mkG { code : thread; waits : bool }.
  Record config := mkConfig {
    threads : list goroutine; cells : list val; mutexes : list mutex; chans : list chan;
    dead : bool }.         (* a fatal error has ended the process *)

  (** What happens, in order. *)
  Inductive event :=
  | ECall (t : nat) (f : call user)                 (* goroutine t calls f *)
  | EAnswer (t : nat) (f : call user) (v : val)     (* the call returns v *)
  | EStart (t t' : nat)                             (* goroutine t starts goroutine t' *)
  | EFinish (t : nat) (v : val)                     (* the function t was started with returns v *)
  | EExit (t : nat)                                 (* ... or calls runtime.Goexit *)
  | EPanic (t : nat)                                (* ... or panics *)
  | ELoad (t a : nat) (v : val)
  | EStore (t a : nat) (v : val)
  | EFatal (t : nat).

  Definition set_thread (c : config) (t : nat) (g : goroutine) : config :=
    mkConfig (list_set (threads c) t g) (cells c) (mutexes c) (chans c) (dead c).
  Definition set_chan (c : config) (i : nat) (ch : chan) : config :=
    mkConfig (threads c) (cells c) (mutexes c) (list_set (chans c) i ch) (dead c).
  Definition set_mutex (c : config) (i : nat) (m : mutex) : config :=
    mkConfig (threads c) (cells c) (list_set (mutexes c) i m) (chans c) (dead c).
  Definition set_cell (c : config) (a : nat) (v : val) : config :=
    mkConfig (threads c) (list_set (cells c) a v) (mutexes c) (chans c) (dead c).
  Definition fatal (c : config) (t : nat) : config * list event :=
    (mkConfig (threads c) (cells c) (mutexes c) (chans c) true, [EFatal t]).

  (** Goroutine t goes on with p; a return hands its value to the user's code. *)
  Definition continue_ (c : config) (t : nat) (p : prog) : config * list event :=
    match nth_error (threads c) t with
    | Some (mkG (Inside f _ k rest) _) =>
        match p with
        | Return v => (set_thread c t (mkG (Running (k v) rest) false), [EAnswer t f v])
        | _ => (set_thread c t (mkG (Inside f p k rest) false), [])
        end
    | Some (mkG (Ending _) _) => (set_thread c t (mkG (Ending p) false), [])
    | _ => (c, [])
    end.
  Definition park (c : config) (t : nat) : config :=
    match nth_error (threads c) t with
    | Some g => set_thread c t (mkG (code g) true)
    | None => c
    end.
  Definition gost_code (c : config) (t : nat) : option prog :=
    match nth_error (threads c) t with
    | Some (mkG (Inside _ p _ _) _) => Some p
    | Some (mkG (Ending p) _) => Some p
    | _ => None
    end.
  (** A waiting receiver gets v; a waiting sender goes on. *)
  Definition wake_receiver (c : config) (t : nat) (v : val) : config * list event :=
    match gost_code c t with Some (Recv _ k) => continue_ c t (k v) | _ => (c, []) end.
  Definition wake_sender (c : config) (t : nat) : config * list event :=
    match gost_code c t with Some (Send _ _ k) => continue_ c t k | _ => (c, []) end.
  Fixpoint wake_all (c : config) (ts : list nat) (v : val) : config * list event :=
    match ts with
    | [] => (c, [])
    | t :: r => let (c1, e1) := wake_receiver c t v in let (c2, e2) := wake_all c1 r v in (c2, e1 ++ e2)
    end.
  Definition zero_of (ch : chan) : val := match zero ch with Some v => v | None => VUnit end.
  Definition then_ (r : config * list event) (k : config -> config * list event) : config * list event :=
    let (c1, e1) := r in let (c2, e2) := k c1 in (c2, e1 ++ e2).

  (** One runtime operation of goroutine t.  [lucky] decides whether a TryLock of a
      free mutex succeeds.  None: t cannot move now. *)
  Definition operate (c : config) (t : nat) (lucky : bool) (p : prog) : option (config * list event) :=
    match p with
    | Return _ => None
    | Alloc v k =>
        Some (continue_ (mkConfig (threads c) (cells c ++ [v]) (mutexes c) (chans c) (dead c)) t (k (length (cells c))))
    | NewMutex value k =>
        Some (continue_ (mkConfig (threads c) (cells c) (mutexes c ++ [mkMutex value false]) (chans c) (dead c)) t
                (k (length (mutexes c))))
    | GetValue m k =>
        mu <-? nth_error (mutexes c) m ;; Some (continue_ c t (k (value mu)))
    | LockLock m k =>
        mu <-? nth_error (mutexes c) m ;;
        if locked mu then None else Some (continue_ (set_mutex c m (mkMutex (value mu) true)) t k)
    | LockUnlock m k =>
        mu <-? nth_error (mutexes c) m ;;
        if locked mu then Some (continue_ (set_mutex c m (mkMutex (value mu) false)) t k) else Some (fatal c t)
    | LockTryLock m k =>
        mu <-? nth_error (mutexes c) m ;;
        if locked mu then Some (continue_ c t (k false))
        else if lucky then Some (continue_ (set_mutex c m (mkMutex (value mu) true)) t (k true))
        else Some (continue_ c t (k false))
    | MakeChan z k =>
        Some (continue_ (mkConfig (threads c) (cells c) (mutexes c) (chans c ++ [mkChan z [] [] false]) (dead c)) t
                (k (length (chans c))))
    | Send i v k =>
        ch <-? nth_error (chans c) i ;;
        if closed ch then Some (fatal c t)
        else match recvq ch with
             | r :: q => Some (then_ (wake_receiver (set_chan c i (mkChan (zero ch) (sendq ch) q (closed ch))) r v)
                                     (fun c => continue_ c t k))
             | [] => Some (park (set_chan c i (mkChan (zero ch) (sendq ch ++ [(t, v)]) [] (closed ch))) t, [])
             end
    | Recv i k =>
        ch <-? nth_error (chans c) i ;;
        match sendq ch with
        | (s, v) :: q => Some (then_ (wake_sender (set_chan c i (mkChan (zero ch) q (recvq ch) (closed ch))) s)
                                     (fun c => continue_ c t (k v)))
        | [] => if closed ch then Some (continue_ c t (k (zero_of ch)))
                else Some (park (set_chan c i (mkChan (zero ch) [] (recvq ch ++ [t]) (closed ch))) t, [])
        end
    | Poll i k =>
        ch <-? nth_error (chans c) i ;;
        match sendq ch with
        | (s, v) :: q => Some (then_ (wake_sender (set_chan c i (mkChan (zero ch) q (recvq ch) (closed ch))) s)
                                     (fun c => continue_ c t (k true)))
        | [] => Some (continue_ c t (k (closed ch)))
        end
    | Close i k =>
        ch <-? nth_error (chans c) i ;;
        if closed ch then Some (fatal c t)
        else Some (then_ (wake_all (set_chan c i (mkChan (zero ch) (sendq ch) [] true)) (recvq ch) (zero_of ch))
                         (fun c => continue_ c t k))
    | Crash => Some (fatal c t)
    | Go f rest k =>
        let c' := mkConfig (threads c ++ [mkG (Running f rest) false]) (cells c) (mutexes c) (chans c) (dead c) in
        Some (then_ (c', [EStart t (length (threads c))]) (fun c => continue_ c t k))
    end.

  (** Go's types: a mutex exists before it is used, Join is called on a JoinHandle
      and Await on a future.  (A tree that does otherwise is no Go program: it stops.) *)
  Definition is_handle (c : config) (h : nat) : bool :=
    match nth_error (chans c) h with Some (mkChan None _ _ _) => true | _ => false end.
  Definition is_future (c : config) (h : nat) : bool :=
    match nth_error (chans c) h with Some (mkChan (Some _) _ _ _) => true | _ => false end.
  Definition typed (c : config) (f : call user) : bool :=
    match f with
    | Lock _ m | Unlock _ m | TryLock _ m => m <? length (mutexes c)
    | Join _ h | IsFinished _ h => is_handle c h
    | Await _ h => is_future c h
    | _ => true
    end.

  (** One step of goroutine t. *)
  Definition step (c : config) (t : nat) (lucky : bool) : option (config * list event) :=
    if dead c then None
    else match nth_error (threads c) t with
         | Some (mkG th false) =>
             match th with
             | Running (UReturn v) rest => Some (set_thread c t (mkG (Ending (rest (Returned v))) false), [EFinish t v])
             | Running UGoexit rest => Some (set_thread c t (mkG (Ending (rest Exited)) false), [EExit t])
             | Running UPanic rest => Some (set_thread c t (mkG (Ending (rest Panicked)) false), [EPanic t])
             | Running (UCall f k) rest =>
                 if typed c f then Some (set_thread c t (mkG (Inside f (body f) k rest) false), [ECall t f]) else None
             | Running (ULoad a k) rest =>
                 match nth_error (cells c) a with
                 | Some v => Some (set_thread c t (mkG (Running (k v) rest) false), [ELoad t a v])
                 | None => None
                 end
             | Running (UStore a v k) rest =>
                 match nth_error (cells c) a with
                 | Some _ => Some (set_thread (set_cell c a v) t (mkG (Running k rest) false), [EStore t a v])
                 | None => None
                 end
             | Inside _ p _ _ | Ending p => operate c t lucky p
             end
         | _ => None
         end.

  (** A schedule says which goroutine is next (and how lucky its TryLock is);
      scheduling one that cannot move changes nothing. *)
  Definition schedule := list (nat * bool).
  Fixpoint run (c : config) (s : schedule) : config * list event :=
    match s with
    | [] => (c, [])
    | (t, lucky) :: r =>
        match step c t lucky with
        | Some (c1, e1) => let (c2, e2) := run c1 r in (c2, e1 ++ e2)
        | None => run c r
        end
    end.
  (** The program starts with one goroutine per given function, nothing allocated. *)
  Definition main_rest (r : ending) : prog :=
    match r with Returned v => Return v | Exited => Return VUnit | Panicked => Crash end.
  Definition start (mains : list user) : config :=
    mkConfig (map (fun u => mkG (Running u main_rest) false) mains) [] [] [] false.
End Go.
Arguments val T : clear implicits.
Arguments user T : clear implicits.
Arguments prog T : clear implicits.
Arguments config T : clear implicits.
Arguments event T : clear implicits.
Arguments goroutine T : clear implicits.
Arguments MutexNew {T U}. Arguments Lock {T U}. Arguments Unlock {T U}. Arguments TryLock {T U}.
Arguments Spawn {T U}. Arguments Join {T U}. Arguments IsFinished {T U}.
Arguments Gokio_Spawn {T U}. Arguments Await {T U}.
