(** AsyncModel.v -- gokio/fs.go on top of FsModel.v: the main goroutine, one goroutine for every
    background call, and the byte slices they share.

    [captured]: false is the code, where the goroutine of a Write reads the caller's slice
    while it runs; true is what the caller may think, that the bytes are taken at the call.

    Simplified: the goroutines are those of the background calls (for others see SyncModel.v);
    slice variables do not overlap; a future is awaited by the main goroutine only, so the
    channel is: not yet sent (a worker), or received and closed (None).  A panic of main
    (index out of range) ends the process, as its return does. *)
From Verif Require Import Base OsModel FsModel AsyncSpec.
Open Scope Z_scope.

Fixpoint pmap {A B} (f : A -> B) (p : prog A) : prog B :=
  match p with
  | Done r => Done (f r)
  | Mkdir p k => Mkdir p (fun x => pmap f (k x))
  | Remove p k => Remove p (fun x => pmap f (k x))
  | Create p k => Create p (fun x => pmap f (k x))
  | Open p k => Open p (fun x => pmap f (k x))
  | FileWrite fd bs k => FileWrite fd bs (fun x => pmap f (k x))
  | FileSize fd k => FileSize fd (fun x => pmap f (k x))
  | FileRead fd n k => FileRead fd n (fun x => pmap f (k x))
  | Close fd k => Close fd (pmap f k)
  | OsRename p q k => OsRename p q (fun x => pmap f (k x))
  | Link p q k => Link p q (fun x => pmap f (k x))
  | ListDir p k => ListDir p (fun x => pmap f (k x))
  end.

(** A call under way.  fs.go:31-53 (Write): before os.Create, in the loop that copies the
    slice byte by byte, and after it; the others are programs over system calls. *)
Inductive worker :=
| Calls (p : prog answer)
| Creating (path : list Z) (s : nat)
| Casting (fd : nat) (s : nat) (casted : list Z).

Definition slices := list (list Z).
Definition slice_of (sl : slices) (s : nat) : list Z := nth s sl [].

(** fs.go: the functions, as called. *)
Definition begin (captured : bool) (sl : slices) (o : operation) : worker :=
  match o with
  | OCreateDir p => Calls (pmap Plain (CreateDir p))
  | ORemoveDir p => Calls (pmap Plain (RemoveDir p))
  | OWrite p s => if captured then Calls (pmap Plain (Write p (slice_of sl s))) else Creating p s
  | ORemoveFile p => Calls (pmap Plain (RemoveFile p))
  | ORename p q => Calls (pmap Plain (Rename p q))
  | ORead p => Calls (pmap Bytes (Read p))
  | OReadDir p => Calls (pmap Entries (ReadDir p))
  | OCopy p q => Calls (pmap Plain (Copy p q))
  | OReadToString p => Calls (pmap Bytes (ReadToString p))
  end.
(** gokio/fs.go:8-71: the call inside the function given to Spawn. *)
Definition gokio (o : operation) : operation :=
  match o with
  | OCreateDir path => OCreateDir path
  | ORemoveDir path => ORemoveDir path
  | OWrite path data => OWrite path data
  | ORemoveFile path => ORemoveFile path
  | ORename from to => ORename from to
  | ORead path => ORead path
  | OReadDir path => OReadDir path
  | OCopy from to => OCopy from to
  | OReadToString path => OReadToString path
  end.
(** One system call or one round of the loop. *)
Definition wstep (sl : slices) (w : world) (wk : worker) (ch : choice) : world * worker :=
  match wk with
  | Calls p => let (w1, p1) := step w p ch in (w1, Calls p1)
  | Creating path s =>
      match fails ch with
      | Some e => (w, Calls (Done (Plain (Err e))))
      | None =>
          let (w1, r) := os_Create w path in
          (w1, match r with inr e => Calls (Done (Plain (Err e))) | inl fd => Casting fd s [] end)
      end
  | Casting fd s casted =>
      (w, match nth_error (slice_of sl s) (length casted) with
          | Some b => Casting fd s (casted ++ [byte_of b])
          | None => Calls (FileWrite fd casted (fun err => Close fd (Done (Plain (finish err tt)))))
          end)
  end.

Inductive mstate := Code (m : main) | Inside (wk : worker) (k : answer -> main).
Record conf := mkConf { fsys : world; mem : slices; futures : list (operation * option worker); code : mstate }.
Definition begun (w : world) (sl : slices) (m : main) : conf := mkConf w sl [] (Code m).
Definition over (c : conf) : bool := match code c with Code Finish => true | _ => false end.

(** A step of the main goroutine; None: it is blocked or has returned.  The list has the answer
    it was given, if any. *)
Definition main_step (captured : bool) (c : conf) (ch : choice) : option (conf * list answer) :=
  match code c with
  | Code Finish => None
  | Code (Do o k) => Some (mkConf (fsys c) (mem c) (futures c) (Inside (begin captured (mem c) o) k), [])
  | Inside (Calls (Done a)) k => Some (mkConf (fsys c) (mem c) (futures c) (Code (k a)), [a])
  | Inside wk k =>
      let (w1, wk1) := wstep (mem c) (fsys c) wk ch in Some (mkConf w1 (mem c) (futures c) (Inside wk1 k), [])
  (* gokio/gokio.go:13-24 *)
  | Code (Start o k) =>
      Some (mkConf (fsys c) (mem c) (futures c ++ [(o, Some (begin captured (mem c) (gokio o)))]) (Code (k (length (futures c)))), [])
  (* gokio/gokio.go:9-11 *)
  | Code (Await h k) =>
      match nth_error (futures c) h with
      | Some (o, Some (Calls (Done a))) => Some (mkConf (fsys c) (mem c) (list_set (futures c) h (o, None)) (Code (k a)), [a])
      | Some (_, None) => Some (mkConf (fsys c) (mem c) (futures c) (Code (k Zero)), [Zero])
      | _ => None
      end
  | Code (SetByte s i b k) =>
      if (i <? length (slice_of (mem c) s))%nat
      then Some (mkConf (fsys c) (list_set (mem c) s (list_set (slice_of (mem c) s) i b)) (futures c) (Code k), [])
      else Some (mkConf (fsys c) (mem c) (futures c) (Code Finish), [])
  end.
(** A step of the goroutine of future h; one that has its result waits to send it. *)
Definition worker_step (c : conf) (h : nat) (ch : choice) : option conf :=
  if over c then None
  else match nth_error (futures c) h with
       | Some (_, Some (Calls (Done _))) => None
       | Some (o, Some wk) =>
           let (w1, wk1) := wstep (mem c) (fsys c) wk ch in
           Some (mkConf w1 (mem c) (list_set (futures c) h (o, Some wk1)) (code c))
       | _ => None
       end.
(** Who goes next (None: the main goroutine), and what the system decides. *)
Definition turn : Type := option nat * choice.
Definition turn_step (captured : bool) (c : conf) (t : turn) : conf * list answer :=
  match fst t with
  | None => match main_step captured c (snd t) with Some r => r | None => (c, []) end
  | Some h => match worker_step c h (snd t) with Some c1 => (c1, []) | None => (c, []) end
  end.
Fixpoint turns (captured : bool) (c : conf) (ts : list turn) : conf * list answer :=
  match ts with
  | [] => (c, [])
  | t :: r => let (c1, a) := turn_step captured c t in let (c2, b) := turns captured c1 r in (c2, a ++ b)
  end.

(** A byte of a slice is set only when no write of that slice is under way. *)
Definition quiet (c : conf) (t : turn) : Prop :=
  match fst t, code c with
  | None, Code (SetByte s _ _ _) => forall p wk, ~ In (OWrite p s, Some wk) (futures c)
  | _, _ => True
  end.
Fixpoint careful (c : conf) (ts : list turn) : Prop :=
  match ts with
  | [] => True
  | t :: r => quiet c t /\ careful (fst (turn_step false c t)) r
  end.
