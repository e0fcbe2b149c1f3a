(** FsModel.v -- fs.go (and gokio/fs.go, which runs the same functions in goroutines).

    A function is a program over the calls of Go's os package, one call per step, so
    that the process can die, or another goroutine can run, between any two of them. *)
From Verif Require Import Base OsModel.
Open Scope Z_scope.

(** gost.Result, as far as fs.go uses it. *)
Inductive Result (A : Type) := Ok (a : A) | Err (e : errno).
Arguments Ok {A}. Arguments Err {A}.

Inductive prog (R : Type) :=
| Done (r : R)
| Mkdir (p : list Z) (k : option errno -> prog R)                 (* os.Mkdir *)
| Remove (p : list Z) (k : option errno -> prog R)                (* os.Remove *)
| Create (p : list Z) (k : nat + errno -> prog R)                 (* os.Create *)
| Open (p : list Z) (k : nat + errno -> prog R)                   (* os.Open *)
| FileWrite (fd : nat) (bs : list Z) (k : option errno -> prog R) (* file.Write *)
| FileSize (fd : nat) (k : nat + errno -> prog R)                 (* file.Stat, stat.Size *)
| FileRead (fd n : nat) (k : list Z + errno -> prog R)            (* file.Read of n bytes *)
| Close (fd : nat) (k : prog R)                                   (* file.Close *)
| OsRename (p q : list Z) (k : option errno -> prog R)            (* os.Rename *)
| Link (p q : list Z) (k : option errno -> prog R)                (* os.Link *)
| ListDir (p : list Z) (k : list (list Z * Z) + errno -> prog R). (* os.ReadDir *)
Arguments Done {R}. Arguments Mkdir {R}. Arguments Remove {R}. Arguments Create {R}. Arguments Open {R}.
Arguments FileWrite {R}. Arguments FileSize {R}. Arguments FileRead {R}. Arguments Close {R}.
Arguments OsRename {R}. Arguments Link {R}. Arguments ListDir {R}.

(** if err != nil { return Err(err) } else { return Ok(nil) } *)
Definition finish {R} (err : option errno) (value : R) : Result R :=
  match err with Some e => Err e | None => Ok value end.

(** fs.go:9-17. *)
Definition CreateDir (path : list Z) : prog (Result unit) := Mkdir path (fun err => Done (finish err tt)).
(** fs.go:20-28. *)
Definition RemoveDir (path : list Z) : prog (Result unit) := Remove path (fun err => Done (finish err tt)).
(** byte(b) of a Byte (uint8). *)
Definition byte_of (b : Z) : Z := b.
(** fs.go:31-53; the deferred Close runs last. *)
Definition Write (path data : list Z) : prog (Result unit) :=
  Create path (fun r =>
    match r with
    | inr err => Done (Err err)
    | inl file =>
        let casted := fold_left (fun casted b => casted ++ [byte_of b]) data [] in
        FileWrite file casted (fun err => Close file (Done (finish err tt)))
    end).
(** fs.go:56-64. *)
Definition RemoveFile (path : list Z) : prog (Result unit) := Remove path (fun err => Done (finish err tt)).
(** fs.go:68-76. *)
Definition Rename (from to : list Z) : prog (Result unit) := OsRename from to (fun err => Done (finish err tt)).
(** data := make([]byte, n); file.Read(data): what is in data afterwards. *)
Definition filled (n : nat) (bs : list Z) : list Z := bs ++ repeat 0 (n - length bs).
(** fs.go:79-109. *)
Definition Read (path : list Z) : prog (Result (list Z)) :=
  Open path (fun r =>
    match r with
    | inr err => Done (Err err)
    | inl file =>
        FileSize file (fun r =>
          match r with
          | inr err => Close file (Done (Err err))
          | inl size =>
              FileRead file size (fun r =>
                Close file (Done
                  match r with
                  | inr err => Err err
                  | inl bs => Ok (fold_left (fun casted b => casted ++ [byte_of b]) (filled size bs) [])
                  end))
          end)
    end).
(** fs.go:182-203; the string of a byte slice has the same bytes. *)
Definition ReadToString (path : list Z) : prog (Result (list Z)) :=
  Open path (fun r =>
    match r with
    | inr err => Done (Err err)
    | inl file =>
        FileSize file (fun r =>
          match r with
          | inr err => Close file (Done (Err err))
          | inl size =>
              FileRead file size (fun r =>
                Close file (Done
                  match r with
                  | inr err => Err err
                  | inl bs => Ok (filled size bs)
                  end))
          end)
    end).

(** fs.go:111-113: FileType, here its typeInfo; fs.go:115-125: the three tests. *)
Definition t_dir : list Z := [100; 105; 114].
Definition t_file : list Z := [102; 105; 108; 101].
Definition t_symlink : list Z := [115; 121; 109; 108; 105; 110; 107].
Definition IsDir (typeInfo : list Z) : bool := beq typeInfo t_dir.
Definition IsFile (typeInfo : list Z) : bool := beq typeInfo t_file.
Definition IsSymlink (typeInfo : list Z) : bool := beq typeInfo t_symlink.
(** fs.go:127-131. *)
Record DirEntry := mkEntry { FileName : list Z; Path : list Z; FileType : list Z }.
(** fs.go:134-164.  The Vec is its list of elements: VecWithLen(n) has n zero values,
    Push appends (vec.go:26-29, 84-86). *)
Definition zero_entry : DirEntry := mkEntry [] [] [].
Definition ReadDir (path : list Z) : prog (Result (list DirEntry)) :=
  ListDir path (fun r =>
    match r with
    | inr err => Done (Err err)
    | inl entries =>
        let vec := repeat zero_entry (length entries) in
        Done (Ok (fold_left (fun vec entry =>
          let m := mode_Perm (snd entry) in
          let fileType :=
            if mode_IsDir m then t_dir
            else if mode_IsRegular m then t_file
            else if negb (Z.land m ModeSymlink =? 0) then t_symlink
            else [] in
          vec ++ [mkEntry (fst entry) (filepath_Join path (fst entry)) fileType]) entries vec))
    end).
(** fs.go:168-176. *)
Definition Copy (from to : list Z) : prog (Result unit) := Link from to (fun err => Done (finish err tt)).

(** *** Execution *)
(** What the system decides at a call: to fail with some error (no space, no
    permission ...), or to do it; how many bytes a read or write moves at most. *)
Record choice := mkChoice { fails : option errno; count : nat }.
Definition fine (n : nat) : choice := mkChoice None n.

(** One call.  file.Write repeats write(2) until all is written (internal/poll
    FD.Write); file.Read is one read(2), no bytes at all meaning io.EOF, and nothing
    happens for an empty slice (FD.Read). *)
Definition step {R} (w : world) (p : prog R) (ch : choice) : world * prog R :=
  match p with
  | Done r => (w, Done r)
  | Close fd k => (w, k)
  | Mkdir p k => match fails ch with Some e => (w, k (Some e)) | None => let (w1, r) := os_Mkdir w p in (w1, k r) end
  | Remove p k => match fails ch with Some e => (w, k (Some e)) | None => let (w1, r) := os_Remove w p in (w1, k r) end
  | Create p k => match fails ch with Some e => (w, k (inr e)) | None => let (w1, r) := os_Create w p in (w1, k r) end
  | Open p k => match fails ch with Some e => (w, k (inr e)) | None => let (w1, r) := os_Open w p in (w1, k r) end
  | FileWrite fd bs k =>
      match fails ch with
      | Some e => (w, k (Some e))
      | None =>
          let n := Nat.min (count ch) (length bs) in
          let (w1, r) := os_write w fd (firstn n bs) in
          match r with
          | Some e => (w1, k (Some e))
          | None => match skipn n bs with
                    | [] => (w1, k None)
                    | rest => if (n =? 0)%nat then (w1, k (Some EEOF)) else (w1, FileWrite fd rest k)
                    end
          end
      end
  | FileSize fd k => match fails ch with Some e => (w, k (inr e)) | None => (w, k (os_size w fd (count ch))) end
  | FileRead fd n k =>
      match fails ch with
      | Some e => (w, k (inr e))
      | None =>
          if (n =? 0)%nat then (w, k (inl []))
          else let (w1, r) := os_read w fd (Nat.min n (Nat.max 1 (count ch))) in
               match r with inl [] => (w1, k (inr EEOF)) | _ => (w1, k r) end
      end
  | OsRename p q k => match fails ch with Some e => (w, k (Some e)) | None => let (w1, r) := os_Rename w p q in (w1, k r) end
  | Link p q k => match fails ch with Some e => (w, k (Some e)) | None => let (w1, r) := os_Link w p q in (w1, k r) end
  | ListDir p k => match fails ch with Some e => (w, k (inr e)) | None => (w, k (os_ReadDir w p)) end
  end.
(** The calls one after the other.  Stopping anywhere is the death of the process. *)
Fixpoint run {R} (w : world) (p : prog R) (chs : list choice) : world * prog R :=
  match chs with
  | [] => (w, p)
  | ch :: r => let (w1, p1) := step w p ch in run w1 p1 r
  end.

(** gokio/fs.go:8-71 with gokio.go:13-24: each call runs in a goroutine of its own; the
    system calls of different goroutines come in any order. *)
Fixpoint run_pool {R} (w : world) (ps : list (prog R)) (sched : list (nat * choice)) : world * list (prog R) :=
  match sched with
  | [] => (w, ps)
  | (k, ch) :: r =>
      match nth_error ps k with
      | Some p => let (w1, p1) := step w p ch in run_pool w1 (list_set ps k p1) r
      | None => run_pool w ps r
      end
  end.
