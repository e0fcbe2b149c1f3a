(** AsyncSpec.v -- programs that use the file functions directly (gost.Write) and in the
    background (gokio.Write, Await), with byte slices of their own. *)
From Verif Require Import Base OsModel FsModel.
Open Scope Z_scope.

(** The calls; the data of a Write are the slice variable with the given number. *)
Inductive operation :=
| OCreateDir (p : list Z) | ORemoveDir (p : list Z) | OWrite (p : list Z) (s : nat) | ORemoveFile (p : list Z)
| ORename (p q : list Z) | ORead (p : list Z) | OReadDir (p : list Z) | OCopy (p q : list Z) | OReadToString (p : list Z).
(** Their results. [Zero] is the zero value of a result type, neither Ok nor Err. *)
Inductive answer :=
| Plain (r : Result unit) | Bytes (r : Result (list Z)) | Entries (r : Result (list DirEntry)) | Zero.

(** The main goroutine; it may run for ever. *)
CoInductive main :=
| Finish                                                 (* main returns *)
| Do (o : operation) (k : answer -> main)                (* gost.X(...) *)
| Start (o : operation) (k : nat -> main)                (* gokio.X(...); k is given the future *)
| Await (h : nat) (k : answer -> main)                   (* h.Await() *)
| SetByte (s i : nat) (b : Z) (k : main).                (* data[i] = b *)

(** A program that does one file operation at a time, and its two readings: with gost.X(...)
    and with gokio.X(...).Await(). *)
CoInductive script :=
| SFinish
| SCall (o : operation) (k : answer -> script)
| SSetByte (s i : nat) (b : Z) (k : script).
CoFixpoint direct (q : script) : main :=
  match q with
  | SFinish => Finish
  | SCall o k => Do o (fun a => direct (k a))
  | SSetByte s i b k => SetByte s i b (direct k)
  end.
CoFixpoint awaited (q : script) : main :=
  match q with
  | SFinish => Finish
  | SCall o k => Start o (fun h => Await h (fun a => awaited (k a)))
  | SSetByte s i b k => SetByte s i b (awaited k)
  end.

(** Which function of fs.go a call is, what it is given, and how its result is shown. *)
Inductive fs_call (slices : list (list Z)) : operation -> forall R, prog R -> (R -> answer) -> Prop :=
| is_CreateDir p : fs_call slices (OCreateDir p) _ (CreateDir p) Plain
| is_RemoveDir p : fs_call slices (ORemoveDir p) _ (RemoveDir p) Plain
| is_Write p s data : nth_error slices s = Some data -> fs_call slices (OWrite p s) _ (Write p data) Plain
| is_RemoveFile p : fs_call slices (ORemoveFile p) _ (RemoveFile p) Plain
| is_Rename p q : fs_call slices (ORename p q) _ (Rename p q) Plain
| is_Read p : fs_call slices (ORead p) _ (Read p) Bytes
| is_ReadDir p : fs_call slices (OReadDir p) _ (ReadDir p) Entries
| is_Copy p q : fs_call slices (OCopy p q) _ (Copy p q) Plain
| is_ReadToString p : fs_call slices (OReadToString p) _ (ReadToString p) Bytes.
