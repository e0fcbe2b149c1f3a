(** FsSpec.v -- words for statements about the file system. *)
From Coq Require Import Permutation Sorted.
From Verif Require Import Base OsModel.
Open Scope Z_scope.

(** The tree: what sort of thing inode i is, what name c of directory d stands for,
    and the bytes of a file. *)
Inductive sort := AFile | ADir (parent : nat) | ALink (target : list Z).
Definition sort_of (w : world) (i : nat) : option sort :=
  match nth_error (inodes w) i with
  | Some (IFile _) => Some AFile
  | Some (IDir p _) => Some (ADir p)
  | Some (ISymlink t) => Some (ALink t)
  | None => None
  end.
Definition entry (w : world) (d : nat) (c : list Z) : option nat :=
  match nth_error (inodes w) d with Some (IDir _ es) => assoc c es | _ => None end.
Definition bytes (w : world) (i : nat) : option (list Z) :=
  match nth_error (inodes w) i with Some (IFile data) => Some data | _ => None end.
Definition entries (w : world) (d : nat) : list (list Z * nat) :=
  match nth_error (inodes w) d with Some (IDir _ es) => es | _ => [] end.

(** The thing path p leads to when symbolic links are followed, and its contents if it
    is a file. *)
Definition leads_to (w : world) (p : list Z) : option nat :=
  match locate w true p with
  | inl (PDir i) | inl (PAt _ _ (Some i)) => Some i
  | _ => None
  end.
Definition contents (w : world) (p : list Z) : option (list Z) :=
  match leads_to w p with Some i => bytes w i | None => None end.
(** The thing path p names, without following a symbolic link at its end. *)
Definition named (w : world) (p : list Z) : option nat :=
  match locate w false p with
  | inl (PDir i) | inl (PAt _ _ (Some i)) => Some i
  | _ => None
  end.

(** A file system: a root (that is in no directory), names that are names, no name twice
    in a directory, no dangling references. *)
Definition good_name (c : list Z) : Prop := dot c = false /\ dotdot c = false /\ ~ In 47 c.
Record wf (w : world) : Prop := {
  wf_root : sort_of w 0 = Some (ADir 0);
  wf_cwd : exists p, sort_of w (cwd w) = Some (ADir p);
  wf_parent : forall d p, sort_of w d = Some (ADir p) -> exists q, sort_of w p = Some (ADir q);
  wf_names : forall d, NoDup (map fst (entries w d));
  wf_entry : forall d c i, In (c, i) (entries w d) -> good_name c /\ (0 < i < length (inodes w))%nat;
  wf_files : forall i off, In (i, off) (files w) -> (i < length (inodes w))%nat }.

(** A prefix. *)
Definition prefix {A} (a b : list A) : Prop := exists c, b = a ++ c.

(** The names of a directory in order. *)
Definition listing (w : world) (d : nat) (names : list (list Z)) : Prop :=
  Permutation names (map fst (entries w d)) /\ StronglySorted (fun a b => bytes_leb a b = true) names.
(** A path without "..". *)
Definition no_dotdot (p : list Z) : Prop := forall c, In c (components p) -> dotdot c = false.

(** What a Write to path p writes to: an existing file, or a new name in a directory;
    [None] if there is no such thing (a directory, a path that leads nowhere). *)
Inductive target := OldFile (i : nat) | NewName (d : nat) (c : list Z).
Definition target_of (w : world) (p : list Z) : option target :=
  match locate w true p with
  | inl (PAt d c None) => Some (NewName d c)
  | inl (PAt d c (Some i)) => match bytes w i with Some _ => Some (OldFile i) | None => None end
  | _ => None
  end.
