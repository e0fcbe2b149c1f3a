(** OsModel.v -- the part of the operating system and of Go's os and path/filepath
    packages that fs.go uses.

    This is the environment of the code, not gost code: POSIX path resolution, hard
    links, symbolic links and open files, as documented.  Left out: permissions, file
    modes and times (any call may fail for such reasons, see [choice]), mount points,
    files other than regular files, directories and symbolic links.  A trailing slash
    means "/." (POSIX 4.13); Mkdir, Remove and Rename ignore it on directories.
    Inodes are never reused, so an unlinked open file stays readable. *)
From Verif Require Import Base.
Open Scope Z_scope.

Inductive errno := ENOENT | EEXIST | ENOTDIR | EISDIR | ENOTEMPTY | EINVAL | ELOOP | EPERM | EBADF
  | EEOF                       (* io.EOF, io.ErrUnexpectedEOF *)
  | EOther (n : nat).          (* no space, no permission, input/output error ... *)

Inductive inode :=
| IFile (data : list Z)
| IDir (parent : nat) (entries : list (list Z * nat))
| ISymlink (target : list Z).
(** [files]: the open files of the process, each with its inode and offset.
    Inode 0 is the root directory. *)
Record world := mkWorld { inodes : list inode; cwd : nat; files : list (nat * nat) }.

(** *** Paths *)
Fixpoint components (p : list Z) : list (list Z) :=
  match p with
  | [] => [[]]
  | b :: r =>
      match components r with
      | [] => []
      | c :: cs => if b =? 47 then [] :: c :: cs else (b :: c) :: cs
      end
  end.
Fixpoint beq (a b : list Z) : bool :=
  match a, b with
  | [], [] => true
  | x :: a', y :: b' => (x =? y) && beq a' b'
  | _, _ => false
  end.
Definition dot (c : list Z) : bool := beq c [] || beq c [46].
Definition dotdot (c : list Z) : bool := beq c [46; 46].
Definition rooted (p : list Z) : bool := match p with b :: _ => b =? 47 | [] => false end.
Fixpoint assoc (c : list Z) (entries : list (list Z * nat)) : option nat :=
  match entries with
  | [] => None
  | (c', i) :: r => if beq c' c then Some i else assoc c r
  end.

(** Where a path leads: a directory reached by "", "." or "..", or the entry called c of
    directory d, which may not exist. *)
Inductive place := PDir (d : nat) | PAt (d : nat) (c : list Z) (i : option nat).
(** Path resolution; [follow]: whether a symbolic link as the last part is followed;
    [links]: how many more may be followed. *)
Fixpoint walk (w : world) (follow : bool) (links : nat) {struct links} : nat -> list (list Z) -> place + errno :=
  fix go (d : nat) (cs : list (list Z)) {struct cs} : place + errno :=
    match nth_error (inodes w) d with
    | Some (IDir parent entries) =>
        match cs with
        | [] => inl (PDir d)
        | c :: r =>
            if dot c then go d r
            else if dotdot c then go parent r
            else
              match assoc c entries with
              | None => match r with [] => inl (PAt d c None) | _ => inr ENOENT end
              | Some i =>
                  match nth_error (inodes w) i with
                  | Some (ISymlink t) =>
                      if match r with [] => negb follow | _ => false end then inl (PAt d c (Some i))
                      else match links with
                           | O => inr ELOOP
                           | S links' => walk w follow links' (if rooted t then 0%nat else d) (components t ++ r)
                           end
                  | _ => match r with [] => inl (PAt d c (Some i)) | _ => go i r end
                  end
              end
        end
    | _ => inr ENOTDIR
    end.
Definition locate (w : world) (follow : bool) (p : list Z) : place + errno :=
  match p with
  | [] => inr ENOENT
  | _ => walk w follow 40 (if rooted p then 0%nat else cwd w) (components p)
  end.

(** Trailing slashes. *)
Fixpoint drop_slashes (r : list Z) : list Z :=
  match r with 47 :: r' => drop_slashes r' | _ => r end.
Definition strip (p : list Z) : list Z :=
  match rev (drop_slashes (rev p)) with [] => p | q => q end.
Definition slash_at_end (p : list Z) : bool := negb (beq (strip p) p).

(** *** System calls.  Each either succeeds or changes nothing. *)
Definition set_inode (w : world) (i : nat) (x : inode) : world :=
  mkWorld (list_set (inodes w) i x) (cwd w) (files w).
Definition new_inode (w : world) (x : inode) : world * nat :=
  (mkWorld (inodes w ++ [x]) (cwd w) (files w), length (inodes w)).
Definition open_file (w : world) (i : nat) : world * nat :=
  (mkWorld (inodes w) (cwd w) (files w ++ [(i, 0%nat)]), length (files w)).
Definition unlink_name (c : list Z) (es : list (list Z * nat)) : list (list Z * nat) :=
  filter (fun e => negb (beq (fst e) c)) es.
Definition link_name (c : list Z) (i : nat) (es : list (list Z * nat)) : list (list Z * nat) :=
  unlink_name c es ++ [(c, i)].
Definition change_dir (w : world) (d : nat) (f : list (list Z * nat) -> list (list Z * nat)) : world :=
  match nth_error (inodes w) d with
  | Some (IDir parent es) => set_inode w d (IDir parent (f es))
  | _ => w
  end.

(** os.Mkdir. *)
Definition os_Mkdir (w : world) (p : list Z) : world * option errno :=
  match locate w false (strip p) with
  | inl (PAt d c None) => let (w1, i) := new_inode w (IDir d []) in (change_dir w1 d (link_name c i), None)
  | inl _ => (w, Some EEXIST)
  | inr e => (w, Some e)
  end.
(** os.Remove: unlink, or else rmdir. *)
Definition os_Remove (w : world) (p : list Z) : world * option errno :=
  match locate w false (strip p) with
  | inl (PAt d c (Some i)) =>
      match nth_error (inodes w) i with
      | Some (IDir _ []) => (change_dir w d (unlink_name c), None)
      | Some (IDir _ _) => (w, Some ENOTEMPTY)
      | _ => if slash_at_end p then (w, Some ENOTDIR) else (change_dir w d (unlink_name c), None)
      end
  | inl (PAt _ _ None) => (w, Some ENOENT)
  | inl (PDir _) => (w, Some EINVAL)
  | inr e => (w, Some e)
  end.
(** os.Create: open with O_CREATE and O_TRUNC. *)
Definition os_Create (w : world) (p : list Z) : world * (nat + errno) :=
  match locate w true p with
  | inl (PAt d c (Some i)) =>
      match nth_error (inodes w) i with
      | Some (IFile _) => let (w1, fd) := open_file (set_inode w i (IFile [])) i in (w1, inl fd)
      | _ => (w, inr EISDIR)
      end
  | inl (PAt d c None) =>
      let (w1, i) := new_inode w (IFile []) in
      let (w2, fd) := open_file (change_dir w1 d (link_name c i)) i in (w2, inl fd)
  | inl (PDir _) => (w, inr EISDIR)
  | inr e => (w, inr e)
  end.
(** os.Open. *)
Definition os_Open (w : world) (p : list Z) : world * (nat + errno) :=
  match locate w true p with
  | inl (PAt _ _ (Some i)) | inl (PDir i) => let (w1, fd) := open_file w i in (w1, inl fd)
  | inl (PAt _ _ None) => (w, inr ENOENT)
  | inr e => (w, inr e)
  end.
(** Bytes bs written at offset off; a gap is filled with zeros. *)
Definition write_at (data : list Z) (off : nat) (bs : list Z) : list Z :=
  firstn off data ++ repeat 0 (off - length data) ++ bs ++ skipn (off + length bs) data.
Definition set_file (w : world) (fd : nat) (f : nat * nat) : world :=
  mkWorld (inodes w) (cwd w) (list_set (files w) fd f).
(** write(2) of the bytes bs. *)
Definition os_write (w : world) (fd : nat) (bs : list Z) : world * option errno :=
  match nth_error (files w) fd with
  | Some (i, off) =>
      match nth_error (inodes w) i with
      | Some (IFile data) => (set_file (set_inode w i (IFile (write_at data off bs))) fd (i, (off + length bs)%nat), None)
      | _ => (w, Some EISDIR)
      end
  | None => (w, Some EBADF)
  end.
(** read(2) of at most n bytes. *)
Definition os_read (w : world) (fd : nat) (n : nat) : world * (list Z + errno) :=
  match nth_error (files w) fd with
  | Some (i, off) =>
      match nth_error (inodes w) i with
      | Some (IFile data) =>
          let bs := firstn n (skipn off data) in (set_file w fd (i, (off + length bs)%nat), inl bs)
      | _ => (w, inr EISDIR)
      end
  | None => (w, inr EBADF)
  end.
(** file.Stat().Size(); [other]: what the system reports for a directory. *)
Definition os_size (w : world) (fd other : nat) : nat + errno :=
  match nth_error (files w) fd with
  | Some (i, _) => match nth_error (inodes w) i with Some (IFile data) => inl (length data) | _ => inl other end
  | None => inr EBADF
  end.
(** os.Link: a hard link; a symbolic link is not followed (linkat without flags). *)
Definition os_Link (w : world) (from to : list Z) : world * option errno :=
  match locate w false from with
  | inl (PAt _ _ (Some i)) =>
      match nth_error (inodes w) i with
      | Some (IDir _ _) => (w, Some EPERM)
      | _ => match locate w false to with
             | inl (PAt d c None) => (change_dir w d (link_name c i), None)
             | inl _ => (w, Some EEXIST)
             | inr e => (w, Some e)
             end
      end
  | inl (PAt _ _ None) => (w, Some ENOENT)
  | inl (PDir _) => (w, Some EPERM)
  | inr e => (w, Some e)
  end.
(** Is directory d the directory i or inside it? *)
Fixpoint beneath (w : world) (fuel d i : nat) : bool :=
  (d =? i)%nat ||
  match fuel, nth_error (inodes w) d with
  | S fuel', Some (IDir parent _) => if (parent =? d)%nat then false else beneath w fuel' parent i
  | _, _ => false
  end.
Definition is_dir (w : world) (i : nat) : bool :=
  match nth_error (inodes w) i with Some (IDir _ _) => true | _ => false end.
Definition set_parent (w : world) (i d : nat) : world :=
  match nth_error (inodes w) i with Some (IDir _ es) => set_inode w i (IDir d es) | _ => w end.
(** rename(2): two names of one file are left alone. *)
Definition sys_rename (w : world) (from to : list Z) : world * option errno :=
  match locate w false (strip from), locate w false (strip to) with
  | inr e, _ => (w, Some e)
  | inl (PDir _), _ => (w, Some EINVAL)
  | inl (PAt _ _ None), _ => (w, Some ENOENT)
  | _, inr e => (w, Some e)
  | _, inl (PDir _) => (w, Some EINVAL)
  | inl (PAt d1 c1 (Some i)), inl (PAt d2 c2 t) =>
      if negb (is_dir w i) && (slash_at_end from || slash_at_end to) then (w, Some ENOTDIR)
      else if match t with Some j => (j =? i)%nat | None => false end then (w, None)
      else if is_dir w i && beneath w (length (inodes w)) d2 i then (w, Some EINVAL)
      else if match t with Some j => xorb (is_dir w i) (is_dir w j) | None => false end then (w, Some ENOTDIR)
      else
        let w1 := change_dir w d1 (unlink_name c1) in
        let w2 := change_dir w1 d2 (link_name c2 i) in
        (set_parent w2 i d2, None)
  end.
(** os.Rename: first refuses a target that is a directory. *)
Definition os_Rename (w : world) (from to : list Z) : world * option errno :=
  match locate w false to with
  | inl (PDir j) | inl (PAt _ _ (Some j)) =>
      if is_dir w j then
        match locate w false from with
        | inl (PDir i) | inl (PAt _ _ (Some i)) =>
            if beq to from || negb (j =? i)%nat then (w, Some EEXIST) else sys_rename w from to
        | inl (PAt _ _ None) => (w, Some ENOENT)
        | inr e => (w, Some e)
        end
      else sys_rename w from to
  | _ => sys_rename w from to
  end.

(** *** Directory listings *)
(** Bits of os.FileMode (io/fs, FileMode constants). *)
Definition ModeDir : Z := 2 ^ 31.
Definition ModeSymlink : Z := 2 ^ 27.
Definition ModeNamedPipe : Z := 2 ^ 25.
Definition ModeSocket : Z := 2 ^ 24.
Definition ModeDevice : Z := 2 ^ 26.
Definition ModeCharDevice : Z := 2 ^ 21.
Definition ModeIrregular : Z := 2 ^ 19.
Definition ModePerm : Z := 511.
Definition ModeType : Z :=
  Z.lor ModeDir (Z.lor ModeSymlink (Z.lor ModeNamedPipe (Z.lor ModeSocket (Z.lor ModeDevice (Z.lor ModeCharDevice ModeIrregular))))).
Definition mode_Perm (m : Z) : Z := Z.land m ModePerm.
Definition mode_IsDir (m : Z) : bool := negb (Z.land m ModeDir =? 0).
Definition mode_IsRegular (m : Z) : bool := Z.land m ModeType =? 0.
(** DirEntry.Type(): the type bits. *)
Definition entry_Type (w : world) (i : nat) : Z :=
  match nth_error (inodes w) i with
  | Some (IDir _ _) => ModeDir
  | Some (ISymlink _) => ModeSymlink
  | _ => 0
  end.
Fixpoint bytes_leb (a b : list Z) : bool :=
  match a, b with
  | [], _ => true
  | _ :: _, [] => false
  | x :: a', y :: b' => (x <? y) || ((x =? y) && bytes_leb a' b')
  end.
Fixpoint insert_entry (e : list Z * Z) (l : list (list Z * Z)) : list (list Z * Z) :=
  match l with
  | [] => [e]
  | f :: r => if bytes_leb (fst e) (fst f) then e :: f :: r else f :: insert_entry e r
  end.
Definition sort_entries (l : list (list Z * Z)) : list (list Z * Z) := fold_right insert_entry [] l.
(** os.ReadDir: all entries (without "." and ".."), sorted by name. *)
Definition os_ReadDir (w : world) (p : list Z) : list (list Z * Z) + errno :=
  match locate w true p with
  | inl (PAt _ _ (Some i)) | inl (PDir i) =>
      match nth_error (inodes w) i with
      | Some (IDir _ es) => inl (sort_entries (map (fun e => (fst e, entry_Type w (snd e))) es))
      | _ => inr ENOTDIR
      end
  | inl (PAt _ _ None) => inr ENOENT
  | inr e => inr e
  end.

(** *** path/filepath.Clean and Join *)
Fixpoint clean_go (root : bool) (cs : list (list Z)) (acc : list (list Z)) : list (list Z) :=
  match cs with
  | [] => rev acc
  | c :: r =>
      if dot c then clean_go root r acc
      else if dotdot c then
        match acc with
        | x :: o => if dotdot x then clean_go root r (c :: acc) else clean_go root r o
        | [] => if root then clean_go root r [] else clean_go root r [c]
        end
      else clean_go root r (c :: acc)
  end.
Fixpoint join_slash (cs : list (list Z)) : list Z :=
  match cs with
  | [] => []
  | [c] => c
  | c :: r => c ++ 47 :: join_slash r
  end.
Definition filepath_Clean (p : list Z) : list Z :=
  match clean_go (rooted p) (components p) [] with
  | [] => if rooted p then [47] else [46]
  | cs => if rooted p then 47 :: join_slash cs else join_slash cs
  end.
Definition filepath_Join (p c : list Z) : list Z :=
  match p with
  | [] => match c with [] => [] | _ => filepath_Clean c end
  | _ => filepath_Clean (p ++ 47 :: c)
  end.
