(** IoModel.v -- the console: Print, Println and Stdin.ReadLine of io.go. *)
From Verif Require Import Base StringModel.
Local Open Scope Z_scope.
Local Open Scope bool_scope.

(** io.go:14-16: what has been written to standard output so far, and afterwards.
    fmt.Print of one string writes its bytes. *)
Definition Print (stdout format : list Z) (params : Params) : out (list Z) :=
  t <- Format format params ;; Ret (stdout ++ t).
(** io.go:9-12. *)
Definition Println (stdout format : list Z) (params : Params) : out (list Z) :=
  o <- Print stdout format params ;; Ret (o ++ [10]).

(** *** fmt.Scanln(&line) of the Go standard library (fmt/scan.go), for one string.
    Standard input is the list of its runes (an invalid byte is the rune U+FFFD). *)
(** isSpace. *)
Definition is_space (r : Z) : bool :=
  ((9 <=? r) && (r <=? 13)) || (r =? 32) || (r =? 133) || (r =? 160) || (r =? 5760) ||
  ((8192 <=? r) && (r <=? 8202)) || (r =? 8232) || (r =? 8233) || (r =? 8239) || (r =? 8287) || (r =? 12288).
(** SkipSpace: false if it meets a newline, which is consumed ("unexpected newline"). *)
Fixpoint skip_space (s : list Z) : bool * list Z :=
  match s with
  | [] => (true, [])
  | r :: s' =>
      if r =? 10 then (false, s')
      else if is_space r then skip_space s'
      else (true, s)
  end.
(** token with notSpace. *)
Fixpoint token (s : list Z) : list Z * list Z :=
  match s with
  | [] => ([], [])
  | r :: s' => if is_space r then ([], s) else let '(t, rest) := token s' in (r :: t, rest)
  end.
(** The end of doScan: white space up to a newline; anything else is consumed and is an
    error ("expected newline"). *)
Fixpoint to_newline (s : list Z) : list Z :=
  match s with
  | [] => []
  | r :: s' => if r =? 10 then s' else if is_space r then to_newline s' else s'
  end.
(** The variable afterwards (it stays empty on an error before the token) and what is
    left of the input. *)
Definition Scanln (stdin : list Z) : list Z * list Z :=
  let '(ok, s) := skip_space stdin in
  if ok then
    match s with
    | [] => ([], [])
    | _ => let '(t, rest) := token s in (t, to_newline rest)
    end
  else ([], s).
(** io.go:80-88: the buffer afterwards and what is left of the input.  The lock is held
    by nobody else (io.go:76-78 hands it out). *)
Definition ReadLine (buffer : list Z) (stdin : list Z) : list Z * list Z :=
  let '(line, rest) := Scanln stdin in
  let buffer := EncodeRunes line in
  (buffer, rest).
