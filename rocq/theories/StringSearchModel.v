(** StringSearchModel.v -- string.go: Contains, Find, Split, Trim, Replace,
    ToLowercase, ToUppercase, Repeat, over a model of the functions of Go's
    package strings (1.20, the version go.mod names) that they call.  A Go string
    is its list of bytes and is shorter than 2^63 bytes. *)
From Verif Require Import Base IntModel OptionModel StringModel.
Local Open Scope Z_scope.
Local Open Scope bool_scope.

(** *** Package strings *)
(** The bytes at the front of [s] are [p]. *)
Fixpoint prefixb (p s : list Z) : bool :=
  match p, s with
  | [], _ => true
  | _ :: _, [] => false
  | a :: p, b :: s => (a =? b) && prefixb p s
  end.
(** strings.Index: the first byte position at which [sub] stands, or -1.  (The
    library searches with a rolling hash; what it returns is this.) *)
Fixpoint Index_go (s sub : list Z) (i : Z) : Z :=
  if prefixb sub s then i
  else match s with [] => -1 | _ :: t => Index_go t sub (i + 1) end.
Definition strings_Index (s sub : list Z) : Z := Index_go s sub 0.
(** strings.Contains: Index(s, substr) >= 0. *)
Definition strings_Contains (s sub : list Z) : bool := 0 <=? strings_Index s sub.
(** strings.Count for a non-empty [sub]: search, skip what was found, search on.
    The fuel bounds the number of rounds; each consumes a byte. *)
Fixpoint Count_go (fuel : nat) (s sub : list Z) : nat :=
  match fuel with
  | O => O
  | S k => let i := strings_Index s sub in
           if i =? -1 then O else S (Count_go k (skipn (Z.to_nat i + length sub) s) sub)
  end.
(** strings.Count: an empty [sub] is counted between all runes. *)
Definition strings_Count (s sub : list Z) : nat :=
  match sub with [] => S (length (runes s)) | _ => Count_go (length s) s sub end.
(** strings.explode(s, -1): one piece per rune, the last takes what is left. *)
Fixpoint explode_go (n : nat) (s : list Z) : list (list Z) :=
  match n with
  | O => []
  | S O => [s]
  | S k => let size := snd (DecodeRune s) in firstn size s :: explode_go k (skipn size s)
  end.
(** The loop of strings.genSplit(s, sep, 0, -1) for [n] separators. *)
Fixpoint split_go (n : nat) (s sep : list Z) : list (list Z) :=
  match n with
  | O => [s]
  | S k => let m := strings_Index s sep in
           if m <? 0 then [s]
           else firstn (Z.to_nat m) s :: split_go k (skipn (Z.to_nat m + length sep) s) sep
  end.
(** strings.Split. *)
Definition strings_Split (s sep : list Z) : list (list Z) :=
  match sep with [] => explode_go (length (runes s)) s | _ => split_go (strings_Count s sep) s sep end.
(** The loop of strings.Replace: round [i] of [n]; [rest] is s[start:]. *)
Fixpoint replace_go (n : nat) (first : bool) (rest old new : list Z) : list Z :=
  match n with
  | O => rest
  | S k =>
    let j := match old with
             | [] => if first then O else snd (DecodeRune rest)
             | _ => Z.to_nat (strings_Index rest old)
             end in
    firstn j rest ++ new ++ replace_go k false (skipn (j + length old) rest) old new
  end.
(** strings.Replace(s, old, new, -1). *)
Definition strings_Replace (s old new : list Z) : list Z :=
  if list_eq_dec Z.eq_dec old new then s
  else replace_go (strings_Count s old) true s old new.
(** strings.Repeat: a negative count panics, and so does a result longer than an
    int can say (len(s)*count/count != len(s), on 64-bit ints). *)
Definition strings_Repeat (s : list Z) (count : Z) : out (list Z) :=
  if count =? 0 then Ret []
  else if count <? 0 then Panic
  else if negb (Z.quot (IntModel.wrap ISize (Z.of_nat (length s) * count)) count =? Z.of_nat (length s)) then Panic
  else Ret (concat (repeat s (Z.to_nat count))).

(** unicode.IsSpace (its Latin-1 switch and the table of White_Space). *)
Definition IsSpace (r : Z) : bool :=
  if r <=? 255 then ((9 <=? r) && (r <=? 13)) || (r =? 32) || (r =? 133) || (r =? 160)
  else (r =? 5760) || ((8192 <=? r) && (r <=? 8202)) || (r =? 8232) || (r =? 8233)
       || (r =? 8239) || (r =? 8287) || (r =? 12288).
(** The table asciiSpace of package strings. *)
Definition asciiSpace (b : Z) : bool := ((9 <=? b) && (b <=? 13)) || (b =? 32).
(** utf8.RuneStart: not a continuation byte. *)
Definition RuneStart (b : Z) : bool := negb (cont b).
(** The backward scan of utf8.DecodeLastRuneInString: [back] are the bytes before
    the last, nearest first; the answer is how many bytes to take in all. *)
Fixpoint last_start (lim : nat) (back : list Z) (taken : nat) : nat :=
  match lim, back with
  | S l, b :: t => if RuneStart b then S taken else last_start l t (S taken)
  | _, _ => taken
  end.
(** utf8.DecodeLastRuneInString.  When no lead byte is among the last four bytes
    Go decodes from five bytes back (or from the start of a shorter string); the
    decoded rune then does not end at the end of the string, nor does it when
    decoding from four back, and both give (RuneError, 1). *)
Definition DecodeLastRune (s : list Z) : Z * nat :=
  match rev s with
  | [] => (RuneError, 0%nat)
  | b :: back =>
    if b <? 128 then (b, 1%nat)
    else
      let taken := last_start 3 back 1 in
      let (r, size) := DecodeRune (skipn (length s - taken) s) in
      if (size =? taken)%nat then (r, size) else (RuneError, 1%nat)
  end.
(** strings.TrimLeftFunc(s, unicode.IsSpace): drop runes while they are white space. *)
Fixpoint TrimLeft_go (fuel : nat) (s : list Z) : list Z :=
  match fuel with
  | O => s
  | S k => match s with
           | [] => []
           | _ => let (r, size) := DecodeRune s in
                  if IsSpace r then TrimLeft_go k (skipn size s) else s
           end
  end.
Definition TrimLeftFunc (s : list Z) : list Z := TrimLeft_go (length s) s.
(** strings.TrimRightFunc(s, unicode.IsSpace): lastIndexFunc walks back over runes
    that are white space.  The rune it stops at is kept; Go finds its end by
    decoding forwards from its start. *)
Fixpoint TrimRight_go (fuel : nat) (s : list Z) : list Z :=
  match fuel with
  | O => s
  | S k => match s with
           | [] => []
           | _ => let (r, size) := DecodeLastRune s in
                  if IsSpace r then TrimRight_go k (firstn (length s - size) s) else s
           end
  end.
Definition TrimRightFunc (s : list Z) : list Z := TrimRight_go (length s) s.
(** strings.TrimSpace, second loop: from the end, over ASCII white space.  [r] is
    the string reversed. *)
Fixpoint TrimStop (r : list Z) : list Z :=
  match r with
  | [] => []
  | c :: t => if 128 <=? c then TrimRightFunc (rev r)
              else if asciiSpace c then TrimStop t else rev r
  end.
(** strings.TrimSpace, first loop: from the front, over ASCII white space. *)
Fixpoint TrimStart (s : list Z) : list Z :=
  match s with
  | [] => []
  | c :: t => if 128 <=? c then TrimRightFunc (TrimLeftFunc s)
              else if asciiSpace c then TrimStart t else TrimStop (rev s)
  end.
Definition strings_TrimSpace (s : list Z) : list Z := TrimStart s.

(** strings.Map for a mapping that is never negative: runes are replaced one by
    one.  (The library copies only from the first rune that changes on; a byte
    that is no UTF-8 always counts as a change, into U+FFFD.) *)
Definition strings_Map (f : Z -> Z) (s : list Z) : list Z := EncodeRunes (map f (runes s)).
Definition isASCII (s : list Z) : bool := forallb (fun b => b <? 128) s.
(** strings.ToLower and strings.ToUpper: an ASCII string is converted bytewise,
    any other with unicode.ToLower / unicode.ToUpper, here a parameter. *)
Definition lower_byte (c : Z) : Z := if (65 <=? c) && (c <=? 90) then c + 32 else c.
Definition upper_byte (c : Z) : Z := if (97 <=? c) && (c <=? 122) then c - 32 else c.
Definition strings_ToLower (unicode_ToLower : Z -> Z) (s : list Z) : list Z :=
  if isASCII s then map lower_byte s else strings_Map unicode_ToLower s.
Definition strings_ToUpper (unicode_ToUpper : Z -> Z) (s : list Z) : list Z :=
  if isASCII s then map upper_byte s else strings_Map unicode_ToUpper s.

(** *** string.go *)
(** string.go:86-88. *)
Definition String_Contains (self str : list Z) : bool := strings_Contains self str.
(** string.go:93-101 (the index is below 2^63, so USize(index) is exact). *)
Definition String_Find (self str : list Z) : option Z :=
  let index := strings_Index self str in
  if index =? -1 then None else Some index.
(** string.go:104-112: every piece is pushed onto an empty vector. *)
Definition String_Split (self str : list Z) : list (list Z) :=
  fold_left (fun split s => split ++ [s]) (strings_Split self str) [].
(** string.go:116-118. *)
Definition String_Trim (self : list Z) : list Z := strings_TrimSpace self.
(** string.go:155-157. *)
Definition String_Replace (self old new : list Z) : list Z := strings_Replace self old new.
(** string.go:160-162 and 165-167. *)
Definition String_ToLowercase (unicode_ToLower : Z -> Z) (self : list Z) : list Z :=
  strings_ToLower unicode_ToLower self.
Definition String_ToUppercase (unicode_ToUpper : Z -> Z) (self : list Z) : list Z :=
  strings_ToUpper unicode_ToUpper self.
(** string.go:170-172: int(n) of a USize from 2^63 on is negative. *)
Definition String_Repeat (self : list Z) (n : Z) : out (list Z) :=
  strings_Repeat self (IntModel.wrap ISize n).
