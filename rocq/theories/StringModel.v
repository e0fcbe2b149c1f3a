(** StringModel.v -- string.go, io.go:18-69 (Format), panic.go.
    A Go string is its list of bytes; a rune is a Z. *)
From Verif Require Import Base IntModel OptionModel.
Local Open Scope Z_scope.
Local Open Scope bool_scope.

(** *** Go's UTF-8 (language semantics; unicode/utf8) *)
Definition RuneError : Z := 65533.
(** utf8.EncodeRune = string(r): surrogates and out-of-range values become U+FFFD. *)
Definition EncodeRune (r : Z) : list Z :=
  let r := if (r <? 0) || (1114111 <? r) || ((55296 <=? r) && (r <=? 57343)) then RuneError else r in
  if r <? 128 then [r]
  else if r <? 2048 then [192 + r / 64; 128 + r mod 64]
  else if r <? 65536 then [224 + r / 4096; 128 + r / 64 mod 64; 128 + r mod 64]
  else [240 + r / 262144; 128 + r / 4096 mod 64; 128 + r / 64 mod 64; 128 + r mod 64].

Definition cont (b : Z) : bool := (128 <=? b) && (b <=? 191).
(** utf8.DecodeRune: the second byte's accept range depends on the first. *)
Definition DecodeRune (s : list Z) : Z * nat :=
  match s with
  | [] => (RuneError, 0%nat)
  | b0 :: t =>
    if b0 <? 128 then (b0, 1%nat)
    else if (b0 <? 194) || (244 <? b0) then (RuneError, 1%nat)
    else if b0 <? 224 then
      match t with
      | b1 :: _ => if cont b1 then ((b0 - 192) * 64 + (b1 - 128), 2%nat) else (RuneError, 1%nat)
      | _ => (RuneError, 1%nat)
      end
    else if b0 <? 240 then
      match t with
      | b1 :: b2 :: _ =>
        let lo := if b0 =? 224 then 160 else 128 in
        let hi := if b0 =? 237 then 159 else 191 in
        if (lo <=? b1) && (b1 <=? hi) && cont b2
        then ((b0 - 224) * 4096 + (b1 - 128) * 64 + (b2 - 128), 3%nat) else (RuneError, 1%nat)
      | _ => (RuneError, 1%nat)
      end
    else
      match t with
      | b1 :: b2 :: b3 :: _ =>
        let lo := if b0 =? 240 then 144 else 128 in
        let hi := if b0 =? 244 then 143 else 191 in
        if (lo <=? b1) && (b1 <=? hi) && cont b2 && cont b3
        then ((b0 - 240) * 262144 + (b1 - 128) * 4096 + (b2 - 128) * 64 + (b3 - 128), 4%nat) else (RuneError, 1%nat)
      | _ => (RuneError, 1%nat)
      end
  end.
(** The decoding loop of [range s], []rune(s) and io.go:21-25.  The fuel is the
    length of the string; every step consumes at least one byte. *)
Fixpoint runes_go (fuel : nat) (s : list Z) : list Z :=
  match fuel, s with
  | _, [] => []
  | O, _ => []
  | S k, _ => let (r, size) := DecodeRune s in r :: runes_go k (skipn size s)
  end.
Definition runes (s : list Z) : list Z := runes_go (length s) s.
(** string([]rune). *)
Definition EncodeRunes (rs : list Z) : list Z := flat_map EncodeRune rs.

(** *** string.go *)
(** string.go:10-12 and 30-38: StringFromUTF8 copies the bytes; IntoBytes pushes
    them one by one onto an empty vector. *)
Definition StringFromUTF8 (bytes : list Z) : list Z := bytes.
Definition IntoBytes (s : list Z) : list Z := fold_left (fun v b => v ++ [b]) s [].
(** utf16.Decode: a surrogate pair is one rune, a lone surrogate U+FFFD. *)
Fixpoint utf16_Decode (u : list Z) : list Z :=
  match u with
  | [] => []
  | a :: t =>
    if (a <? 55296) || (57344 <=? a) then a :: utf16_Decode t
    else match t with
         | b :: t' =>
           if (a <? 56320) && (56320 <=? b) && (b <? 57344)
           then ((a - 55296) * 1024 + (b - 56320) + 65536) :: utf16_Decode t'
           else RuneError :: utf16_Decode t
         | [] => [RuneError]
         end
  end.
(** string.go:19-21: i += 2 keeps every other code unit. *)
Fixpoint every_other (u : list Z) : list Z :=
  match u with
  | [] => []
  | [a] => [a]
  | a :: _ :: t => a :: every_other t
  end.
(** string.go:15-26. *)
Definition StringFromUTF16 (units : list Z) : Result (list Z) unit :=
  Ok (EncodeRunes (utf16_Decode (every_other units))).
(** string.go:42-49 (a Go string is shorter than 2^63 bytes). *)
Definition String_Len (s : list Z) : Z := Z.of_nat (length s).
Definition String_IsEmpty (s : list Z) : bool := match s with [] => true | _ => false end.
(** string.go:52-55: (receiver afterwards, returned string). *)
Definition String_Push (self : list Z) (c : Z) : list Z * list Z :=
  let self := self ++ EncodeRune c in (self, self).
(** string.go:59-70. *)
Definition String_Pop (self : list Z) : out (list Z * option Z) :=
  if String_IsEmpty self then Ret (self, None)
  else
    let rs := runes self in
    last <- idx rs (length rs - 1) ;;
    Ret (EncodeRunes (firstn (length rs - 1) rs), Some last).
(** string.go:73-81. *)
Definition String_Chars (self : list Z) : list Z := fold_left (fun v c => v ++ [c]) (runes self) [].

(** *** io.go Format *)
(** A parameter is its Display text, or None when its dynamic type has no Display
    (castToDisplay, fmt.go:93-101). *)
Definition Params := list (option (list Z)).
(** io.go:33-66: one pass over the runes.  State: (next parameter, buffer, inLeft, inRight). *)
Fixpoint Format_go (params : Params) (rs : list Z) (paramsIndex : nat) (buffer : list Z)
    (inLeft inRight : bool) : out (list Z) :=
  match rs with
  | [] => Ret buffer
  | r :: rest =>
    if r =? 123 then
      if inLeft then Format_go params rest paramsIndex (buffer ++ [123]) false inRight
      else Format_go params rest paramsIndex buffer true inRight
    else if r =? 125 then
      if inRight then Format_go params rest paramsIndex (buffer ++ [125]) inLeft false
      else if inLeft then
        param <- idx params paramsIndex ;;
        text <- of_option param ;;
        Format_go params rest (S paramsIndex) (buffer ++ text) false inRight
      else Format_go params rest paramsIndex buffer inLeft true
    else Format_go params rest paramsIndex (buffer ++ EncodeRune r) inLeft inRight
  end.
(** io.go:18-69. *)
Definition Format (format : list Z) (params : Params) : out (list Z) :=
  Format_go params (runes format) 0 [] false false.

(** *** panic.go.  How an assertion ends: passes, panics with a message, or
    panics with something else (inside Format). *)
Inductive assertion := Passed | Failed (message : list Z) | Crashed.
Definition fails_with (m : out (list Z)) : assertion :=
  match m with Ret t => Failed t | _ => Crashed end.
(** An argument: a gost String, a Go string (no Display), or some other value with
    its Display text if it has one. *)
Inductive arg := AString (s : list Z) | AGoString (s : list Z) | AOther (display : option (list Z)).
Definition arg_display (a : arg) : option (list Z) :=
  match a with AString s => Some s | AGoString _ => None | AOther d => d end.
Definition assertion_failed : list Z := [97; 115; 115; 101; 114; 116; 105; 111; 110; 32; 102; 97; 105; 108; 101; 100].
(** panic.go:6-8. *)
Definition gost_Panic (message : list Z) (args : list arg) : assertion :=
  fails_with (Format message (map arg_display args)).
(** panic.go:13-23. *)
Definition Assert (condition : bool) (args : list arg) : assertion :=
  if negb condition then
    match args with
    | AString message :: _ => fails_with (Format message (map arg_display args))
    | _ => fails_with (Format assertion_failed [])
    end
  else Passed.
(** panic.go:28-44 and 49-65: [equal] is lhs.Eq(rhs); [lhs], [rhs] are the operands'
    Display texts. *)
Definition gt3 : list Z := [10; 62; 62; 62; 32].
Definition assert_message (lhs rhs : option (list Z)) (args : list arg) (template : list Z) : out (list Z) :=
  panicMessage <- Format template [lhs; rhs] ;;
  match args with
  | AString message :: _ => m <- Format message (map arg_display args) ;; Ret (panicMessage ++ gt3 ++ m)
  | AGoString message :: _ => m <- Format message (map arg_display args) ;; Ret (panicMessage ++ gt3 ++ m)
  | _ => Ret panicMessage
  end.
Definition ne_template : list Z := assertion_failed ++ [58; 32; 123; 125; 32; 33; 61; 32; 123; 125].
Definition eq_template : list Z := assertion_failed ++ [58; 32; 123; 125; 32; 61; 61; 32; 123; 125].
Definition AssertEq (equal : bool) (lhs rhs : option (list Z)) (args : list arg) : assertion :=
  if negb equal then fails_with (assert_message lhs rhs args ne_template) else Passed.
Definition AssertNe (equal : bool) (lhs rhs : option (list Z)) (args : list arg) : assertion :=
  if equal then fails_with (assert_message lhs rhs args eq_template) else Passed.
(** panic.go:70-98: the three bodies differ in the default text only.  The message is
    passed to panic as it is, without Format. *)
Definition panic_default (default : list Z) (messages : list (list Z)) : assertion :=
  match messages with [] => Failed default | m :: _ => Failed m end.
(** panic.go:70-76. *)
Definition Unimplemented := panic_default [110; 111; 116; 32; 105; 109; 112; 108; 101; 109; 101; 110; 116; 101; 100].
(** panic.go:81-87. *)
Definition Unreachable := panic_default [117; 110; 114; 101; 97; 99; 104; 97; 98; 108; 101].
(** panic.go:92-98. *)
Definition Todo := panic_default [116; 111; 100; 111].
