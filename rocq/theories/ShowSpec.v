(** ShowSpec.v -- what the text of a value is, by its structure. *)
From Coq Require Import List ZArith Floats.SpecFloat.
From Verif Require Import TextSpec IntSpec FloatSpec DecimalSpec FloatTextSpec IntModel Int128Model Int128Spec ShowModel.
Import ListNotations.
Local Open Scope Z_scope.

(** Texts with ", " in between. *)
Inductive separated : list (list Z) -> list Z -> Prop :=
  | sep_nil : separated [] []
  | sep_one t : separated [t] t
  | sep_more t u ts s : separated (u :: ts) s -> separated (t :: u :: ts) (t ++ zs ", " ++ s).
Definition opening (k : seq_kind) : list Z :=
  match k with
  | Vec => zs "Vec[" | VecDeque => zs "VecDeque[" | LinkedList => zs "LinkedList["
  | HashSet => zs "HashSet{" | BTreeSet => zs "BTreeSet{"
  end.
Definition closing (k : seq_kind) : list Z :=
  match k with HashSet | BTreeSet => zs "}" | _ => zs "]" end.
Definition map_opening (k : map_kind) : list Z :=
  match k with HashMap => zs "HashMap{" | BTreeMap => zs "BTreeMap{" end.
(** The text of a value.  The text of a primitive one is its ToString. *)
Inductive shown : value -> list Z -> Prop :=
  | shown_prim p : shown (VPrim p) (prim_ToString p)
  | shown_none : shown (VOption None) (zs "None")
  | shown_some x t : shown x t -> shown (VOption (Some x)) (zs "Some(" ++ t ++ zs ")")
  | shown_ok x t : shown x t -> shown (VOk x) (zs "Ok(" ++ t ++ zs ")")
  | shown_err t : shown (VErr t) t
  | shown_seq k l ts s : (k = BTreeSet -> l <> []) -> Forall2 shown l ts -> separated ts s ->
      shown (VSeq k l) (opening k ++ s ++ closing k)
  | shown_map k l ks vs ts s : Forall2 shown (map fst l) ks -> Forall2 shown (map snd l) vs ->
      Forall2 (fun t kv => t = fst kv ++ zs ": " ++ snd kv) ts (combine ks vs) -> separated ts s ->
      shown (VMap k l) (map_opening k ++ s ++ zs "}").
(** A value in which nothing without Display has to be shown: no Pair, no foreign type, no
    empty BTreeSet. *)
Fixpoint displayable (v : value) : Prop :=
  match v with
  | VPrim _ | VErr _ => True
  | VOption o => match o with None => True | Some x => displayable x end
  | VOk x => displayable x
  | VPair _ _ | VGo _ => False
  | VSeq k l => (k = BTreeSet -> l <> []) /\
      (fix all (l : list value) : Prop := match l with [] => True | x :: r => displayable x /\ all r end) l
  | VMap _ l => (fix all (l : list (value * value)) : Prop :=
      match l with [] => True | (x, y) :: r => displayable x /\ displayable y /\ all r end) l
  end.

(** *** Types whose texts can be told apart *)
Inductive ty :=
  | TInt (t : ity) | TU128 | TF32 | TF64 | TByte | TChar | TBool
  | TOption (t : ty) | TSeq (k : seq_kind) (t : ty) | TMap (k : map_kind) (a b : ty).
Inductive of_type : value -> ty -> Prop :=
  | ot_int t x : in_range t x -> of_type (VPrim (PInt t x)) (TInt t)
  | ot_u128 x : uvalid x -> of_type (VPrim (PU128 x)) TU128
  | ot_f32 x : is_F32 x -> of_type (VPrim (PF32 x)) TF32
  | ot_f64 x : is_F64 x -> of_type (VPrim (PF64 x)) TF64
  | ot_byte x : in_range U8 x -> of_type (VPrim (PByte x)) TByte
  | ot_char x : in_range I32 x -> of_type (VPrim (PChar x)) TChar
  | ot_bool b : of_type (VPrim (PBool b)) TBool
  | ot_none t : of_type (VOption None) (TOption t)
  | ot_some x t : of_type x t -> of_type (VOption (Some x)) (TOption t)
  | ot_seq k l t : Forall (fun x => of_type x t) l -> of_type (VSeq k l) (TSeq k t)
  | ot_map k l a b : Forall (fun e => of_type (fst e) a) l -> Forall (fun e => of_type (snd e) b) l -> of_type (VMap k l) (TMap k a b).
(** The words of Debug. *)
Definition type_word (p : prim) : list Z :=
  match p with
  | PInt ISize _ => zs "ISize" | PInt I8 _ => zs "I8" | PInt I16 _ => zs "I16" | PInt I32 _ => zs "I32" | PInt I64 _ => zs "I64"
  | PInt USize _ => zs "USize" | PInt U8 _ => zs "U8" | PInt U16 _ => zs "U16" | PInt U32 _ => zs "U32" | PInt U64 _ => zs "U64"
  | PI128 _ => zs "I128" | PU128 _ => zs "U128" | PF32 _ => zs "F32" | PF64 _ => zs "F64" | PByte _ => zs "Byte" | PChar _ => zs "Char"
  | PString _ => zs "String" | PBool _ => zs "Bool" | PComplex64 _ => zs "Complex64" | PComplex128 _ => zs "Complex128"
  end.
(** A primitive value that can exist. *)
Definition prim_ok (p : prim) : Prop :=
  match p with
  | PInt t x => in_range t x
  | PI128 a => ivalid a
  | PU128 a => uvalid a
  | PF32 x => is_F32 x
  | PF64 x => is_F64 x
  | PByte x => in_range U8 x
  | PChar x => in_range I32 x
  | PString _ | PBool _ => True
  | PComplex64 (a, b) => is_F32 a /\ is_F32 b
  | PComplex128 (a, b) => is_F64 a /\ is_F64 b
  end.
(** The text of a primitive value: the canonical numeral of an integer, the shortest
    numeral of a floating-point number, the bytes of a String, true or false.  Excepted are
    the USize from 2^63 on and the negative I128 that C20 describes. *)
Definition prim_text (p : prim) (s : list Z) : Prop :=
  match p with
  | PInt t x => (t = USize -> x <= highest I64) -> canonical s x
  | PI128 a => (ival a < 0 -> ~ awkward (ival a)) -> canonical s (ival a)
  | PU128 a => canonical s (uval a)
  | PF32 x => number_text 24 128 9 x s
  | PF64 x => number_text 53 1024 17 x s
  | PByte x | PChar x => canonical s x
  | PString b => s = b
  | PBool b => s = if b then zs "true" else zs "false"
  | PComplex64 (a, b) => exists ta tb, number_text 24 128 9 a ta /\ number_text 24 128 9 b tb /\ s = complex_text ta tb b
  | PComplex128 (a, b) => exists ta tb, number_text 53 1024 17 a ta /\ number_text 53 1024 17 b tb /\ s = complex_text ta tb b
  end.
