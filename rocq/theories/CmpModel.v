(** CmpModel.v -- cmp.go (Cmp and Eq of the scalar types), pair.go, clone.go. *)
From Coq Require Import Floats.SpecFloat.
From Verif Require Import Base IntModel DecimalModel Int128Model.
Local Open Scope Z_scope.
Local Open Scope bool_scope.

(** cmp.go:18-66, 78-126: the same body for ISize, I8..I64, USize, U8..U64. *)
Definition Int_Cmp (a b : Z) : ordering :=
  if a <? b then Less else if b <? a then Greater else Equal.
(** cmp.go:178-196: Byte and Char test equality first. *)
Definition Byte_Cmp (a b : Z) : ordering :=
  if a =? b then Equal else if b <? a then Greater else Less.
Definition Char_Cmp (a b : Z) : ordering :=
  if a =? b then Equal else if b <? a then Greater else Less.
(** cmp.go:168-176. *)
Definition Bool_Cmp (a b : bool) : ordering :=
  if eqb a b then Equal else if a then Greater else Less.

(** Go's [<] on strings (language semantics): lexicographic byte order. *)
Fixpoint string_lt (a b : list Z) : bool :=
  match a, b with
  | _, [] => false
  | [], _ :: _ => true
  | x :: a', y :: b' => if x <? y then true else if y <? x then false else string_lt a' b'
  end.
(** cmp.go:158-166. *)
Definition String_Cmp (a b : list Z) : ordering :=
  if string_lt a b then Less else if string_lt b a then Greater else Equal.

(** cmp.go:138-156: F32 and F64, with IEEE comparisons (Coq's SpecFloat; both
    comparisons are false on NaN). *)
Definition Float_Cmp (a b : spec_float) : ordering :=
  if SFltb a b then Less else if SFltb b a then Greater else Equal.

(** cmp.go:213-231, 237-255, 277-283: [self == rhs] (integers, Byte, Char). *)
Definition Int_Eq (a b : Z) : bool := a =? b.
(** cmp.go:233-235, 257-259: I128 and U128. *)
Definition I128_Eq (a b : I128) : bool := (ihigh a =? ihigh b) && (ilow a =? ilow b).
Definition U128_Eq (a b : U128) : bool := (uhigh a =? uhigh b) && (ulow a =? ulow b).
(** cmp.go:261-267: IEEE equality. *)
Definition Float_Eq (a b : spec_float) : bool := SFeqb a b.
(** cmp.go:269-275: string and bool equality. *)
Fixpoint String_Eq (a b : list Z) : bool :=
  match a, b with
  | [], [] => true
  | x :: a', y :: b' => (x =? y) && String_Eq a' b'
  | _, _ => false
  end.
Definition Bool_Eq (a b : bool) : bool := eqb a b.

(** pair.go:6-9. *)
Record Pair (K V : Type) := mkPair { Key : K; Value : V }.
Arguments mkPair {K V} _ _.
Arguments Key {K V} _.
Arguments Value {K V} _.

(** The component traits are looked up at run time: [None] when the component
    type does not implement the trait, and then Unwrap panics (castToOrd,
    cmp.go:198-206; castToEq, cmp.go:285-293; castToClone, clone.go:10-18; their answer is the
    internal option of option.go:391-413, a copy of Option). *)
Section PairMethods.
  Context {K V : Type}.
  (** pair.go:56-61. *)
  Definition Pair_Eq (eqK : option (K -> K -> bool)) (eqV : option (V -> V -> bool))
      (p q : Pair K V) : out bool :=
    ek <- of_option eqK ;;
    let keyEq := ek (Key p) (Key q) in
    ev <- of_option eqV ;;
    let valueEq := ev (Value p) (Value q) in
    Ret (keyEq && valueEq).
  (** pair.go:64-73. *)
  Definition Pair_Cmp (cmpK : option (K -> K -> ordering)) (cmpV : option (V -> V -> ordering))
      (p q : Pair K V) : out ordering :=
    ck <- of_option cmpK ;;
    match ck (Key p) (Key q) with
    | Equal => cv <- of_option cmpV ;; Ret (cv (Value p) (Value q))
    | o => Ret o
    end.
  (** pair.go:45-53. *)
  Definition Pair_Clone (cloneK : option (K -> K)) (cloneV : option (V -> V)) (p : Pair K V)
      : out (Pair K V) :=
    ck <- of_option cloneK ;;
    let k := ck (Key p) in
    cv <- of_option cloneV ;;
    Ret (mkPair k (cv (Value p))).
  (** pair.go:12-33: ToString; [strK]/[strV] is the component's ToString, or the
      text of fmt's %v when it has none ([%v] is an oracle). *)
  Definition Pair_ToString (strK : option (K -> list Z)) (strV : option (V -> list Z))
      (fmtK : K -> list Z) (fmtV : V -> list Z) (p : Pair K V) : list Z :=
    let key := match strK with Some f => f (Key p) | None => fmtK (Key p) end in
    let value := match strV with Some f => f (Value p) | None => fmtV (Value p) end in
    [80; 97; 105; 114; 91] ++ key ++ [44; 32] ++ value ++ [93].
End PairMethods.

(** clone.go:20-90: Clone of every scalar type returns the receiver. *)
Definition Scalar_Clone {A : Type} (x : A) : A := x.
