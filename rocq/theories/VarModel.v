(** VarModel.v -- variables and pointers: the assigning operators of ops.go and the AsRef
    methods of convert.go, pair.go, option.go, result.go and the containers.

    A memory of variables is a list; a pointer is an index.  A method with a pointer receiver
    takes the memory and the pointer; a method with a value receiver first copies the value,
    which is what AsRef then takes the address of. *)
From Coq Require Import ZArith Floats.SpecFloat.
From Verif Require Import Base Effect IntModel Int128Model FloatModel ComplexModel.
From Verif Require VecModel ListModel HashModel DequeModel BTreeModel.
Local Open Scope Z_scope.

(** primitive.go:6-41: the values of the primitive types; Byte is uint8, Char is int32, a
    String its bytes. *)
Inductive val :=
| VInt (t : ity) (z : Z) | VI128 (x : I128) | VU128 (x : U128)
| VF32 (x : spec_float) | VF64 (x : spec_float) | VByte (z : Z) | VChar (z : Z) | VString (s : list Z)
| VComplex64 (x : complex) | VComplex128 (x : complex).
(** Equality of type names (the type checker, not gost code). *)
Definition ity_eqb (a b : ity) : bool :=
  match a, b with
  | ISize, ISize | I8, I8 | I16, I16 | I32, I32 | I64, I64 | USize, USize | U8, U8 | U16, U16 | U32, U32 | U64, U64 => true
  | _, _ => false
  end.
Inductive op := OAdd | OSub | OMul | ODiv | ORem.

(** ops.go:160-162. *)
Definition String_Add (self rhs : list Z) : list Z := self ++ rhs.

Definition ok {A B} (c : A -> B) (x : A) : option (out B) := Some (Ret (c x)).
Definition may {A B} (c : A -> B) (x : out A) : option (out B) := Some (y <- x ;; Ret (c y)).
(** self.Add(rhs) ... self.Rem(rhs), ops.go:64-652; [None]: there is no such method, or rhs
    has another type, and the program does not compile.  Byte and Char are computed as U8 and
    I32 (their Go types are the same, uint8 and int32). *)
Definition method (o : op) (self rhs : val) : option (out val) :=
  match self, rhs with
  | VInt t a, VInt t' b =>
      if ity_eqb t t' then
        match o with
        | OAdd => ok (VInt t) (Add t a b) | OSub => ok (VInt t) (Sub t a b) | OMul => ok (VInt t) (Mul t a b)
        | ODiv => may (VInt t) (Div t a b) | ORem => may (VInt t) (Rem t a b)
        end
      else None
  | VI128 a, VI128 b =>
      match o with
      | OAdd => ok VI128 (I128_Add a b) | OSub => ok VI128 (I128_Sub a b) | OMul => ok VI128 (I128_Mul a b)
      | ODiv => may VI128 (I128_Div a b) | ORem => may VI128 (I128_Rem a b)
      end
  | VU128 a, VU128 b =>
      match o with
      | OAdd => ok VU128 (U128_Add a b) | OSub => ok VU128 (U128_Sub a b) | OMul => ok VU128 (U128_Mul a b)
      | ODiv => may VU128 (U128_Div a b) | ORem => may VU128 (U128_Rem a b)
      end
  | VF32 a, VF32 b =>
      match o with
      | OAdd => ok VF32 (F32_Add a b) | OSub => ok VF32 (F32_Sub a b) | OMul => ok VF32 (F32_Mul a b)
      | ODiv => ok VF32 (F32_Div a b) | ORem => None
      end
  | VF64 a, VF64 b =>
      match o with
      | OAdd => ok VF64 (F64_Add a b) | OSub => ok VF64 (F64_Sub a b) | OMul => ok VF64 (F64_Mul a b)
      | ODiv => ok VF64 (F64_Div a b) | ORem => None
      end
  | VByte a, VByte b =>
      match o with
      | OAdd => ok VByte (Add U8 a b) | OSub => ok VByte (Sub U8 a b) | OMul => ok VByte (Mul U8 a b)
      | ODiv => may VByte (Div U8 a b) | ORem => None
      end
  | VChar a, VChar b =>
      match o with
      | OAdd => ok VChar (Add I32 a b) | OSub => ok VChar (Sub I32 a b) | OMul => ok VChar (Mul I32 a b)
      | ODiv => may VChar (Div I32 a b) | ORem => None
      end
  | VString a, VString b => match o with OAdd => ok VString (String_Add a b) | _ => None end
  | VComplex64 a, VComplex64 b =>
      match o with
      | OAdd => ok VComplex64 (Complex64_Add a b) | OSub => ok VComplex64 (Complex64_Sub a b)
      | OMul => ok VComplex64 (Complex64_Mul a b) | ODiv => ok VComplex64 (Complex64_Div a b) | ORem => None
      end
  | VComplex128 a, VComplex128 b =>
      match o with
      | OAdd => ok VComplex128 (Complex128_Add a b) | OSub => ok VComplex128 (Complex128_Sub a b)
      | OMul => ok VComplex128 (Complex128_Mul a b) | ODiv => ok VComplex128 (Complex128_Div a b) | ORem => None
      end
  | _, _ => None
  end.

(** What ops.go:655-997 computes for *self: the integers with +=, -=, *=, /=, %= (Byte
    711-713, 788-790, 861-863, 934-936; Char 715-717, 792-794, 865-867, 938-940), the 128-bit
    integers by their methods (675-677, 699-701, 752-754, 776-778, 825-827, 849-851, 898-900,
    922-924, 971-973, 995-997), String with += (719-721). *)
Definition assigned (o : op) (self rhs : val) : option (out val) :=
  match self, rhs with
  | VInt t a, VInt t' b =>
      if ity_eqb t t' then
        match o with
        | OAdd => ok (VInt t) (AddAssign t a b) | OSub => ok (VInt t) (SubAssign t a b) | OMul => ok (VInt t) (MulAssign t a b)
        | ODiv => may (VInt t) (DivAssign t a b) | ORem => may (VInt t) (RemAssign t a b)
        end
      else None
  | VI128 a, VI128 b =>
      match o with
      | OAdd => ok VI128 (I128_Add a b) | OSub => ok VI128 (I128_Sub a b) | OMul => ok VI128 (I128_Mul a b)
      | ODiv => may VI128 (I128_Div a b) | ORem => may VI128 (I128_Rem a b)
      end
  | VU128 a, VU128 b =>
      match o with
      | OAdd => ok VU128 (U128_Add a b) | OSub => ok VU128 (U128_Sub a b) | OMul => ok VU128 (U128_Mul a b)
      | ODiv => may VU128 (U128_Div a b) | ORem => may VU128 (U128_Rem a b)
      end
  | VF32 a, VF32 b =>
      match o with
      | OAdd => ok VF32 (F32_AddAssign a b) | OSub => ok VF32 (F32_SubAssign a b) | OMul => ok VF32 (F32_MulAssign a b)
      | ODiv => ok VF32 (F32_DivAssign a b) | ORem => None
      end
  | VF64 a, VF64 b =>
      match o with
      | OAdd => ok VF64 (F64_AddAssign a b) | OSub => ok VF64 (F64_SubAssign a b) | OMul => ok VF64 (F64_MulAssign a b)
      | ODiv => ok VF64 (F64_DivAssign a b) | ORem => None
      end
  | VByte a, VByte b =>
      match o with
      | OAdd => ok VByte (AddAssign U8 a b) | OSub => ok VByte (SubAssign U8 a b) | OMul => ok VByte (MulAssign U8 a b)
      | ODiv => may VByte (DivAssign U8 a b) | ORem => None
      end
  | VChar a, VChar b =>
      match o with
      | OAdd => ok VChar (AddAssign I32 a b) | OSub => ok VChar (SubAssign I32 a b) | OMul => ok VChar (MulAssign I32 a b)
      | ODiv => may VChar (DivAssign I32 a b) | ORem => None
      end
  | VString a, VString b => match o with OAdd => ok VString (a ++ b) | _ => None end
  | VComplex64 a, VComplex64 b =>
      match o with
      | OAdd => ok VComplex64 (Complex64_AddAssign a b) | OSub => ok VComplex64 (Complex64_SubAssign a b)
      | OMul => ok VComplex64 (Complex64_MulAssign a b) | ODiv => ok VComplex64 (Complex64_DivAssign a b) | ORem => None
      end
  | VComplex128 a, VComplex128 b =>
      match o with
      | OAdd => ok VComplex128 (Complex128_AddAssign a b) | OSub => ok VComplex128 (Complex128_SubAssign a b)
      | OMul => ok VComplex128 (Complex128_MulAssign a b) | ODiv => ok VComplex128 (Complex128_DivAssign a b) | ORem => None
      end
  | _, _ => None
  end.

(** *** Variables *)
Definition vars := list val.
(** p.AddAssign(rhs) ... p.RemAssign(rhs): an operation that panics has not written yet. *)
Definition OpAssign (o : op) (m : vars) (p : nat) (rhs : val) : option (out vars) :=
  match idx m p with
  | Ret v => match assigned o v rhs with Some r => Some (w <- r ;; upd m p w) | None => None end
  | Panic => Some Panic
  | Diverge => Some Diverge
  end.
(** utils.go:9-11: both values are read before either is written. *)
Definition Swap (m : vars) (p q : nat) : out vars := x <- idx m q ;; y <- idx m p ;; m1 <- upd m p x ;; upd m1 q y.

(** convert.go:8-78, option.go:367-369, result.go:342-344, pair.go:76-78: [return &self] of a
    receiver that is a value: the address of a new variable that holds a copy. *)
Definition AsRef {A} (m : list A) (p : nat) : out (list A * nat) := x <- idx m p ;; Ret (m ++ [x], length m).

(** A program that works with variables and references. *)
Inductive stmt :=
| SOp (o : op) (p : nat) (rhs : val)      (* p.AddAssign(rhs) ... *)
| SOpVar (o : op) (p q : nat)             (* p.AddAssign( *q) ... *)
| SSet (p : nat) (x : val)                (* *p = x *)
| SSwap (p q : nat)
| SRef (p : nat)                          (* another pointer: AsRef() of the variable *)
| SRead (p : nat).
Definition step (m : vars) (s : stmt) : option (out (vars * list val)) :=
  let quiet (r : option (out vars)) := match r with Some r => Some (m' <- r ;; Ret (m', [])) | None => None end in
  match s with
  | SOp o p rhs => quiet (OpAssign o m p rhs)
  | SOpVar o p q => match idx m q with Ret rhs => quiet (OpAssign o m p rhs) | Panic => Some Panic | Diverge => Some Diverge end
  | SSet p x => quiet (Some (upd m p x))
  | SSwap p q => quiet (Some (Swap m p q))
  | SRef p => quiet (Some (r <- AsRef m p ;; Ret (fst r)))
  | SRead p => Some (x <- idx m p ;; Ret (m, [x]))
  end.
Fixpoint run (m : vars) (prog : list stmt) : option (out (vars * list val)) :=
  match prog with
  | [] => Some (Ret (m, []))
  | s :: prog' =>
      match step m s with
      | Some (Ret (m', a)) => match run m' prog' with Some r => Some (x <- r ;; Ret (fst x, a ++ snd x)) | None => None end
      | r => r
      end
  end.

(** *** AsRef of containers: a copy of the header, the storage is shared *)
(** vec.go:668-670. *)
Definition Vec_AsRef (v : VecModel.slice) : VecModel.slice := v.
(** linked_list.go:404-406. *)
Definition List_AsRef (l : ListModel.LinkedList) : ListModel.LinkedList := l.
(** vec_deque.go:823-825. *)
Definition Deque_AsRef {T} (d : DequeModel.VecDeque T) : DequeModel.VecDeque T := d.
(** What the variable is after pushes and pops through a reference that is now r: they write
    the shared buffer, unless the buffer was replaced by a larger one. *)
Definition Deque_seen {T} (d r : DequeModel.VecDeque T) : DequeModel.VecDeque T :=
  if DequeModel.Capacity r =? DequeModel.Capacity d then DequeModel.mkDeque (DequeModel.buffer r) (DequeModel.dlen d) (DequeModel.head d) else d.
(** btree_map.go:1125-1127, btree_set.go:432-434: the nodes are shared. *)
Definition BTree_AsRef (m : BTreeModel.BTreeMap) : BTreeModel.BTreeMap := m.

(** HashMap holds a Go map, which is itself a reference: an index into the maps made so far
    (the receivers of hash_map.go:9-11). *)
Section HashRef.
  Context {K V : Type}.
  Variable keqb : K -> K -> bool.
  Definition maps := list (HashModel.HashMap K V).
  (** hash_map.go:24-26. *)
  Definition AsMap (data : nat) : nat := data.
  (** hash_map.go:470-472; the struct of a HashSet holds a HashMap: hash_set.go:462-464. *)
  Definition Hash_AsRef (data : nat) : nat := data.
  Inductive hop := HInsert (k : K) (v : V) | HRemove (k : K) | HClear | HGet (k : K) | HLen.
  Inductive hans := HDone | HVal (v : option V) | HNumber (z : Z).
  (** hash_map.go:28-103; Clear makes a new map. *)
  Definition hstep (m : maps) (data : nat) (o : hop) : out (maps * nat * hans) :=
    d <- idx m data ;;
    match o with
    | HInsert k v => let r := HashModel.Insert keqb d k v in m' <- upd m data (fst r) ;; Ret (m', data, HVal (snd r))
    | HRemove k => let r := HashModel.Remove keqb d k in m' <- upd m data (fst r) ;; Ret (m', data, HVal (snd r))
    | HClear => Ret (m ++ [HashModel.HashMapNew], length m, HDone)
    | HGet k => Ret (m, data, HVal (HashModel.Get keqb d k))
    | HLen => Ret (m, data, HNumber (HashModel.Len d))
    end.
  (** Two variables used in turns: [true] for the reference. *)
  Fixpoint hrun (m : maps) (v r : nat) (ops : list (bool * hop)) : out (maps * nat * nat * list hans) :=
    match ops with
    | [] => Ret (m, v, r, [])
    | (b, o) :: ops' =>
        x <- hstep m (if b : bool then r else v) o ;;
        let '(m', p, a) := x in
        y <- hrun m' (if b then v else p) (if b then p else r) ops' ;;
        let '(m2, v2, r2, l) := y in Ret (m2, v2, r2, a :: l)
    end.
End HashRef.
