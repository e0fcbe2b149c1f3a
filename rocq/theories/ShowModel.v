(** ShowModel.v -- texts of values of any type: ToString, Display and Debug of the
    primitive types and of containers in containers (fmt.go, to_string.go, pair.go and the
    Display and Debug methods of the container files).

    A [value] is a Go value with its dynamic type.  A container is given by its elements
    in the order in which Display visits them; how that order comes about (ring buffer,
    nodes, hash table) is the subject of the containers' own models. *)
From Coq Require Import Floats.SpecFloat.
From Verif Require Import Base IntModel DecimalModel Int128Model FloatModel FloatTextModel StringModel HashModel.
Local Open Scope Z_scope.

Inductive prim :=
  | PInt (t : ity) (x : Z) | PI128 (x : I128) | PU128 (x : U128)
  | PF32 (x : spec_float) | PF64 (x : spec_float)
  | PByte (x : Z) | PChar (x : Z) | PString (s : list Z) | PBool (b : bool)
  | PComplex64 (x : complex) | PComplex128 (x : complex).
Inductive seq_kind := Vec | VecDeque | LinkedList | HashSet | BTreeSet.
Inductive map_kind := HashMap | BTreeMap.
Inductive value :=
  | VPrim (p : prim)
  | VOption (o : option value)
  | VOk (v : value) | VErr (text : list Z)
  | VPair (k v : value)
  | VSeq (k : seq_kind) (l : list value)
  | VMap (k : map_kind) (l : list (value * value))
  | VGo (text : list Z).   (* a value of a type without any of these methods *)

(** to_string.go:24-146 (Byte 124, Char 128, String 132, Bool 136). *)
Definition prim_ToString (p : prim) : list Z :=
  match p with
  | PInt t x => ToString t x
  | PI128 x => I128_ToString x
  | PU128 x => U128_ToString x
  | PF32 x => F32_ToString x
  | PF64 x => F64_ToString x
  | PByte x => Itoa x
  | PChar x => Itoa x
  | PString s => s
  | PBool b => Bool_ToString b
  | PComplex64 x => Complex64_ToString x
  | PComplex128 x => Complex128_ToString x
  end.
(** fmt.go:13-91. *)
Definition prim_Display (p : prim) : list Z :=
  match p with
  | PString s => s
  | _ => prim_ToString p
  end.
(** The literals of fmt.go:109-187. *)
Definition type_name (p : prim) : list Z :=
  match p with
  | PInt ISize _ => [73; 83; 105; 122; 101]
  | PInt I8 _ => [73; 56]
  | PInt I16 _ => [73; 49; 54]
  | PInt I32 _ => [73; 51; 50]
  | PInt I64 _ => [73; 54; 52]
  | PI128 _ => [73; 49; 50; 56]
  | PInt USize _ => [85; 83; 105; 122; 101]
  | PInt U8 _ => [85; 56]
  | PInt U16 _ => [85; 49; 54]
  | PInt U32 _ => [85; 51; 50]
  | PInt U64 _ => [85; 54; 52]
  | PU128 _ => [85; 49; 50; 56]
  | PF32 _ => [70; 51; 50]
  | PF64 _ => [70; 54; 52]
  | PByte _ => [66; 121; 116; 101]
  | PChar _ => [67; 104; 97; 114]
  | PString _ => [83; 116; 114; 105; 110; 103]
  | PBool _ => [66; 111; 111; 108]
  | PComplex64 _ => [67; 111; 109; 112; 108; 101; 120; 54; 52]
  | PComplex128 _ => [67; 111; 109; 112; 108; 101; 120; 49; 50; 56]
  end.
(** fmt.go:109-187: fmt.Sprintf("...(%s)", text). *)
Definition prim_Debug (p : prim) : list Z :=
  type_name p ++ [40] ++ match p with PString s => s | _ => prim_ToString p end ++ [41].

(** castToToString (to_string.go:14-22): only the primitive types; Pair's ToString
    (pair.go:12) returns Go's string, and containers have none. *)
Definition as_ToString (v : value) : option (list Z) :=
  match v with
  | VPrim p => Some (prim_ToString p)
  | _ => None
  end.
Definition seq_head (k : seq_kind) : list Z :=
  match k with
  | Vec => [86; 101; 99; 91]
  | VecDeque => [86; 101; 99; 68; 101; 113; 117; 101; 91]
  | LinkedList => [76; 105; 110; 107; 101; 100; 76; 105; 115; 116; 91]
  | HashSet => [72; 97; 115; 104; 83; 101; 116; 123]
  | BTreeSet => [66; 84; 114; 101; 101; 83; 101; 116; 123]
  end.
Definition seq_end (k : seq_kind) : list Z :=
  match k with HashSet | BTreeSet => [125] | _ => [93] end.
Definition map_head (k : map_kind) : list Z :=
  match k with
  | HashMap => [72; 97; 115; 104; 77; 97; 112; 123]
  | BTreeMap => [66; 84; 114; 101; 101; 77; 97; 112; 123]
  end.
(** A parameter of Format whose Display panics makes Format panic. *)
Definition param (m : out (list Z)) : option (list Z) := match m with Ret t => Some t | _ => None end.
(** One element: Vec, VecDeque and LinkedList call castToDisplay and panic if there is
    none (vec.go:643-650); the sets call Format("{}", key). *)
Definition element (k : seq_kind) (m : out (list Z)) : out (list Z) :=
  match k with
  | HashSet | BTreeSet => Format [123; 125] [param m]
  | _ => m
  end.
(** Display.  A value without the method (castToDisplay, fmt.go:93-101; Pair's Display,
    pair.go:35, returns Go's string) panics where it is asked for it.
    vec.go:636-660, vec_deque.go:791-815, linked_list.go:363-396, hash_set.go:440-454,
    btree_set.go:405-424 (the iterator of an empty set panics), hash_map.go:448-462,
    btree_map.go:1092-1117, option.go:345-359, result.go:320-334. *)
Fixpoint Display (v : value) : out (list Z) :=
  match v with
  | VPrim p => Ret (prim_Display p)
  | VOption None => Ret [78; 111; 110; 101]
  | VOption (Some x) => t <- Display x ;; Ret ([83; 111; 109; 101; 40] ++ t ++ [41])
  | VOk x => t <- Display x ;; Ret ([79; 107; 40] ++ t ++ [41])
  | VErr text => Ret text
  | VPair _ _ | VGo _ => Panic
  | VSeq BTreeSet [] => Panic
  | VSeq k l =>
      ts <- (fix elements (l : list value) : out (list (list Z)) :=
               match l with
               | [] => Ret []
               | x :: r => t <- element k (Display x) ;; ts <- elements r ;; Ret (t :: ts)
               end) l ;;
      Ret (seq_head k ++ join ts ++ seq_end k)
  | VMap k l =>
      ts <- (fix entries (l : list (value * value)) : out (list (list Z)) :=
               match l with
               | [] => Ret []
               | (x, y) :: r =>
                   t <- Format [123; 125; 58; 32; 123; 125] [param (Display x); param (Display y)] ;;
                   ts <- entries r ;; Ret (t :: ts)
               end) l ;;
      Ret (map_head k ++ join ts ++ [125])
  end.
(** vec.go:663, vec_deque.go:818, linked_list.go:399, hash_map.go:465, hash_set.go:457,
    btree_map.go:1120, btree_set.go:427, option.go:362, result.go:337: Debug is Display.
    fmt.go:109-187 for the primitive types. *)
Definition Debug (v : value) : out (list Z) :=
  match v with
  | VPrim p => Ret (prim_Debug p)
  | _ => Display v
  end.
Section Sprint.
  (** fmt.Sprintf("%v", x), for values without ToString. *)
  Variable sprint : value -> list Z.
  (** pair.go:12-42: ToString, Display and Debug of a Pair. *)
  Definition Pair_text (k v : value) : list Z :=
    let key := match as_ToString k with Some t => t | None => sprint k end in
    let val := match as_ToString v with Some t => t | None => sprint v end in
    [80; 97; 105; 114; 91] ++ key ++ [44; 32] ++ val ++ [93].
End Sprint.
