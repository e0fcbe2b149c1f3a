(** RepoTests.v -- the assertions of the repository's own tests (338 of them), translated by
    tools/repo_tests.py and computed in the model: tests of the model's fidelity, not proofs. *)
From Coq Require Import ZArith List Floats.SpecFloat.
From Verif Require Import Base TextSpec FloatModel FloatProps.
From Verif Require Import IntModel Int128Model.
Local Open Scope Z_scope.

(** *** ops_test.go *)

(** ops_test.go:8-26. *)
Example Test_WrappingAdd_SignedInteger :
  (WrappingAdd ISize 100 27) = 127 /\
  (WrappingAdd ISize (MAX ISize) 2) = ((MIN ISize) + 1) /\
  (WrappingAdd I8 100 27) = 127 /\
  (WrappingAdd I8 (MAX I8) 2) = ((MIN I8) + 1) /\
  (WrappingAdd I16 100 27) = 127 /\
  (WrappingAdd I16 (MAX I16) 2) = ((MIN I16) + 1) /\
  (WrappingAdd I32 100 27) = 127 /\
  (WrappingAdd I32 (MAX I32) 2) = ((MIN I32) + 1) /\
  (WrappingAdd I64 100 27) = 127 /\
  (WrappingAdd I64 (MAX I64) 2) = ((MIN I64) + 1).
Proof. vm_compute. repeat split. Qed.

(** ops_test.go:28-45. *)
Example Test_WrappingAdd_UnsignedInteger :
  (WrappingAdd USize 200 55) = 255 /\
  (WrappingAdd USize (MAX USize) 200) = 199 /\
  (WrappingAdd U8 200 55) = 255 /\
  (WrappingAdd U8 (MAX U8) 200) = 199 /\
  (WrappingAdd U16 200 55) = 255 /\
  (WrappingAdd U16 (MAX U16) 200) = 199 /\
  (WrappingAdd U32 200 55) = 255 /\
  (WrappingAdd U32 (MAX U32) 200) = 199 /\
  (WrappingAdd U64 200 55) = 255 /\
  (WrappingAdd U64 (MAX U64) 200) = 199.
Proof. vm_compute. repeat split. Qed.

(** ops_test.go:47-64. *)
Example Test_WrappingSub_SignedInteger :
  (WrappingSub ISize 0 127) = (-127) /\
  (WrappingSub ISize (-2) (MAX ISize)) = (MAX ISize) /\
  (WrappingSub I8 0 127) = (-127) /\
  (WrappingSub I8 (-2) (MAX I8)) = (MAX I8) /\
  (WrappingSub I16 0 127) = (-127) /\
  (WrappingSub I16 (-2) (MAX I16)) = (MAX I16) /\
  (WrappingSub I32 0 127) = (-127) /\
  (WrappingSub I32 (-2) (MAX I32)) = (MAX I32) /\
  (WrappingSub I64 0 127) = (-127) /\
  (WrappingSub I64 (-2) (MAX I64)) = (MAX I64).
Proof. vm_compute. repeat split. Qed.

(** ops_test.go:66-83. *)
Example Test_WrappingSub_UnsignedInteger :
  (WrappingSub USize 100 100) = 0 /\
  (WrappingSub USize 100 (MAX USize)) = 101 /\
  (WrappingSub U8 100 100) = 0 /\
  (WrappingSub U8 100 (MAX U8)) = 101 /\
  (WrappingSub U16 100 100) = 0 /\
  (WrappingSub U16 100 (MAX U16)) = 101 /\
  (WrappingSub U32 100 100) = 0 /\
  (WrappingSub U32 100 (MAX U32)) = 101 /\
  (WrappingSub U64 100 100) = 0 /\
  (WrappingSub U64 100 (MAX U64)) = 101.
Proof. vm_compute. repeat split. Qed.

(** ops_test.go:85-90. *)
Example Test_WrappingMul_SignedInteger :
  (WrappingMul ISize 10 12) = 120 /\
  (WrappingMul I8 11 12) = (-124).
Proof. vm_compute. repeat split. Qed.

(** ops_test.go:92-97. *)
Example Test_WrappingMul_UnsignedInteger :
  (WrappingMul USize 10 12) = 120 /\
  (WrappingMul U8 25 12) = 44.
Proof. vm_compute. repeat split. Qed.

(** ops_test.go:99-104. *)
Example Test_WrappingDiv_SignedInteger :
  (WrappingDiv ISize 100 10) = (Ret 10) /\
  (WrappingDiv I8 (-128) (-1)) = (Ret (-128)).
Proof. vm_compute. repeat split. Qed.

(** ops_test.go:106-110. *)
Example Test_WrappingDiv_UnsignedInteger :
  (WrappingDiv USize 100 10) = (Ret 10).
Proof. vm_compute. repeat split. Qed.

(** ops_test.go:112-134. *)
Example Test_CheckedAdd_SignedInteger :
  (CheckedAdd ISize 100 27) = (Some 127) /\
  (CheckedAdd ISize (MAX ISize) 2) = None /\
  (CheckedAdd ISize (MIN ISize) (-2)) = None /\
  (CheckedAdd I8 100 27) = (Some 127) /\
  (CheckedAdd I8 (MAX I8) 2) = None /\
  (CheckedAdd I8 (MIN I8) (-2)) = None /\
  (CheckedAdd I16 100 27) = (Some 127) /\
  (CheckedAdd I16 (MAX I16) 2) = None /\
  (CheckedAdd I16 (MIN I16) (-2)) = None /\
  (CheckedAdd I32 100 27) = (Some 127) /\
  (CheckedAdd I32 (MAX I32) 2) = None /\
  (CheckedAdd I32 (MIN I32) (-2)) = None /\
  (CheckedAdd I64 100 27) = (Some 127) /\
  (CheckedAdd I64 (MAX I64) 2) = None /\
  (CheckedAdd I64 (MIN I64) (-2)) = None.
Proof. vm_compute. repeat split. Qed.

(** ops_test.go:136-151. *)
Example Test_CheckedAdd_UnsignedInteger :
  (CheckedAdd USize 100 27) = (Some 127) /\
  (CheckedAdd USize (MAX USize) 2) = None /\
  (CheckedAdd U8 100 27) = (Some 127) /\
  (CheckedAdd U8 (MAX U8) 2) = None /\
  (CheckedAdd U16 100 27) = (Some 127) /\
  (CheckedAdd U16 (MAX U16) 2) = None /\
  (CheckedAdd U32 100 27) = (Some 127) /\
  (CheckedAdd U32 (MAX U32) 2) = None /\
  (CheckedAdd U64 100 27) = (Some 127) /\
  (CheckedAdd U64 (MAX U64) 2) = None.
Proof. vm_compute. repeat split. Qed.

(** ops_test.go:153-175. *)
Example Test_CheckedSub_SignedInteger :
  (CheckedSub ISize 100 27) = (Some 73) /\
  (CheckedSub ISize (MIN ISize) 2) = None /\
  (CheckedSub ISize (MAX ISize) (-2)) = None /\
  (CheckedSub I8 100 27) = (Some 73) /\
  (CheckedSub I8 (MIN I8) 2) = None /\
  (CheckedSub I8 (MAX I8) (-2)) = None /\
  (CheckedSub I16 100 27) = (Some 73) /\
  (CheckedSub I16 (MIN I16) 2) = None /\
  (CheckedSub I16 (MAX I16) (-2)) = None /\
  (CheckedSub I32 100 27) = (Some 73) /\
  (CheckedSub I32 (MIN I32) 2) = None /\
  (CheckedSub I32 (MAX I32) (-2)) = None /\
  (CheckedSub I64 100 27) = (Some 73) /\
  (CheckedSub I64 (MIN I64) 2) = None /\
  (CheckedSub I64 (MAX I64) (-2)) = None.
Proof. vm_compute. repeat split. Qed.

(** ops_test.go:177-194. *)
Example Test_CheckedSub_UnsignedInteger :
  (CheckedSub USize 100 27) = (Some 73) /\
  (CheckedSub USize 0 2) = None /\
  (CheckedSub U8 100 27) = (Some 73) /\
  (CheckedSub U8 0 2) = None /\
  (CheckedSub U16 100 27) = (Some 73) /\
  (CheckedSub U16 0 2) = None /\
  (CheckedSub U32 100 27) = (Some 73) /\
  (CheckedSub U32 0 2) = None /\
  (CheckedSub U64 100 27) = (Some 73) /\
  (CheckedSub U64 0 2) = None.
Proof. vm_compute. repeat split. Qed.

(** ops_test.go:196-218. *)
Example Test_CheckedMul_SignedInteger :
  (CheckedMul ISize 10 12) = (Some 120) /\
  (CheckedMul ISize (MAX ISize) 2) = None /\
  (CheckedMul ISize (MIN ISize) 2) = None /\
  (CheckedMul I8 11 5) = (Some 55) /\
  (CheckedMul I8 (MAX I8) 2) = None /\
  (CheckedMul I8 (MIN I8) 2) = None /\
  (CheckedMul I16 11 12) = (Some 132) /\
  (CheckedMul I16 (MAX I16) 2) = None /\
  (CheckedMul I16 (MIN I16) 2) = None /\
  (CheckedMul I32 11 12) = (Some 132) /\
  (CheckedMul I32 (MAX I32) 2) = None /\
  (CheckedMul I32 (MIN I32) 2) = None /\
  (CheckedMul I64 11 12) = (Some 132) /\
  (CheckedMul I64 (MAX I64) 2) = None /\
  (CheckedMul I64 (MIN I64) 2) = None.
Proof. vm_compute. repeat split. Qed.

(** ops_test.go:220-237. *)
Example Test_CheckedMul_UnsignedInteger :
  (CheckedMul USize 10 12) = (Some 120) /\
  (CheckedMul USize (MAX USize) 2) = None /\
  (CheckedMul U8 11 5) = (Some 55) /\
  (CheckedMul U8 (MAX U8) 2) = None /\
  (CheckedMul U16 11 12) = (Some 132) /\
  (CheckedMul U16 (MAX U16) 2) = None /\
  (CheckedMul U32 11 12) = (Some 132) /\
  (CheckedMul U32 (MAX U32) 2) = None /\
  (CheckedMul U64 11 12) = (Some 132) /\
  (CheckedMul U64 (MAX U64) 2) = None.
Proof. vm_compute. repeat split. Qed.

(** ops_test.go:239-261. *)
Example Test_CheckedDiv_SignedInteger :
  (CheckedDiv ISize 100 10) = (Ret (Some 10)) /\
  (CheckedDiv ISize (MIN ISize) 0) = (Ret None) /\
  (CheckedDiv ISize (MIN ISize) (-1)) = (Ret None) /\
  (CheckedDiv I8 100 10) = (Ret (Some 10)) /\
  (CheckedDiv I8 (MIN I8) 0) = (Ret None) /\
  (CheckedDiv I8 (MIN I8) (-1)) = (Ret None) /\
  (CheckedDiv I16 100 10) = (Ret (Some 10)) /\
  (CheckedDiv I16 (MIN I16) 0) = (Ret None) /\
  (CheckedDiv I16 (MIN I16) (-1)) = (Ret None) /\
  (CheckedDiv I32 100 10) = (Ret (Some 10)) /\
  (CheckedDiv I32 (MIN I32) 0) = (Ret None) /\
  (CheckedDiv I32 (MIN I32) (-1)) = (Ret None) /\
  (CheckedDiv I64 100 10) = (Ret (Some 10)) /\
  (CheckedDiv I64 (MIN I64) 0) = (Ret None) /\
  (CheckedDiv I64 (MIN I64) (-1)) = (Ret None).
Proof. vm_compute. repeat split. Qed.

(** ops_test.go:263-280. *)
Example Test_CheckedDiv_UnsignedInteger :
  (CheckedDiv USize 100 10) = (Ret (Some 10)) /\
  (CheckedDiv USize 100 0) = (Ret None) /\
  (CheckedDiv U8 100 10) = (Ret (Some 10)) /\
  (CheckedDiv U8 100 0) = (Ret None) /\
  (CheckedDiv U16 100 10) = (Ret (Some 10)) /\
  (CheckedDiv U16 100 0) = (Ret None) /\
  (CheckedDiv U32 100 10) = (Ret (Some 10)) /\
  (CheckedDiv U32 100 0) = (Ret None) /\
  (CheckedDiv U64 100 10) = (Ret (Some 10)) /\
  (CheckedDiv U64 100 0) = (Ret None).
Proof. vm_compute. repeat split. Qed.

(** ops_test.go:282-296. *)
Example Test_Pow_Integer :
  (Pow ISize 2 3) = (Ret 8) /\
  (Pow I8 2 3) = (Ret 8) /\
  (Pow I16 2 3) = (Ret 8) /\
  (Pow I32 2 3) = (Ret 8) /\
  (Pow I64 2 3) = (Ret 8) /\
  (Pow USize 2 3) = (Ret 8) /\
  (Pow U8 2 3) = (Ret 8) /\
  (Pow U16 2 3) = (Ret 8) /\
  (Pow U32 2 3) = (Ret 8) /\
  (Pow U64 2 3) = (Ret 8).
Proof. vm_compute. repeat split. Qed.

(** ops_test.go:298-320. *)
Example Test_SaturatingAdd_SignedInteger :
  (SaturatingAdd ISize 100 27) = 127 /\
  (SaturatingAdd ISize (MAX ISize) 2) = (MAX ISize) /\
  (SaturatingAdd ISize (MIN ISize) (-2)) = (MIN ISize) /\
  (SaturatingAdd I8 100 27) = 127 /\
  (SaturatingAdd I8 (MAX I8) 2) = (MAX I8) /\
  (SaturatingAdd I8 (MIN I8) (-2)) = (MIN I8) /\
  (SaturatingAdd I16 100 27) = 127 /\
  (SaturatingAdd I16 (MAX I16) 2) = (MAX I16) /\
  (SaturatingAdd I16 (MIN I16) (-2)) = (MIN I16) /\
  (SaturatingAdd I32 100 27) = 127 /\
  (SaturatingAdd I32 (MAX I32) 2) = (MAX I32) /\
  (SaturatingAdd I32 (MIN I32) (-2)) = (MIN I32) /\
  (SaturatingAdd I64 100 27) = 127 /\
  (SaturatingAdd I64 (MAX I64) 2) = (MAX I64) /\
  (SaturatingAdd I64 (MIN I64) (-2)) = (MIN I64).
Proof. vm_compute. repeat split. Qed.

(** ops_test.go:322-339. *)
Example Test_SaturatingAdd_UnsignedInteger :
  (SaturatingAdd USize 100 27) = 127 /\
  (SaturatingAdd USize (MAX USize) 200) = (MAX USize) /\
  (SaturatingAdd U8 100 27) = 127 /\
  (SaturatingAdd U8 (MAX U8) 200) = (MAX U8) /\
  (SaturatingAdd U16 100 27) = 127 /\
  (SaturatingAdd U16 (MAX U16) 200) = (MAX U16) /\
  (SaturatingAdd U32 100 27) = 127 /\
  (SaturatingAdd U32 (MAX U32) 200) = (MAX U32) /\
  (SaturatingAdd U64 100 27) = 127 /\
  (SaturatingAdd U64 (MAX U64) 200) = (MAX U64).
Proof. vm_compute. repeat split. Qed.

(** ops_test.go:341-363. *)
Example Test_SaturatingSub_SignedInteger :
  (SaturatingSub ISize 100 27) = 73 /\
  (SaturatingSub ISize (MIN ISize) 2) = (MIN ISize) /\
  (SaturatingSub ISize (MAX ISize) (-2)) = (MAX ISize) /\
  (SaturatingSub I8 100 27) = 73 /\
  (SaturatingSub I8 (MIN I8) 2) = (MIN I8) /\
  (SaturatingSub I8 (MAX I8) (-2)) = (MAX I8) /\
  (SaturatingSub I16 100 27) = 73 /\
  (SaturatingSub I16 (MIN I16) 2) = (MIN I16) /\
  (SaturatingSub I16 (MAX I16) (-2)) = (MAX I16) /\
  (SaturatingSub I32 100 27) = 73 /\
  (SaturatingSub I32 (MIN I32) 2) = (MIN I32) /\
  (SaturatingSub I32 (MAX I32) (-2)) = (MAX I32) /\
  (SaturatingSub I64 100 27) = 73 /\
  (SaturatingSub I64 (MIN I64) 2) = (MIN I64) /\
  (SaturatingSub I64 (MAX I64) (-2)) = (MAX I64).
Proof. vm_compute. repeat split. Qed.

(** ops_test.go:365-382. *)
Example Test_SaturatingSub_UnsignedInteger :
  (SaturatingSub USize 100 27) = 73 /\
  (SaturatingSub USize 0 2) = 0 /\
  (SaturatingSub U8 100 27) = 73 /\
  (SaturatingSub U8 0 2) = 0 /\
  (SaturatingSub U16 100 27) = 73 /\
  (SaturatingSub U16 0 2) = 0 /\
  (SaturatingSub U32 100 27) = 73 /\
  (SaturatingSub U32 0 2) = 0 /\
  (SaturatingSub U64 100 27) = 73 /\
  (SaturatingSub U64 0 2) = 0.
Proof. vm_compute. repeat split. Qed.

(** ops_test.go:384-406. *)
Example Test_SaturatingMul_SignedInteger :
  (SaturatingMul ISize 10 12) = 120 /\
  (SaturatingMul ISize (MAX ISize) 2) = (MAX ISize) /\
  (SaturatingMul ISize (MIN ISize) 2) = (MIN ISize) /\
  (SaturatingMul I8 11 5) = 55 /\
  (SaturatingMul I8 (MAX I8) 2) = (MAX I8) /\
  (SaturatingMul I8 (MIN I8) 2) = (MIN I8) /\
  (SaturatingMul I16 11 12) = 132 /\
  (SaturatingMul I16 (MAX I16) 2) = (MAX I16) /\
  (SaturatingMul I16 (MIN I16) 2) = (MIN I16) /\
  (SaturatingMul I32 11 12) = 132 /\
  (SaturatingMul I32 (MAX I32) 2) = (MAX I32) /\
  (SaturatingMul I32 (MIN I32) 2) = (MIN I32) /\
  (SaturatingMul I64 11 12) = 132 /\
  (SaturatingMul I64 (MAX I64) 2) = (MAX I64) /\
  (SaturatingMul I64 (MIN I64) 2) = (MIN I64).
Proof. vm_compute. repeat split. Qed.

(** ops_test.go:408-425. *)
Example Test_SaturatingMul_UnsignedInteger :
  (SaturatingMul USize 10 12) = 120 /\
  (SaturatingMul USize (MAX USize) 2) = (MAX USize) /\
  (SaturatingMul U8 11 5) = 55 /\
  (SaturatingMul U8 (MAX U8) 2) = (MAX U8) /\
  (SaturatingMul U16 11 12) = 132 /\
  (SaturatingMul U16 (MAX U16) 2) = (MAX U16) /\
  (SaturatingMul U32 11 12) = 132 /\
  (SaturatingMul U32 (MAX U32) 2) = (MAX U32) /\
  (SaturatingMul U64 11 12) = 132 /\
  (SaturatingMul U64 (MAX U64) 2) = (MAX U64).
Proof. vm_compute. repeat split. Qed.

(** ops_test.go:427-449. *)
Example Test_SaturatingDiv_SignedInteger :
  (SaturatingDiv ISize 100 10) = (Ret 10) /\
  (SaturatingDiv ISize (MAX ISize) (-1)) = (Ret ((MIN ISize) + 1)) /\
  (SaturatingDiv ISize (MIN ISize) (-1)) = (Ret (MAX ISize)) /\
  (SaturatingDiv I8 100 10) = (Ret 10) /\
  (SaturatingDiv I8 (MAX I8) (-1)) = (Ret ((MIN I8) + 1)) /\
  (SaturatingDiv I8 (MIN I8) (-1)) = (Ret (MAX I8)) /\
  (SaturatingDiv I16 100 10) = (Ret 10) /\
  (SaturatingDiv I16 (MAX I16) (-1)) = (Ret ((MIN I16) + 1)) /\
  (SaturatingDiv I16 (MIN I16) (-1)) = (Ret (MAX I16)) /\
  (SaturatingDiv I32 100 10) = (Ret 10) /\
  (SaturatingDiv I32 (MAX I32) (-1)) = (Ret ((MIN I32) + 1)) /\
  (SaturatingDiv I32 (MIN I32) (-1)) = (Ret (MAX I32)) /\
  (SaturatingDiv I64 100 10) = (Ret 10) /\
  (SaturatingDiv I64 (MAX I64) (-1)) = (Ret ((MIN I64) + 1)) /\
  (SaturatingDiv I64 (MIN I64) (-1)) = (Ret (MAX I64)).
Proof. vm_compute. repeat split. Qed.

(** ops_test.go:451-468. *)
Example Test_SaturatingDiv_UnsignedInteger :
  (SaturatingDiv USize 100 10) = (Ret 10) /\
  (SaturatingDiv USize 0 10) = (Ret 0) /\
  (SaturatingDiv U8 100 10) = (Ret 10) /\
  (SaturatingDiv U8 0 10) = (Ret 0) /\
  (SaturatingDiv U16 100 10) = (Ret 10) /\
  (SaturatingDiv U16 0 10) = (Ret 0) /\
  (SaturatingDiv U32 100 10) = (Ret 10) /\
  (SaturatingDiv U32 0 10) = (Ret 0) /\
  (SaturatingDiv U64 100 10) = (Ret 10) /\
  (SaturatingDiv U64 0 10) = (Ret 0).
Proof. vm_compute. repeat split. Qed.

(** ops_test.go:470-475. *)
Example Test_U128_Add :
  (U128_Add (U128_FromU64 10) (U128_FromU64 5)) = (U128_FromU64 15) /\
  (U128_Add (U128_FromU64 (MAX U64)) (U128_FromU64 1)) = (mkU 1 0).
Proof. vm_compute. repeat split. Qed.

(** ops_test.go:477-486. *)
Example Test_I128_Add :
  (I128_Add (I128_FromI64 10) (I128_FromI64 5)) = (I128_FromI64 15) /\
  (I128_Add (I128_FromI64 (MAX I64)) (I128_FromI64 1)) = (mkI 0 (wrap U64 ((wrap U64 (MAX I64)) + 1))) /\
  (I128_Add (I128_Add (I128_FromI64 (MAX I64)) (I128_FromI64 (MAX I64))) (I128_FromI64 2)) = (mkI 1 0) /\
  (I128_Add (I128_FromI64 (-10)) (I128_FromI64 (-5))) = (I128_FromI64 (-15)) /\
  (I128_Add (I128_FromI64 (MIN I64)) (I128_FromI64 (-1))) = (I128_Neg (I128_FromU64 (wrap U64 ((wrap U64 (Abs I64 (MIN I64))) + 1)))).
Proof. vm_compute. repeat split. Qed.

(** ops_test.go:488-493. *)
Example Test_U128_Sub :
  (U128_Sub (U128_FromU64 10) (U128_FromU64 5)) = (U128_FromU64 5) /\
  (U128_ToString (U128_Sub (U128_FromU64 5) (U128_FromU64 10))) = (zs "340282366920938463463374607431768211451").
Proof. vm_compute. repeat split. Qed.

(** ops_test.go:495-506. *)
Example Test_I128_Sub :
  (I128_Sub (I128_FromI64 10) (I128_FromI64 5)) = (I128_FromI64 5) /\
  (I128_Sub (I128_FromI64 5) (I128_FromI64 10)) = (I128_FromI64 (-5)) /\
  (I128_Sub (I128_FromI64 (-10)) (I128_FromI64 (-5))) = (I128_FromI64 (-5)) /\
  (I128_Sub (I128_FromI64 (-5)) (I128_FromI64 10)) = (I128_FromI64 (-15)) /\
  (I128_ToString (I128_Sub (mkI (MAX I64) (MAX U64)) (I128_FromI64 (-1)))) = (zs "-170141183460469231731687303715884105728") /\
  (I128_ToString (I128_Sub (mkI (MIN I64) 0) (I128_FromI64 1))) = (zs "170141183460469231731687303715884105727").
Proof. vm_compute. repeat split. Qed.

(** ops_test.go:508-518. *)
Example Test_I128_Mul :
  (I128_Mul (I128_FromI64 10) (I128_FromI64 5)) = (I128_FromI64 50) /\
  (I128_Mul (I128_FromI64 5) (I128_FromI64 10)) = (I128_FromI64 50) /\
  (I128_Mul (I128_FromI64 (-10)) (I128_FromI64 (-5))) = (I128_FromI64 50) /\
  (I128_Mul (I128_FromI64 (-5)) (I128_FromI64 10)) = (I128_FromI64 (-50)) /\
  (I128_ToString (I128_Mul (I128_FromU64 (MAX U64)) (I128_FromI64 2))) = (zs "36893488147419103230").
Proof. vm_compute. repeat split. Qed.

(** ops_test.go:520-527. *)
Example Test_U128_Mul :
  (U128_Mul (U128_FromU64 10) (U128_FromU64 5)) = (U128_FromU64 50) /\
  (U128_Mul (U128_FromU64 5) (U128_FromU64 10)) = (U128_FromU64 50) /\
  (U128_ToString (U128_Mul (U128_FromU64 (MAX U64)) (U128_FromU64 2))) = (zs "36893488147419103230").
Proof. vm_compute. repeat split. Qed.

(** ops_test.go:529-543. *)
Example Test_I128_Div :
  (I128_Div (I128_FromI64 10) (I128_FromI64 5)) = (Ret (I128_FromI64 2)) /\
  (I128_Div (I128_FromI64 5) (I128_FromI64 10)) = (Ret (I128_FromI64 0)) /\
  (I128_Div (I128_FromI64 (-10)) (I128_FromI64 (-5))) = (Ret (I128_FromI64 2)) /\
  (I128_Div (I128_FromI64 (-5)) (I128_FromI64 10)) = (Ret (I128_FromI64 0)) /\
  (I128_Div (I128_FromI64 (-10)) (I128_FromI64 5)) = (Ret (I128_FromI64 (-2))) /\
  (I128_Div (I128_FromI64 5) (I128_FromI64 (-10))) = (Ret (I128_FromI64 0)) /\
  (v <- (I128_Div (I128_Mul (I128_FromU64 (MAX U64)) (I128_FromI64 2)) (I128_FromI64 2)) ;; Ret (I128_ToString v)) = (Ret (zs "18446744073709551615")) /\
  (v <- (I128_Div (I128_FromU64 (MAX U64)) (I128_FromI64 2)) ;; Ret (I128_ToString v)) = (Ret (zs "9223372036854775807")).
Proof. vm_compute. repeat split. Qed.

(** ops_test.go:545-553. *)
Example Test_U128_Div :
  (U128_Div (U128_FromU64 10) (U128_FromU64 5)) = (Ret (U128_FromU64 2)) /\
  (U128_Div (U128_FromU64 5) (U128_FromU64 10)) = (Ret (U128_FromU64 0)) /\
  (v <- (U128_Div (U128_Mul (U128_FromU64 (MAX U64)) (U128_FromU64 2)) (U128_FromU64 2)) ;; Ret (U128_ToString v)) = (Ret (zs "18446744073709551615")) /\
  (v <- (U128_Div (U128_FromU64 (MAX U64)) (U128_FromU64 2)) ;; Ret (U128_ToString v)) = (Ret (zs "9223372036854775807")).
Proof. vm_compute. repeat split. Qed.

(** ops_test.go:555-566. *)
Example Test_I128_Rem :
  (I128_Rem (I128_FromI64 10) (I128_FromI64 5)) = (Ret (I128_FromI64 0)) /\
  (I128_Rem (I128_FromI64 5) (I128_FromI64 10)) = (Ret (I128_FromI64 5)) /\
  (I128_Rem (I128_FromI64 (-10)) (I128_FromI64 (-5))) = (Ret (I128_FromI64 0)) /\
  (I128_Rem (I128_FromI64 (-5)) (I128_FromI64 10)) = (Ret (I128_FromI64 (-5))) /\
  (I128_Rem (I128_FromI64 (-10)) (I128_FromI64 5)) = (Ret (I128_FromI64 0)) /\
  (I128_Rem (I128_FromI64 5) (I128_FromI64 (-10))) = (Ret (I128_FromI64 (-5))).
Proof. vm_compute. repeat split. Qed.

(** ops_test.go:568-573. *)
Example Test_U128_Rem :
  (U128_Rem (U128_FromU64 10) (U128_FromU64 5)) = (Ret (U128_FromU64 0)) /\
  (U128_Rem (U128_FromU64 5) (U128_FromU64 10)) = (Ret (U128_FromU64 5)).
Proof. vm_compute. repeat split. Qed.

(** ops_test.go:575-580. *)
Example Test_I128_Neg :
  (I128_ToString (I128_Neg (I128_FromI64 10))) = (zs "-10") /\
  (I128_ToString (I128_Neg (I128_FromI64 (-10)))) = (zs "10").
Proof. vm_compute. repeat split. Qed.


(** *** bitwise_test.go *)

(** bitwise_test.go:5-10. *)
Example Test_I128_Shl :
  (I128_ToString (I128_Shl (I128_FromU64 (MAX U64)) (I128_FromI64 1))) = (zs "36893488147419103230") /\
  (I128_ToString (I128_Shl (I128_FromU64 30) (I128_FromI64 1))) = (zs "60").
Proof. vm_compute. repeat split. Qed.

(** bitwise_test.go:12-17. *)
Example Test_U128_Shl :
  (U128_ToString (U128_Shl (U128_FromU64 (MAX U64)) (U128_FromU64 1))) = (zs "36893488147419103230") /\
  (U128_ToString (U128_Shl (U128_FromU64 30) (U128_FromU64 1))) = (zs "60").
Proof. vm_compute. repeat split. Qed.

(** bitwise_test.go:19-24. *)
Example Test_I128_Shr :
  (I128_Shr (I128_Shl (I128_FromU64 (MAX U64)) (I128_FromI64 1)) (I128_FromI64 1)) = (I128_FromU64 (MAX U64)) /\
  (I128_ToString (I128_Shr (I128_FromU64 60) (I128_FromI64 1))) = (zs "30").
Proof. vm_compute. repeat split. Qed.

(** bitwise_test.go:26-31. *)
Example Test_U128_Shr :
  (U128_Shr (U128_Shl (U128_FromU64 (MAX U64)) (U128_FromU64 1)) (U128_FromU64 1)) = (U128_FromU64 (MAX U64)) /\
  (U128_ToString (U128_Shr (U128_FromU64 60) (U128_FromU64 1))) = (zs "30").
Proof. vm_compute. repeat split. Qed.


(** *** float_test.go *)

(** float_test.go:7-17. *)
Example Test_F32_Floor :
  (F32_Floor (lit32 (37) 10)) = (lit32 (30) 10) /\
  (F32_Floor (lit32 (30) 10)) = (lit32 (30) 10) /\
  (F32_Floor (lit32 (-37) 10)) = (lit32 (-40) 10).
Proof. vm_compute. repeat split. Qed.

(** float_test.go:19-29. *)
Example Test_F64_Floor :
  (F64_Floor (lit64 (37) 10)) = (lit64 (30) 10) /\
  (F64_Floor (lit64 (30) 10)) = (lit64 (30) 10) /\
  (F64_Floor (lit64 (-37) 10)) = (lit64 (-40) 10).
Proof. vm_compute. repeat split. Qed.

(** float_test.go:31-39. *)
Example Test_F32_Ceil :
  (F32_Ceil (lit32 (301) 100)) = (lit32 (40) 10) /\
  (F32_Ceil (lit32 (40) 10)) = (lit32 (40) 10).
Proof. vm_compute. repeat split. Qed.

(** float_test.go:41-49. *)
Example Test_F64_Ceil :
  (F64_Ceil (lit64 (301) 100)) = (lit64 (40) 10) /\
  (F64_Ceil (lit64 (40) 10)) = (lit64 (40) 10).
Proof. vm_compute. repeat split. Qed.

(** float_test.go:51-65. *)
Example Test_F32_Round :
  (F32_Round (lit32 (33) 10)) = (lit32 (30) 10) /\
  (F32_Round (lit32 (-33) 10)) = (lit32 (-30) 10) /\
  (F32_Round (lit32 (-37) 10)) = (lit32 (-40) 10) /\
  (F32_Round (lit32 (35) 10)) = (lit32 (40) 10) /\
  (F32_Round (lit32 (45) 10)) = (lit32 (50) 10).
Proof. vm_compute. repeat split. Qed.

(** float_test.go:67-81. *)
Example Test_F64_Round :
  (F64_Round (lit64 (33) 10)) = (lit64 (30) 10) /\
  (F64_Round (lit64 (-33) 10)) = (lit64 (-30) 10) /\
  (F64_Round (lit64 (-37) 10)) = (lit64 (-40) 10) /\
  (F64_Round (lit64 (35) 10)) = (lit64 (40) 10) /\
  (F64_Round (lit64 (45) 10)) = (lit64 (50) 10).
Proof. vm_compute. repeat split. Qed.

(** float_test.go:83-91. *)
Example Test_F32_Abs :
  (F32_Abs (lit32 (-30) 10)) = (lit32 (30) 10) /\
  (F32_Abs (lit32 (30) 10)) = (lit32 (30) 10).
Proof. vm_compute. repeat split. Qed.

(** float_test.go:93-101. *)
Example Test_F64_Abs :
  (F64_Abs (lit64 (-30) 10)) = (lit64 (30) 10) /\
  (F64_Abs (lit64 (30) 10)) = (lit64 (30) 10).
Proof. vm_compute. repeat split. Qed.

(** float_test.go:103-111. *)
Example Test_F32_Trunc :
  (F32_Trunc (lit32 (37) 10)) = (lit32 (30) 10) /\
  (F32_Trunc (lit32 (-30) 10)) = (lit32 (-30) 10).
Proof. vm_compute. repeat split. Qed.

(** float_test.go:113-121. *)
Example Test_F64_Trunc :
  (F64_Trunc (lit64 (37) 10)) = (lit64 (30) 10) /\
  (F64_Trunc (lit64 (-30) 10)) = (lit64 (-30) 10).
Proof. vm_compute. repeat split. Qed.
