(** RepoSetTests.v -- the assertions of hash_set_test.go and btree_set_test.go (42 of them),
    translated by tools/repo_set_tests.py and computed in the model: tests of the model's
    fidelity, not proofs.  Maps are visited in the order of insertion; that the answers do not
    depend on the order is C53. *)
From Coq Require Import ZArith List Bool.
From Verif Require Import Base Effect HashModel.
Import ListNotations.
Definition ids (m : list (Z * unit)) : list (Z * unit) := m.
Local Open Scope Z_scope.

(** hash_set_test.go:5-19. *)
Example Test_HashSet_IsSubset : (
    let set1 := HashSetNew : HashSet Z in
    let r := sInsert Z.eqb set1 1 in
    let set1 := fst r in
    let r := sInsert Z.eqb set1 2 in
    let set1 := fst r in
    let set2 := HashSetNew : HashSet Z in
    let r := sInsert Z.eqb set2 1 in
    let set2 := fst r in
    let r := sInsert Z.eqb set2 2 in
    let set2 := fst r in
    let r := sInsert Z.eqb set2 3 in
    let set2 := fst r in
    let b0 := IsSubset Z.eqb ids set1 set2 in
    let b1 := IsSubset Z.eqb ids set2 set1 in
    [b0; negb b1]) = [true; true].
Proof. vm_compute. reflexivity. Qed.

(** hash_set_test.go:21-35. *)
Example Test_HashSet_IsSuperset : (
    let set1 := HashSetNew : HashSet Z in
    let r := sInsert Z.eqb set1 1 in
    let set1 := fst r in
    let r := sInsert Z.eqb set1 2 in
    let set1 := fst r in
    let set2 := HashSetNew : HashSet Z in
    let r := sInsert Z.eqb set2 1 in
    let set2 := fst r in
    let r := sInsert Z.eqb set2 2 in
    let set2 := fst r in
    let r := sInsert Z.eqb set2 3 in
    let set2 := fst r in
    let b0 := IsSuperset Z.eqb ids set2 set1 in
    let b1 := IsSuperset Z.eqb ids set1 set2 in
    [b0; negb b1]) = [true; true].
Proof. vm_compute. reflexivity. Qed.

(** hash_set_test.go:37-57. *)
Example Test_HashSet_Intersection : (
    let set1 := HashSetNew : HashSet Z in
    let r := sInsert Z.eqb set1 1 in
    let set1 := fst r in
    let r := sInsert Z.eqb set1 2 in
    let set1 := fst r in
    let r := sInsert Z.eqb set1 5 in
    let set1 := fst r in
    let set2 := HashSetNew : HashSet Z in
    let r := sInsert Z.eqb set2 1 in
    let set2 := fst r in
    let r := sInsert Z.eqb set2 2 in
    let set2 := fst r in
    let r := sInsert Z.eqb set2 3 in
    let set2 := fst r in
    let intersection := Intersection Z.eqb ids set1 set2 in
    let b0 := Contains Z.eqb intersection 1 in
    let b1 := Contains Z.eqb intersection 2 in
    let b2 := Contains Z.eqb intersection 3 in
    let b3 := Contains Z.eqb intersection 5 in
    [(sLen intersection =? 2)%Z; b0; b1; negb b2; negb b3]) = [true; true; true; true; true].
Proof. vm_compute. reflexivity. Qed.

(** hash_set_test.go:59-76. *)
Example Test_HashSet_IsDisjoint : (
    let set1 := HashSetNew : HashSet Z in
    let r := sInsert Z.eqb set1 1 in
    let set1 := fst r in
    let r := sInsert Z.eqb set1 2 in
    let set1 := fst r in
    let set2 := HashSetNew : HashSet Z in
    let r := sInsert Z.eqb set2 3 in
    let set2 := fst r in
    let r := sInsert Z.eqb set2 4 in
    let set2 := fst r in
    let b0 := IsDisjoint Z.eqb ids set1 set2 in
    let b1 := IsDisjoint Z.eqb ids set2 set1 in
    let r := sInsert Z.eqb set2 2 in
    let set2 := fst r in
    let b2 := IsDisjoint Z.eqb ids set1 set2 in
    let b3 := IsDisjoint Z.eqb ids set2 set1 in
    [b0; b1; negb b2; negb b3]) = [true; true; true; true].
Proof. vm_compute. reflexivity. Qed.

(** hash_set_test.go:78-97. *)
Example Test_HashSet_Union : (
    let set1 := HashSetNew : HashSet Z in
    let r := sInsert Z.eqb set1 1 in
    let set1 := fst r in
    let r := sInsert Z.eqb set1 2 in
    let set1 := fst r in
    let r := sInsert Z.eqb set1 3 in
    let set1 := fst r in
    let set2 := HashSetNew : HashSet Z in
    let r := sInsert Z.eqb set2 3 in
    let set2 := fst r in
    let r := sInsert Z.eqb set2 4 in
    let set2 := fst r in
    let union := Union Z.eqb ids ids set1 set2 in
    let b0 := Contains Z.eqb union 1 in
    let b1 := Contains Z.eqb union 2 in
    let b2 := Contains Z.eqb union 3 in
    let b3 := Contains Z.eqb union 4 in
    [(sLen union =? 4)%Z; b0; b1; b2; b3]) = [true; true; true; true; true].
Proof. vm_compute. reflexivity. Qed.

(** hash_set_test.go:99-117. *)
Example Test_HashSet_SymmetricDifference : (
    let set1 := HashSetNew : HashSet Z in
    let r := sInsert Z.eqb set1 1 in
    let set1 := fst r in
    let r := sInsert Z.eqb set1 2 in
    let set1 := fst r in
    let r := sInsert Z.eqb set1 5 in
    let set1 := fst r in
    let set2 := HashSetNew : HashSet Z in
    let r := sInsert Z.eqb set2 1 in
    let set2 := fst r in
    let r := sInsert Z.eqb set2 2 in
    let set2 := fst r in
    let r := sInsert Z.eqb set2 3 in
    let set2 := fst r in
    let diff := SymmetricDifference Z.eqb ids ids set1 set2 in
    let b0 := Contains Z.eqb diff 3 in
    let b1 := Contains Z.eqb diff 5 in
    [(sLen diff =? 2)%Z; b0; b1]) = [true; true; true].
Proof. vm_compute. reflexivity. Qed.

From Verif Require Import BTreeModel CmpModel VecProps.
Definition answers {A} (m : M (heap Z unit) A) : out A := r <- m [] ;; Ret (fst r).

(** btree_set_test.go:5-17. *)
Example Test_BTreeSet_IsSubset : answers (
    let set1 := BTreeSetNew in
    r <~ sInsert cmpZ set1 1 ;;
    let set1 := fst r in
    r <~ sInsert cmpZ set1 2 ;;
    let set1 := fst r in
    let set2 := BTreeSetNew in
    r <~ sInsert cmpZ set2 1 ;;
    let set2 := fst r in
    r <~ sInsert cmpZ set2 2 ;;
    let set2 := fst r in
    r <~ sInsert cmpZ set2 3 ;;
    let set2 := fst r in
    b0 <~ reading (IsSubset cmpZ set1 set2) ;;
    b1 <~ reading (IsSubset cmpZ set2 set1) ;;
    mret [b0; negb b1]) = Ret [true; true].
Proof. vm_compute. reflexivity. Qed.

(** btree_set_test.go:19-31. *)
Example Test_BTreeSet_IsSuperset : answers (
    let set1 := BTreeSetNew in
    r <~ sInsert cmpZ set1 1 ;;
    let set1 := fst r in
    r <~ sInsert cmpZ set1 2 ;;
    let set1 := fst r in
    let set2 := BTreeSetNew in
    r <~ sInsert cmpZ set2 1 ;;
    let set2 := fst r in
    r <~ sInsert cmpZ set2 2 ;;
    let set2 := fst r in
    r <~ sInsert cmpZ set2 3 ;;
    let set2 := fst r in
    b0 <~ reading (IsSuperset cmpZ set2 set1) ;;
    b1 <~ reading (IsSuperset cmpZ set1 set2) ;;
    mret [b0; negb b1]) = Ret [true; true].
Proof. vm_compute. reflexivity. Qed.

(** btree_set_test.go:33-51. *)
Example Test_BTreeSet_Intersection : answers (
    let set1 := BTreeSetNew in
    r <~ sInsert cmpZ set1 1 ;;
    let set1 := fst r in
    r <~ sInsert cmpZ set1 2 ;;
    let set1 := fst r in
    r <~ sInsert cmpZ set1 5 ;;
    let set1 := fst r in
    let set2 := BTreeSetNew in
    r <~ sInsert cmpZ set2 1 ;;
    let set2 := fst r in
    r <~ sInsert cmpZ set2 2 ;;
    let set2 := fst r in
    r <~ sInsert cmpZ set2 3 ;;
    let set2 := fst r in
    intersection <~ Intersection cmpZ set1 set2 ;;
    b0 <~ reading (Contains cmpZ intersection 1) ;;
    b1 <~ reading (Contains cmpZ intersection 2) ;;
    b2 <~ reading (Contains cmpZ intersection 3) ;;
    b3 <~ reading (Contains cmpZ intersection 5) ;;
    mret [(sLen intersection =? 2)%Z; b0; b1; negb b2; negb b3]) = Ret [true; true; true; true; true].
Proof. vm_compute. reflexivity. Qed.

(** btree_set_test.go:53-68. *)
Example Test_BTreeSet_IsDisjoint : answers (
    let set1 := BTreeSetNew in
    r <~ sInsert cmpZ set1 1 ;;
    let set1 := fst r in
    r <~ sInsert cmpZ set1 2 ;;
    let set1 := fst r in
    let set2 := BTreeSetNew in
    r <~ sInsert cmpZ set2 3 ;;
    let set2 := fst r in
    r <~ sInsert cmpZ set2 4 ;;
    let set2 := fst r in
    b0 <~ reading (IsDisjoint cmpZ set1 set2) ;;
    b1 <~ reading (IsDisjoint cmpZ set2 set1) ;;
    r <~ sInsert cmpZ set2 2 ;;
    let set2 := fst r in
    b2 <~ reading (IsDisjoint cmpZ set1 set2) ;;
    b3 <~ reading (IsDisjoint cmpZ set2 set1) ;;
    mret [b0; b1; negb b2; negb b3]) = Ret [true; true; true; true].
Proof. vm_compute. reflexivity. Qed.

(** btree_set_test.go:70-87. *)
Example Test_BTreeSet_Union : answers (
    let set1 := BTreeSetNew in
    r <~ sInsert cmpZ set1 1 ;;
    let set1 := fst r in
    r <~ sInsert cmpZ set1 2 ;;
    let set1 := fst r in
    r <~ sInsert cmpZ set1 3 ;;
    let set1 := fst r in
    let set2 := BTreeSetNew in
    r <~ sInsert cmpZ set2 3 ;;
    let set2 := fst r in
    r <~ sInsert cmpZ set2 4 ;;
    let set2 := fst r in
    union <~ Union cmpZ set1 set2 ;;
    b0 <~ reading (Contains cmpZ union 1) ;;
    b1 <~ reading (Contains cmpZ union 2) ;;
    b2 <~ reading (Contains cmpZ union 3) ;;
    b3 <~ reading (Contains cmpZ union 4) ;;
    mret [(sLen union =? 4)%Z; b0; b1; b2; b3]) = Ret [true; true; true; true; true].
Proof. vm_compute. reflexivity. Qed.

(** btree_set_test.go:89-105. *)
Example Test_BTreeSet_SymmetricDifference : answers (
    let set1 := BTreeSetNew in
    r <~ sInsert cmpZ set1 1 ;;
    let set1 := fst r in
    r <~ sInsert cmpZ set1 2 ;;
    let set1 := fst r in
    r <~ sInsert cmpZ set1 5 ;;
    let set1 := fst r in
    let set2 := BTreeSetNew in
    r <~ sInsert cmpZ set2 1 ;;
    let set2 := fst r in
    r <~ sInsert cmpZ set2 2 ;;
    let set2 := fst r in
    r <~ sInsert cmpZ set2 3 ;;
    let set2 := fst r in
    diff <~ SymmetricDifference cmpZ set1 set2 ;;
    b0 <~ reading (Contains cmpZ diff 3) ;;
    b1 <~ reading (Contains cmpZ diff 5) ;;
    mret [(sLen diff =? 2)%Z; b0; b1]) = Ret [true; true; true].
Proof. vm_compute. reflexivity. Qed.
