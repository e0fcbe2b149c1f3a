(** CodeTreeProps.v -- C119 for every history of a B-tree map. *)
From Verif Require Import Base BaseLemmas Effect BTreeModel BTreeSpec BTreeProofs BTreeTreeSpec BTreeTreeRunProofs CodeSpec CodeTreeSpec CodeTreeModel CodeTreeProofs.

(** Whatever integers the comparison answers, as long as the answer for a key and itself is one of
    the three constants: a map answers as the machine of CodeTreeSpec.v does, and it panics
    exactly when the machine has no step. *)
Theorem C119_btree_all_histories_characterised : forall K V (same : forall a b : K, {a = b} + {a <> b}) (cmp : K -> K -> Z),
  (forall k, proper (cmp k k)) -> forall (ops : list (bop K V)) h,
  match code_tree_run same cmp (One no_slots) ops with
  | None => code_run cmp BTreeMapNew ops h = Panic
  | Some (_, answers) => exists m h', code_run cmp BTreeMapNew ops h = Ret ((m, answers), h')
  end.
Proof.
  intros K V same cmp self ops h. assert (R := code_run_tree same cmp self ops h BTreeMapNew (One no_slots) (rep_new h)).
  destruct (code_tree_run same cmp (One no_slots) ops) as [[t rs]|]; [|exact R]. destruct R as (h' & m & E & _). eauto.
Qed.
Print Assumptions C119_btree_all_histories_characterised.

(** So every call comes to an end. *)
Theorem C119_btree_terminates : forall K V (same : forall a b : K, {a = b} + {a <> b}) (cmp : K -> K -> Z),
  (forall k, proper (cmp k k)) -> forall (ops : list (bop K V)) h, code_run cmp BTreeMapNew ops h <> Diverge.
Proof.
  intros K V same cmp self ops h. assert (C := C119_btree_all_histories_characterised K V same cmp self ops h).
  destruct (code_tree_run same cmp (One no_slots) ops) as [[t rs]|]; [destruct C as (m & h' & ->)|rewrite C]; discriminate.
Qed.
Print Assumptions C119_btree_terminates.

(** With the three constants only, the three readings of the machine are the comparison itself
    (and the machine the one of C54). *)
Theorem C119_readings_partial : forall K (same : forall a b : K, {a = b} + {a <> b}) (cmp : K -> K -> ordering) k a b,
  let c := fun a b => code_of (cmp a b) in
  finding c a b = cmp a b /\ inserting same c k a b = cmp a b /\ removing c a b = cmp a b.
Proof.
  intros K same cmp k a b. cbv zeta. unfold finding, inserting, removing, via. destruct (same a k); destruct (cmp a b); repeat split; reflexivity.
Qed.
Print Assumptions C119_readings_partial.

(** Comparison by subtraction: 20 is taken a second time and not found, 30 is not removed, and
    removing 10 answers with the value of the next key; thirteen keys make a map of two levels. *)
Example C119_btree_all_histories_nonvacuous :
  (forall k, proper (difference k k)) /\
  (exists t, code_tree_run Z.eq_dec difference (One no_slots)
     [BInsert 10 1; BInsert 20 2; BInsert 30 3; BInsert 20 4; BKeys; BGet 20; BGet 10; BGet 11; BRemove 30; BRemove 10; BKeys; BLen]%Z =
     Some (t, [Value None; Value None; Value None; Value None; KeyList [10; 20; 30; 20]; Value None; Value (Some 1); Value None;
               Value None; Value (Some 2); KeyList [20; 30; 20]; Number 3]%Z)) /\
  (exists t, code_tree_run Z.eq_dec difference (One no_slots)
     (map (fun k => BInsert (10 * k) k)%Z [1; 2; 3; 4; 5; 6; 7; 8; 9; 10; 11; 12; 13]%Z ++ [BRemove 120; BGet 10; BLen]%Z) =
     Some (t, repeat (Value None) 13 ++ [Value None; Value (Some 1); Number 13]%Z)).
Proof.
  split; [intros k; exists Equal; unfold difference; cbn; lia|]. split; vm_compute; eexists; reflexivity.
Qed.
