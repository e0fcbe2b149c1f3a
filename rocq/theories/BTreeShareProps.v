(** BTreeShareProps.v -- C105 for B-tree maps after any history: what the variable shows after
    any operation through the reference that AsRef returns. *)
From Verif Require Import Base BaseLemmas Effect CmpSpec VecSpec VecProps HashModel BTreeModel BTreeSpec BTreeHistory BTreeProofs BTreeTreeSpec BTreeTreeRunProofs
  BTreeProgSpec BTreeShareSpec BTreeShareProofs.
From Verif Require VarModel.
Local Open Scope nat_scope.

(** [run] makes the map m; its state is t (C54_all_histories_characterised).  The operation o
    goes through the reference.  If the variable sees the whole tree it goes on as a machine
    in that state, for all operations; if it has a leaf left, this is what it reads there. *)
Theorem C105_btree_characterised : forall K V (cmp : K -> K -> ordering)
  (ops : list (bop K V)) h0 t answers, tree_run cmp (One no_slots) ops = Some (t, answers) ->
  exists m h, run cmp BTreeMapNew ops h0 = Ret ((m, answers), h) /\
  forall o,
  match tree_step cmp t o with
  | None => exec cmp (VarModel.BTree_AsRef m) o h = Panic
  | Some (t', a) =>
      exists r h', exec cmp (VarModel.BTree_AsRef m) o h = Ret ((r, a), h') /\
      match seen cmp t o t' with
      | Whole u => forall ops',
          match tree_run cmp u ops' with
          | None => run cmp m ops' h' = Panic
          | Some (_, rs) => exists m' h'', run cmp m ops' h' = Ret ((m', rs), h'')
          end
      | Leaf c n => forall q, match q with BInsert _ _ | BRemove _ | BClear => False | _ => True end ->
          exec cmp m q h' = Ret ((m, leaf_answer cmp c n q), h')
      end
  end.
Proof.
  intros K V cmp ops h0 t rs E. pose proof (run_tree cmp ops h0 BTreeMapNew (One no_slots) (rep_new h0)) as R. rewrite E in R.
  destruct R as (h & m & EX & TA). exists m, h. split; [exact EX|]. intros o. unfold VarModel.BTree_AsRef.
  pose proof (step_tree cmp h m t o TA) as ST. destruct (tree_step cmp t o) as [[t' a]|] eqn:STE; [|exact ST].
  destruct ST as (h' & r & EO & TA'). exists r, h'. split; [exact EO|]. pose proof (seen_at cmp h m t o t' a r h' TA STE EO TA') as W.
  destruct (seen cmp t o t') as [u|c n].
  - intros ops'. pose proof (run_tree cmp ops' h' m u W) as R2. destruct (tree_run cmp u ops') as [[u' rs']|]; [|exact R2].
    destruct R2 as (h2 & m2 & E2 & _). eauto.
  - intros q RD. exact (leaf_reads cmp h' m c n q W RD).
Qed.
Print Assumptions C105_btree_characterised.

(** A removal through the reference: the variable sees it but still counts three; the removal
    of the last key leaves a variable that says 1, lists no key and still finds the key; an
    insertion beyond eleven keys leaves the variable with eleven others. *)
Definition pairs_of (l : list Z) : list (bop Z Z) := map (fun z => BInsert z (10 * z)%Z) l.
Example C105_btree_nonvacuous :
  (exists t rs t' a u, tree_run cmpZ (One no_slots) (pairs_of [1; 2; 3]%Z) = Some (t, rs) /\ tree_step cmpZ t (BRemove 2%Z) = Some (t', a) /\
     seen cmpZ t (BRemove 2%Z) t' = Whole u /\
     option_map snd (tree_run cmpZ u [BLen; BKeys; BGet 2; BInsert 5 50; BLen; BRemove 1; BKeys]%Z) =
       Some [Number 3; KeyList [1; 3]; Value None; Value None; Number 4; Value (Some 30); KeyList [3; 5]]%Z) /\
  (exists t rs t' a c, tree_run cmpZ (One no_slots) (pairs_of [7]%Z) = Some (t, rs) /\ tree_step cmpZ t (BRemove 7%Z) = Some (t', a) /\
     seen cmpZ t (BRemove 7%Z) t' = Leaf c 1 /\
     map (leaf_answer cmpZ c 1) [BLen; BKeys; BGet 7; BEntries]%Z = [Number 1; KeyList []; Value (Some 70); Entries [(7, 70)]]%Z) /\
  (exists t rs t' a c, tree_run cmpZ (One no_slots) (pairs_of [1; 2; 3; 4; 5; 6; 7; 8; 9; 10; 11]%Z) = Some (t, rs) /\
     tree_step cmpZ t (BInsert 0 0)%Z = Some (t', a) /\ seen cmpZ t (BInsert 0 0)%Z t' = Leaf c 11 /\
     map (leaf_answer cmpZ c 11) [BLen; BKeys]%Z = [Number 11; KeyList [0; 1; 2; 3; 4; 5; 6; 7; 8; 9; 10]]%Z).
Proof.
  split; [|split]; do 5 eexists; (split; [vm_compute; reflexivity|]); (split; [vm_compute; reflexivity|]); (split; [vm_compute; reflexivity|]); vm_compute; reflexivity.
Qed.
