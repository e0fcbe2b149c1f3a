(** BTreeTreeProps.v -- every history of a B-tree map. *)
From Verif Require Import Base BaseLemmas Effect CmpSpec VecSpec HashModel BTreeModel BTreeSpec BTreeHistory BTreeProofs BTreeTreeSpec BTreeTreeRunProofs VecProps.
Local Open Scope nat_scope.

(** C54-C57: whatever is done to a map, it answers as the machine of BTreeTreeSpec.v does,
    and it panics exactly when the machine has no step. *)
Theorem C54_all_histories_characterised : forall K V (cmp : K -> K -> ordering)
  (ops : list (bop K V)) h,
  match tree_run cmp (One no_slots) ops with
  | None => run cmp BTreeMapNew ops h = Panic
  | Some (_, answers) => exists m h', run cmp BTreeMapNew ops h = Ret ((m, answers), h')
  end.
Proof.
  intros K V cmp ops h. assert (R := run_tree cmp ops h BTreeMapNew (One no_slots) (rep_new h)).
  destruct (tree_run cmp (One no_slots) ops) as [[t rs]|]; [|exact R]. destruct R as (h' & m & E & _). eauto.
Qed.
Print Assumptions C54_all_histories_characterised.

(** The map 10, 20, ..., 130, of two levels, and removals from it: the first one answers
    with the value of the next key, the second one does not find 120, the last one panics. *)
Definition tens (l : list Z) : list (bop Z Z) := map (fun z => BInsert (10 * z)%Z (10 * z + 1)%Z) l.
Example C54_all_histories_nonvacuous :
  let ops := tens [13; 12; 11; 10; 9; 8; 7; 6; 5; 4; 3; 2; 1]%Z ++ [BRemove 20; BGet 20; BInsert 35 36; BRemove 120; BGet 110; BLen; BKeys]%Z in
  (exists t, tree_run cmpZ (One no_slots) ops =
     Some (t, repeat (Value None) 13 ++ [Value (Some 31); Value None; Value None; Value None; Value (Some 111); Number 13;
                                         KeyList [10; 30; 35; 40; 50; 60; 70; 80; 90; 100; 110; 120; 130]]%Z)) /\
  tree_run cmpZ (One no_slots) (ops ++ [BRemove 110; BRemove 40]%Z) = None.
Proof. vm_compute. split; [eexists; reflexivity|reflexivity]. Qed.

(** C102: every operation of every history comes to an end. *)
Theorem C102_terminates : forall K V (cmp : K -> K -> ordering)
  (ops : list (bop K V)) h, run cmp BTreeMapNew ops h <> Diverge.
Proof.
  intros K V cmp ops h. assert (C := C54_all_histories_characterised K V cmp ops h).
  destruct (tree_run cmp (One no_slots) ops) as [[t rs]|]; [destruct C as (m & h' & ->)|rewrite C]; discriminate.
Qed.
Print Assumptions C102_terminates.
(** Reading a map that has come this far and clearing it succeed. *)
Theorem C102_reading : forall K V (cmp : K -> K -> ordering)
  (ops : list (bop K V)) h0 m rs h, run cmp BTreeMapNew ops h0 = Ret ((m, rs), h) ->
  forall o, match o with BInsert _ _ | BRemove _ => False | _ => True end ->
  exists m' a, exec cmp m o h = Ret ((m', a), h) /\ match o with BClear => m' = BTreeMapNew | _ => m' = m end.
Proof.
  intros K V cmp ops h0 m rs h E o RD. assert (R := run_tree cmp ops h0 BTreeMapNew (One no_slots) (rep_new h0)).
  destruct (tree_run cmp (One no_slots) ops) as [[t rs']|]; [|congruence]. destruct R as (h' & m' & E' & TA).
  assert (X : (m', rs', h') = (m, rs, h)) by congruence. injection X as -> -> ->. assert (ST := step_tree cmp h m t o TA).
  assert (OK : tree_step cmp t o <> None).
  { destruct t; destruct o; try destruct RD; cbn; try discriminate. }
  destruct (tree_step cmp t o) as [[t' a]|]; [|congruence]. destruct ST as (h1 & m1 & EX & _).
  destruct o; try destruct RD; cbn [exec] in EX |- *; unfold asking, mret in EX |- *;
    try match type of EX with context [bind ?x _] => destruct x; cbn [bind] in EX |- *; try discriminate end; eauto.
Qed.
Print Assumptions C102_reading.
(** A map that was cleared answers as a new one does. *)
Theorem C102_clear : forall K V (cmp : K -> K -> ordering)
  (ops ops' : list (bop K V)) h0 m rs h, run cmp BTreeMapNew ops h0 = Ret ((m, rs), h) ->
  match run cmp BTreeMapNew ops' [] with
  | Ret ((_, answers), _) => exists m' h', run cmp m (BClear :: ops') h = Ret ((m', Done :: answers), h')
  | Panic => run cmp m (BClear :: ops') h = Panic
  | Diverge => False
  end.
Proof.
  intros K V cmp ops ops' h0 m rs h _. cbn [run exec]. erewrite mbind_Ret by reflexivity. cbn [fst snd]. change (Clear m) with (@BTreeMapNew).
  assert (A := run_tree cmp ops' [] BTreeMapNew (One no_slots) (rep_new [])). assert (B := run_tree cmp ops' h BTreeMapNew (One no_slots) (rep_new h)).
  destruct (tree_run cmp (One no_slots) ops') as [[t rs']|].
  - destruct A as (h1 & m1 & -> & _). destruct B as (h2 & m2 & E2 & _). exists m2, h2. erewrite mbind_Ret by exact E2. reflexivity.
  - rewrite A. unfold mbind. now rewrite B.
Qed.
Print Assumptions C102_clear.
(** A map with two levels in which a key was lost, read, cleared and used again. *)
Example C102_nonvacuous : exists m rs h, run cmpZ BTreeMapNew (tens [1; 2; 3; 4; 5; 6; 7; 8; 9; 10; 11; 12; 13]%Z) [] = Ret ((m, rs), h) /\
  (exists m' h', run cmpZ m [BGet 120; BGet 130; BLen; BClear; BInsert 5 6; BGet 5; BEntries]%Z h =
     Ret ((m', [Value (Some 121); Value None; Number 13; Done; Value None; Value (Some 6); Entries [(5, 6)]]%Z), h')).
Proof. do 3 eexists. split; [vm_compute; reflexivity|]. do 2 eexists. vm_compute. reflexivity. Qed.
