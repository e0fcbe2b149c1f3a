(** AnyCmpProps.v -- C114: containers whose elements' Cmp is any function at all. *)
From Coq Require Import Permutation SpecFloat.
From Verif Require Import Base BaseLemmas Effect CmpModel CmpProps VecModel HeapModel AnyCmpSpec AnyCmpModel AnyCmpProofs.
From Verif Require Import BTreeModel BTreeSpec BTreeHistory BTreeProofs BTreeTreeSpec BTreeTreeRunProofs BTreeProgSpec BTreeProgModel BTreeProgProofs BTreeProgProps AnyCmpTreeSpec AnyCmpTreeProofs.
Local Open Scope nat_scope.

(** *** Heaps: from any contents, by any comparison, every history ends and moves
    elements about as a bag does. *)
Theorem C114_heap : forall T (zero : T) extra (cmp : T -> T -> ordering) (h : BinaryHeap T) (ops : list (bag_op T)),
  exists h' answers bag, arun zero extra cmp h ops = Ret (h', answers) /\
    bag_run (HIntoVec h) ops bag answers /\ Permutation (HIntoVec h') bag.
Proof. intros T zero extra cmp h ops. apply run_any. reflexivity. Qed.
Print Assumptions C114_heap.
(** Pop takes the first element of the slice. *)
Theorem C114_heap_pop : forall T (cmp : T -> T -> ordering) (h : BinaryHeap T),
  exists h', HPop cmp h = Ret (h', hd_error (HIntoVec h)) /\
  match HIntoVec h with [] => h' = h | x :: r => Permutation (HIntoVec h') r end.
Proof.
  intros T cmp h. assert (P := HPop_any cmp h). unfold HIntoVec. destruct (vec h) as [|x r]; [eauto|].
  destruct P as (h' & E & P). exists h'. split; [exact E|]. symmetry. now apply Permutation_cons_inv in P.
Qed.
Print Assumptions C114_heap_pop.
(** F64 with NaN: 2 waits below NaN, so 1 is popped before it.  Overwriting the first
    element makes that the next to be popped, and the sorted vector is not sorted. *)
Example C114_heap_nonvacuous :
  let zero := S754_zero false in
  exists h', arun zero (fun _ _ => 0) Float_Cmp BinaryHeapNew
    [Push one; Push S754_nan; Push zero; Push two; Pop; Length; Write 0 zero; Write 9 one; Push one; Sorted; Pop]
  = Ret (h', [Nothing; Nothing; Nothing; Nothing; Popped (Some one); Count 3; Nothing; OutOfRange; Nothing;
              Listed [zero; S754_nan; one; zero]; Popped None]).
Proof. eexists. vm_compute. reflexivity. Qed.

(** *** B-trees: no program over maps and sets loops. *)
Theorem C114_btree_terminates : forall K (cmp : K -> K -> ordering),
  (forall V (eq : V -> V -> bool) dk dv (ops : list (mop K V)) h, mprogram cmp eq dk dv [] ops h <> Diverge) /\
  (forall dk (ops : list (zop K)) h, zprogram cmp dk [] ops h <> Diverge).
Proof.
  intros K cmp. split.
  - intros V eq dk dv ops h. assert (C := C81_all_histories_characterised K V cmp eq dk dv ops h).
    destruct (mrun cmp eq dk dv [] ops) as [[ts rs]|]; [destruct C as (ms & h' & ->)|rewrite C]; discriminate.
  - intros dk ops h. assert (C := C58_all_histories_characterised K cmp dk ops h).
    destruct (zrun cmp dk [] ops) as [[ts rs]|]; [destruct C as (ms & h' & ->)|rewrite C]; discriminate.
Qed.
Print Assumptions C114_btree_terminates.

(** A key that compares equal to all others finds the entry that the search looks at first
    (AnyCmpTreeSpec.v).  Inserting it into a map with such an entry adds nothing: the value
    of that entry is overwritten and returned. *)
Theorem C114_incomparable_key : forall K V (cmp : K -> K -> ordering) nan, (forall x, cmp nan x = Equal) ->
  forall (ops : list (bop K V)) h0 t answers, tree_run cmp (One no_slots) ops = Some (t, answers) ->
  exists m h, run cmp BTreeMapNew ops h0 = Ret ((m, answers), h) /\
  Get cmp m nan h = Ret (option_map snd (looked_at_first t)) /\
  ContainsKey cmp m nan h = Ret (is_some (looked_at_first t)) /\
  forall e, looked_at_first t = Some e -> forall v, exists m' h',
    exec cmp m (BInsert nan v) h = Ret ((m', Value (Some (snd e))), h') /\
    Len m' = Len m /\ Get cmp m' nan h' = Ret (Some v).
Proof.
  intros K V cmp nan N ops h0 t rs E. assert (R := run_tree cmp ops h0 BTreeMapNew (One no_slots) (rep_new h0)). rewrite E in R.
  destruct R as (h & m & EX & TA). exists m, h. split; [exact EX|].
  rewrite (at_get cmp h m t nan TA), (at_has cmp h m t nan TA), (nan_value cmp nan N), (nan_has cmp nan N). split; [reflexivity|]. split; [reflexivity|].
  intros e LF v. destruct (nan_insert cmp nan N t e v LF) as (t' & ST & SZ & LF'). assert (S := step_tree cmp h m t (BInsert nan v) TA). rewrite ST in S.
  destruct S as (h' & m' & E' & TA'). exists m', h'. split; [exact E'|].
  rewrite (at_size cmp h' m' t' TA'), (at_size cmp h m t TA), (at_get cmp h' m' t' nan TA'), (nan_value cmp nan N), LF'. split; [exact SZ|reflexivity].
Qed.
Print Assumptions C114_incomparable_key.
(** NaN in a map of F64: it takes the place of 1, although 2 is there as well; and NaN, once
    it is the first key, is all that is found. *)
Example C114_btree_nonvacuous :
  (forall x, Float_Cmp S754_nan x = Equal) /\
  (exists m h, run Float_Cmp BTreeMapNew [BInsert two 2; BInsert one 1; BInsert S754_nan 3; BGet one; BGet two; BLen]%Z [] =
    Ret ((m, [Value None; Value None; Value (Some 1); Value (Some 3); Value (Some 2); Number 2]%Z), h)) /\
  (exists m h, run Float_Cmp BTreeMapNew [BInsert S754_nan 3; BInsert one 1; BInsert two 2; BGet (S754_infinity false); BLen; BRemove two; BIsEmpty]%Z [] =
    Ret ((m, [Value None; Value (Some 3); Value (Some 1); Value (Some 2); Number 1; Value (Some 2); Truth true]%Z), h)).
Proof. split; [intros x; apply C69_float_nan_characterised|]. split; do 2 eexists; vm_compute; reflexivity. Qed.
(** A Cmp that contradicts itself (2 is greater than 1, but 1 is equal to 2) makes Remove panic. *)
Example C114_lost_nonvacuous :
  let crooked (x y : Z) := match x ?= y with Lt => if (x =? 1)%Z then Equal else Less | Datatypes.Eq => Equal | Gt => Greater end%Z in
  tree_run crooked (One no_slots) [BInsert 1 10; BInsert 2 20; BRemove 2]%Z = None.
Proof. vm_compute. reflexivity. Qed.
