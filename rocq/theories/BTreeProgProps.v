(** BTreeProgProps.v -- C58, C59, C80, C81 for all programs over any number of B-tree maps
    or sets: what they answer and when they panic, by the machines of BTreeTreeSpec.v, one
    for each variable (BTreeProgSpec.v). *)
From Verif Require Import Base BaseLemmas Effect CmpSpec VecSpec VecProps TextSpec HashModel BTreeModel BTreeSpec BTreeHistory BTreeIterModel BTreeTreeSpec
  BTreeTreeRunProofs BTreeShowSpec BTreeSetRun BTreeProgSpec BTreeProgModel BTreeProgProofs.
Local Open Scope nat_scope.

(** *** C81: all methods, Eq and Display of maps *)
Theorem C81_all_histories_characterised : forall K V (cmp : K -> K -> ordering)
  (eq : V -> V -> bool) (dk : K -> list Z) (dv : V -> list Z) (ops : list (mop K V)) h,
  match mrun cmp eq dk dv [] ops with
  | None => mprogram cmp eq dk dv [] ops h = Panic
  | Some (_, answers) => exists ms h', mprogram cmp eq dk dv [] ops h = Ret ((ms, answers), h')
  end.
Proof.
  intros K V cmp eq dk dv ops h. pose proof (mrun_sim cmp eq dk dv ops h [] [] (world_new h)) as R.
  destruct (mrun cmp eq dk dv [] ops) as [[ts rs]|]; [|exact R]. destruct R as (h' & ms & E & _). eauto.
Qed.
Print Assumptions C81_all_histories_characterised.

(** *** C58: histories and the algebra of sets *)
Theorem C58_all_histories_characterised : forall K (cmp : K -> K -> ordering)
  (dk : K -> list Z) (ops : list (zop K)) h,
  match zrun cmp dk [] ops with
  | None => zprogram cmp dk [] ops h = Panic
  | Some (_, answers) => exists ss h', zprogram cmp dk [] ops h = Ret ((ss, answers), h')
  end.
Proof.
  intros K cmp dk ops h. pose proof (zrun_sim cmp dk ops h [] [] (world_new h)) as R.
  destruct (zrun cmp dk [] ops) as [[ts rs]|]; [|exact R]. destruct R as (h' & ss & E & _). eauto.
Qed.
Print Assumptions C58_all_histories_characterised.

(** *** C59: Clone after any program.  [clone_rounds r] gives up after r rounds. *)
Theorem C59_all_histories_characterised : forall K (cmp : K -> K -> ordering), total_preorder cmp ->
  forall (dk : K -> list Z) (ops : list (zop K)) h ts answers, zrun cmp dk [] ops = Some (ts, answers) ->
  exists ss h', zprogram cmp dk [] ops h = Ret ((ss, answers), h') /\ length ss = length ts /\
    forall i s t r, nth_error ss i = Some s -> nth_error ts i = Some t ->
    match elements cmp t with
    | None => forall c, clone_rounds cmp (S r) c s BTreeSetNew h' = Panic
    | Some [] => forall c, clone_rounds cmp (S r) c s BTreeSetNew h' = Ret (BTreeSetNew, h')
    | Some _ => clone_rounds cmp (S r) None s BTreeSetNew h' = Panic /\ forall c, clone_rounds cmp r (Some c) s BTreeSetNew h' = Diverge
    end.
Proof.
  intros K cmp T dk ops h ts rs E. pose proof (zrun_sim cmp dk ops h [] [] (world_new h)) as R. rewrite E in R.
  destruct R as (h' & ss & EX & W). exists ss, h'. split; [exact EX|]. split; [apply W|]. intros i s t r ES ET. exact (clone_sim cmp T h' ss ts i s t r W ES ET).
Qed.
Print Assumptions C59_all_histories_characterised.

(** *** C80: the iterators start with the machine's listings *)
Theorem C80_all_histories_characterised : forall K V (cmp : K -> K -> ordering)
  eq dk dv (ops : list (mop K V)) h ts answers, mrun cmp eq dk dv [] ops = Some (ts, answers) ->
  exists ms h', mprogram cmp eq dk dv [] ops h = Ret ((ms, answers), h') /\ length ms = length ts /\
    forall i m t, nth_error ms i = Some m -> nth_error ts i = Some t ->
      bIntoIter m h' = Ret (cursor_of (entries_of cmp t)) /\ bKeys m h' = Ret (cursor_of (keys_of cmp t)) /\
      bValues m h' = Ret (cursor_of (map snd (entries_of cmp t))).
Proof.
  intros K V cmp eq dk dv ops h ts rs E. pose proof (mrun_sim cmp eq dk dv ops h [] [] (world_new h)) as R. rewrite E in R.
  destruct R as (h' & ms & EX & W). exists ms, h'. split; [exact EX|]. split; [apply W|]. intros i m t EM ET.
  destruct W as (_ & who & _ & W). destruct (W i m t EM ET) as (A & _). unfold bIntoIter, bKeys, bValues.
  rewrite (at_entries cmp _ _ _ A), (at_keys cmp _ _ _ A), (at_values cmp _ _ _ A). auto.
Qed.
Print Assumptions C80_all_histories_characterised.
Theorem C80_set_all_histories_characterised : forall K (cmp : K -> K -> ordering)
  dk (ops : list (zop K)) h ts answers, zrun cmp dk [] ops = Some (ts, answers) ->
  exists ss h', zprogram cmp dk [] ops h = Ret ((ss, answers), h') /\ length ss = length ts /\
    forall i s t, nth_error ss i = Some s -> nth_error ts i = Some t ->
      bsIntoIter s h' = match elements cmp t with Some l => Ret (cursor_of l) | None => Panic end.
Proof.
  intros K cmp dk ops h ts rs E. pose proof (zrun_sim cmp dk ops h [] [] (world_new h)) as R. rewrite E in R.
  destruct R as (h' & ss & EX & W). exists ss, h'. split; [exact EX|]. split; [apply W|]. intros i s t ES ET.
  destruct W as (_ & who & _ & W). destruct (W i s t ES ET) as (A & _). unfold bsIntoIter. rewrite (at_elements cmp _ _ _ A).
  now destruct (elements cmp t).
Qed.
Print Assumptions C80_set_all_histories_characterised.

(** *** Examples *)
(** Twelve keys, once upwards and once downwards: the first map is equal to the second but
    not to itself, and the second is not equal to the first. *)
Definition digit (z : Z) : list Z := [48 + z]%Z.
Definition insert_all (i : nat) (l : list Z) : list (mop Z Z) := map (fun z => MDo i (BInsert z z)) l.
Example C81_all_histories_nonvacuous :
  option_map snd (mrun cmpZ Z.eqb digit digit [] ([MNew; MNew] ++ insert_all 0 [1; 2; 3; 4; 5; 6; 7; 8; 9; 10; 11; 12]%Z ++
    insert_all 1 [12; 11; 10; 9; 8; 7; 6; 5; 4; 3; 2; 1]%Z ++
    [MEq 0 1; MEq 1 0; MEq 0 0; MEq 1 1; MDo 1 (BRemove 3%Z); MDo 0 BLen; MDo 1 BLen; MDo 0 BClear; MDo 0 (BInsert 7 8)%Z; MDisplay 0])) =
  Some ([MDone; MDone] ++ repeat (MAnswer (Value None)) 24 ++
    [MTruth true; MTruth false; MTruth false; MTruth true; MAnswer (Value (Some 4%Z)); MAnswer (Number 12); MAnswer (Number 11); MAnswer Done;
     MAnswer (Value None); MText (zs "BTreeMap{7: 8}")]).
Proof. vm_compute. reflexivity. Qed.
(** Sets of twelve and of three elements: the intersection lacks the twelfth, the union of
    thirteen says 13 but does not have the thirteenth; comparing with the empty set panics. *)
Definition C58_program : list (zop Z) :=
  [ZNew; ZNew] ++ map (fun z => ZDo 0 (SAdd z)) [1; 2; 3; 4; 5; 6; 7; 8; 9; 10; 11; 12]%Z ++ map (fun z => ZDo 1 (SAdd z)) [11; 12; 13]%Z ++
  [ZUnion 0 1; ZIntersection 0 1; ZSymmetricDifference 0 1; ZSubset 3 0; ZSuperset 2 0; ZEq 0 0; ZDisjoint 3 4; ZDo 0 (STake 5)%Z; ZDo 0 (SHas 5)%Z;
   ZElements 0; ZElements 3; ZDisplay 3; ZDo 2 SCount; ZDo 2 (SHas 13)%Z].
Example C58_all_histories_nonvacuous :
  option_map snd (zrun cmpZ digit [] C58_program) =
    Some ([ZDone; ZDone] ++ repeat (ZAnswer (STruth true)) 15 ++
      [ZDone; ZDone; ZDone; ZTruth true; ZTruth true; ZTruth true; ZTruth true; ZAnswer (STruth true); ZAnswer (STruth false);
       ZList [1; 2; 3; 4; 6; 7; 8; 9; 10; 11]%Z; ZList [11]%Z; ZText (zs "BTreeSet{;}"); ZAnswer (SNumber 13); ZAnswer (STruth false)]) /\
  zrun cmpZ digit [] (C58_program ++ [ZDo 1 SWipe; ZSubset 1 0]) = None.
Proof. split; vm_compute; reflexivity. Qed.
Example C59_all_histories_nonvacuous : exists ts answers t u,
  zrun cmpZ digit [] (C58_program ++ [ZNew]) = Some (ts, answers) /\ nth_error ts 0 = Some t /\ elements cmpZ t = Some [1; 2; 3; 4; 6; 7; 8; 9; 10; 11]%Z /\
  nth_error ts 5 = Some u /\ elements cmpZ u = None.
Proof. do 4 eexists. split; [vm_compute; reflexivity|]. split; [reflexivity|]. split; [vm_compute; reflexivity|]. split; [reflexivity|]. vm_compute. reflexivity. Qed.
