(** UnhashProps.v -- C126: hash containers whose keys have an interface type.  A call with a
    key that cannot be hashed panics and changes nothing; every other call of the history is
    answered as if that call had not been made. *)
From Verif Require Import Base Effect HashModel HashSpec HashHistory HashProofs HashProps ZeroSpec UnhashSpec UnhashModel UnhashProofs.
Local Open Scope Z_scope.

(** *** HashMap, any history from a new map *)
Theorem C126_map : forall (H U V : Type) (heq : H -> H -> bool) ords (ops : list (@mop (interface H U) V)),
  equivalence heq -> (forall i, fair (ords i)) ->
  let r := u_run heq ords 0 HashMapNew ops in
  exists f answers,
    (* the calls that panic are those with an unhashable key *)
    map absent (snd r) = map (fun o => absent (map_call o)) ops /\
    (* the others are a history of a map of hashable keys *)
    mhistory heq nothing (given (map map_call ops)) f answers /\ given (snd r) = map map_answer answers /\
    (* and that is the map afterwards *)
    forall c k, u_Get heq (Plain k) (fst r, c) = ((fst r, c), Some (f k)).
Proof.
  intros H U V heq ords ops E F r.
  destruct (u_run_emb heq ops ords F 0%nat HashMapNew) as (ords' & F' & R1 & R2 & R3).
  destruct (C51_history H V heq ords' (given (map map_call ops)) E F') as (f & Hf & G).
  exists f, (snd (run heq ords' 0 HashMapNew (given (map map_call ops)))).
  split; [exact R2|]. split; [exact Hf|]. split; [exact R3|]. intros c k. unfold r.
  change (@HashMapNew (interface H U) V) with (emb (U := U) (@HashMapNew H V)). rewrite R1, u_Get_emb. f_equal. f_equal. apply G.
Qed.
Print Assumptions C126_map.
Example C126_map_nonvacuous :
  u_run Z.eqb (fun _ => @rev (interface Z Z * Z)) 0 HashMapNew
    [MGet (Unhashable 7); MInsert (Plain 1) 10; MInsert (Unhashable 7) 70; MInsert (Plain 2) 20; MRemove (Unhashable 7);
     MContainsKey (Unhashable 1); MLen; MEntries; MGet (Plain 1)]
  = ([(Plain 1, 10); (Plain 2, 20)],
     [None; Some (Value None); None; Some (Value None); None; None; Some (Number 2);
      Some (Entries [(Plain 2, 20); (Plain 1, 10)]); Some (Value (Some 10))]).
Proof. vm_compute. reflexivity. Qed.

(** *** HashSet, any number of them *)
Theorem C126_sets : forall (H U : Type) (heq : H -> H -> bool) (clone : interface H U -> interface H U) ords (ops : list (@sop (interface H U))),
  equivalence heq -> (forall n i, fair (ords n i)) ->
  (forall h, exists h', clone (Plain h) = Plain h' /\ heq h' h = true) ->
  let r := u_srun heq clone ords 0 [] ops in
  exists sets answers,
    map absent (snd r) = map (fun o => absent (set_call o)) ops /\
    shistory heq [] (given (map set_call ops)) sets answers /\ given (snd r) = map set_answer answers /\
    length (fst r) = length sets /\
    forall i x, contains heq (nth i (fst r) HashSetNew) (Plain x) = Ret true <-> set sets i x.
Proof.
  intros H U heq clone ords ops E F C r.
  set (ch := fun h => match clone (Plain h) with Plain h' => h' | Unhashable _ => h end).
  assert (C1 : forall h, clone (Plain h) = Plain (ch h)) by (intros h; unfold ch; destruct (C h) as (h' & -> & _); reflexivity).
  assert (C2 : forall h, heq (ch h) h = true) by (intros h; unfold ch; destruct (C h) as (h' & -> & Q); exact Q).
  destruct (u_srun_emb heq clone ch C1 ops ords F 0%nat []) as (ords' & F' & R).
  destruct (C53_history H heq ch ords' (given (map set_call ops)) E C2 F') as (hs & rs & ps & Er & Hs & L & P).
  destruct (R hs rs Er) as (R1 & R2 & R3). exists ps, rs.
  split; [exact R2|]. split; [exact Hs|]. split; [exact R3|]. unfold r. cbn [map] in R1. rewrite R1, map_length. split; [exact L|].
  intros i x. rewrite nth_emb, contains_emb, <- (P i x). split; [intros Q; injection Q as Q; exact Q|intros Q; exact (f_equal Ret Q)].
Qed.
Print Assumptions C126_sets.
Example C126_sets_nonvacuous :
  u_srun Z.eqb (fun x => x) (fun _ _ => @rev (interface Z Z * unit)) 0 []
    [SFromSlice [Plain 1; Unhashable 7; Plain 2]; SFromSlice [Plain 1; Plain 2]; SInsert 0 (Unhashable 7); SNew; SInsert 1 (Plain 2);
     SContains 1 (Unhashable 2); SIntersection 0 1; SElements 2; SClone 0; SEq 0 3; SRemove 0 (Plain 1); SIsSubset 0 1; SGet 0 (Plain 2)]
  = ([[(Plain 2, tt)]; [(Plain 2, tt)]; [(Plain 2, tt)]; [(Plain 2, tt); (Plain 1, tt)]],
     [None; Some SDone; None; Some SDone; Some (STruth true); None; Some SDone; Some (SList [Plain 2]); Some SDone; Some (STruth true);
      Some (STruth true); Some (STruth true); Some (SFound (Some (Plain 2)))]).
Proof. vm_compute. reflexivity. Qed.

(** *** Clone and Eq of maps that histories made *)
Theorem C126_clone : forall (H U V : Type) (heq : H -> H -> bool) ords (ops : list (@mop (interface H U) V)) ord ck cv,
  (forall i, fair (ords i)) -> fair ord ->
  let m := fst (u_run heq ords 0 HashMapNew ops) in
  (* a key whose Clone cannot be hashed makes Clone panic *)
  ((exists e, In e m /\ plain (ck (fst e)) = None) -> u_Clone heq ord (Some ck) (Some cv) m = Panic) /\
  (* otherwise it is the Clone of a map of hashable keys (C73_map_clone) *)
  (forall ch, (forall h, ck (Plain h) = Plain (ch h)) -> exists m0 ord0, m = map (fun e => (Plain (fst e), snd e)) m0 /\ reached heq m0 /\ fair ord0 /\
     exists c, Clone heq ord0 (Some ch) (Some cv) m0 = Ret c /\
       u_Clone heq ord (Some ck) (Some cv) m = Ret (map (fun e => (Plain (fst e), snd e)) c)).
Proof.
  intros H U V heq ords ops ord ck cv F Fo m.
  destruct (u_run_emb heq ops ords F 0%nat HashMapNew) as (ords' & F' & R1 & _).
  set (m0 := fst (run heq ords' 0 HashMapNew (given (map map_call ops)))) in *.
  assert (Em : m = emb m0) by exact R1. split.
  - intros (e & I & B). unfold u_Clone. change (@HashMapNew (interface H U) V) with (emb (U := U) (@HashMapNew H V)).
    apply u_clone_bad. exists e. split; [|exact B]. apply (Permutation.Permutation_in e (Permutation.Permutation_sym (Fo m))). exact I.
  - intros ch C. exists m0, (down ord). split; [exact Em|]. split; [eexists ords', _; split; [exact F'|reflexivity]|]. split; [apply down_fair, Fo|].
    assert (T : forall es c, exists c', clone_loop heq (Some ch) (Some cv) es c = Ret c').
    { induction es as [|[h v] r IH]; intros c; [eexists; reflexivity|]. cbn [clone_loop of_option bind]. apply IH. }
    destruct (T (down ord m0) HashMapNew) as (c & Ec). exists c. split; [exact Ec|].
    unfold u_Clone. rewrite Em, <- (down_emb ord m0 Fo). change (@HashMapNew (interface H U) V) with (emb (U := U) (@HashMapNew H V)).
    rewrite (u_clone_emb heq ck cv ch C), Ec. reflexivity.
Qed.
Print Assumptions C126_clone.
Theorem C126_eq : forall (H U V : Type) (heq : H -> H -> bool) ords1 ords2 (ops1 ops2 : list (@mop (interface H U) V)) eqv,
  equivalence heq -> (forall i, fair (ords1 i)) -> (forall i, fair (ords2 i)) ->
  let m := fst (u_run heq ords1 0 HashMapNew ops1) in
  let w := fst (u_run heq ords2 0 HashMapNew ops2) in
  exists f g b, (forall c k, u_Get heq (Plain k) (m, c) = ((m, c), Some (f k))) /\ (forall c k, u_Get heq (Plain k) (w, c) = ((w, c), Some (g k))) /\
    (b = true <-> forall k, agree eqv (f k) (g k)) /\
    forall ord, fair ord -> u_Eq heq ord (Some eqv) m w = Ret b.
Proof.
  intros H U V heq ords1 ords2 ops1 ops2 eqv E F1 F2 m w.
  destruct (u_run_emb heq ops1 ords1 F1 0%nat HashMapNew) as (o1 & G1 & R1 & _).
  destruct (u_run_emb heq ops2 ords2 F2 0%nat HashMapNew) as (o2 & G2 & R2 & _).
  set (m0 := fst (run heq o1 0 HashMapNew (given (map map_call ops1)))) in *.
  set (w0 := fst (run heq o2 0 HashMapNew (given (map map_call ops2)))) in *.
  assert (Em : m = emb m0) by exact R1. assert (Ew : w = emb w0) by exact R2.
  destruct (C52_eq_whatever_order H V heq eqv m0 w0 E) as (b & B1 & B2).
  { eexists o1, _. split; [exact G1|reflexivity]. } { eexists o2, _. split; [exact G2|reflexivity]. }
  exists (Get heq m0), (Get heq w0), b. rewrite Em, Ew. split; [intros c k; apply u_Get_emb|]. split; [intros c k; apply u_Get_emb|].
  split; [exact B1|]. intros ord Fo. rewrite (u_Eq_emb heq ord _ _ _ Fo). apply B2, down_fair, Fo.
Qed.
Print Assumptions C126_eq.
Example C126_clone_nonvacuous :
  let m := fst (u_run Z.eqb (fun _ l => l) 0 HashMapNew [MInsert (Plain 1) 10; MInsert (Unhashable 3) 30; MInsert (Plain 2) 20]) in
  let ck := fun k : interface Z Z => match k with Plain 2 => Unhashable 0 | _ => k end in
  u_Clone Z.eqb (fun l => l) (Some ck) (Some (fun v => v)) m = Panic /\
  u_Clone Z.eqb (@rev _) (Some (fun k => k)) (Some (fun v => v)) m = Ret [(Plain 2, 20); (Plain 1, 10)] /\
  u_Eq Z.eqb (fun l => l) (Some Z.eqb) m m = Ret true.
Proof. repeat split; vm_compute; reflexivity. Qed.
