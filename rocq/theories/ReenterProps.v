(** ReenterProps.v -- C113: closures that use the container whose method is calling them. *)
From Verif Require Import Base Effect VecSpec VecModel VecHistory VecProofs IterShareSpec ReenterSpec ReenterModel ReenterProofs.
From Verif Require DequeModel DequeSpec DequeHistory DequeProofs DequeRunProofs DequeShareSpec.
Import DequeHistory(shows, layout).
Local Open Scope nat_scope.

(** *** Vec.Retain *)

(** What the closure adds is lost: 1, 2; the closure pushes 9 to the vector and accepts. *)
Theorem C113_vec_refuted :
  let push := fun (_ : unit) (x : Z) => Call (OPush 0 9%Z) (fun _ => Return (true, tt)) in
  exists w a, run 0%Z (fun _ _ => 0) Z.eqb Z.eqb (fun x => x) ([], []) [ONew; OPush 0 1%Z; OPush 0 2%Z] = Ret (w, a) /\
    vdo 0%Z Z.eqb Z.eqb (fun x => x) (push tt 1%Z) (view w) = Some (true, tt, [[1; 2; 9]]%Z) /\
    seen (Vec_Retain 0%Z (fun _ _ => 0) Z.eqb Z.eqb (fun x => x) w 0 push tt) = Some (tt, [[1; 2]]%Z).
Proof. cbv zeta. eexists. eexists. split; [vm_compute; reflexivity|]. split; vm_compute; reflexivity. Qed.
Print Assumptions C113_vec_refuted.

(** For any closure, which may call any method of any vector: it is called as often as the
    vector had elements when Retain was called (on which values: see below), what it does to the
    other vectors stays, and the vector then has exactly the accepted values; Retain panics
    exactly when one of the closure's calls does. *)
Theorem C113_vec_characterised : forall T S (zero : T) extra eqb deq clone ops w a v l (f : S -> T -> body op answer (bool * S)) st,
  run zero extra eqb deq clone ([], []) ops = Ret (w, a) -> nth_error (view w) v = Some l ->
  exists given, length given = length l /\
    seen (Vec_Retain zero extra eqb deq clone w v f st) = vretained zero eqb deq clone f st v given (view w).
Proof.
  intros T S zero extra eqb deq clone ops w a v l f st E Hv.
  destruct (Vec_Retain_any zero extra eqb deq clone w v l f st (reached_separate _ _ _ _ _ _ _ _ _ E) Hv) as (given & G1 & G2 & _). eauto.
Qed.
Print Assumptions C113_vec_characterised.

(** For a closure that does not write the vector's elements in place (pushing, popping, and
    anything to other vectors is allowed), the values are the vector's elements, in order. *)
Theorem C113_vec_careful_partial : forall T S (zero : T) extra eqb deq clone ops w a v l (f : S -> T -> body op answer (bool * S)) st,
  run zero extra eqb deq clone ([], []) ops = Ret (w, a) -> nth_error (view w) v = Some l ->
  always_careful zero eqb deq clone v (length l) f st l (view w) true ->
  seen (Vec_Retain zero extra eqb deq clone w v f st) = vretained zero eqb deq clone f st v l (view w).
Proof.
  intros T S zero extra eqb deq clone ops w a v l f st E Hv C.
  destruct (Vec_Retain_any zero extra eqb deq clone w v l f st (reached_separate _ _ _ _ _ _ _ _ _ E) Hv) as (given & _ & G2 & G3). now rewrite <- (G3 C).
Qed.
Print Assumptions C113_vec_careful_partial.

(** A closure that only looks sees in every call the vectors as they were before Retain. *)
Theorem C113_vec_looking_partial : forall T S (zero : T) extra eqb deq clone ops w a v l (f : S -> T -> body op answer (bool * S)) st,
  run zero extra eqb deq clone ([], []) ops = Ret (w, a) -> nth_error (view w) v = Some l -> (forall st x, looking (f st x)) ->
  seen (Vec_Retain zero extra eqb deq clone w v f st) = vretained zero eqb deq clone f st v l (view w) /\
  forall st x s b s', vdo zero eqb deq clone (f st x) s = Some (b, s') -> s' = s.
Proof.
  intros T S zero extra eqb deq clone ops w a v l f st E Hv L. split.
  - eapply C113_vec_careful_partial; eauto. now apply looking_always.
  - intros st' x s b s'. apply looking_same. apply L.
Qed.
Print Assumptions C113_vec_looking_partial.

(** A closure that pushes the element it is given to another vector, doubles it there, pops
    from its own vector and asks for the length; and one that writes ahead, which is seen. *)
Example C113_vec_nonvacuous :
  let f := fun (n : Z) (x : Z) => Call (OPush 1 x) (fun _ => Call (OPop 0) (fun _ => Call (OLen 0) (fun r =>
             Return (match r with Number k => Z.odd (Z.of_nat k) | _ => false end, (n + x)%Z)))) in
  let g := fun (n : Z) (x : Z) => Call (OSet 0 2 8%Z) (fun _ => Return (true, (n + x)%Z)) in
  let ops := [ONew; ONew; OPush 0 1%Z; OPush 0 2%Z; OPush 0 3%Z; OPush 0 4%Z] in
  exists w a, run 0%Z (fun _ _ => 0) Z.eqb Z.eqb (fun x => x) ([], []) ops = Ret (w, a) /\
    nth_error (view w) 0 = Some [1; 2; 3; 4]%Z /\
    always_careful 0%Z Z.eqb Z.eqb (fun x => x) 0 4 f 0%Z [1; 2; 3; 4]%Z (view w) true /\
    seen (Vec_Retain 0%Z (fun _ _ => 0) Z.eqb Z.eqb (fun x => x) w 0 f 0%Z) = Some (10, [[1; 3]; [1; 2; 3; 4]])%Z /\
    seen (Vec_Retain 0%Z (fun _ _ => 0) Z.eqb Z.eqb (fun x => x) w 0 g 0%Z) = Some (15, [[1; 2; 8; 4]; []])%Z.
Proof.
  cbv zeta. eexists. eexists. split; [vm_compute; reflexivity|]. split; [vm_compute; reflexivity|].
  split; [vm_compute; exact I|]. split; vm_compute; reflexivity.
Qed.
Example C113_vec_looking_nonvacuous :
  let f := fun (_ : unit) (x : Z) => Call (OGet 0 0) (fun r => Return (match r with Value (Some y) => Z.ltb y x | _ => false end, tt)) in
  (forall st x, looking (f st x)) /\
  exists w a, run 0%Z (fun _ _ => 0) Z.eqb Z.eqb (fun x => x) ([], []) [ONew; OPush 0 1%Z; OPush 0 2%Z; OPush 0 3%Z] = Ret (w, a) /\
    seen (Vec_Retain 0%Z (fun _ _ => 0) Z.eqb Z.eqb (fun x => x) w 0 f tt) = Some (tt, [[2; 3]]%Z).
Proof. cbv zeta. split; [cbn; auto|]. eexists. eexists. split; vm_compute; reflexivity. Qed.

(** *** Vec.DedupByKey *)

(** What the key function pushes is lost as well: 1, 2; it pushes 9 each time. *)
Theorem C113_vec_dedup_refuted :
  let key := fun (_ : unit) (x : Z) => Call (OPush 0 9%Z) (fun _ => Return (x, tt)) in
  exists w a, run 0%Z (fun _ _ => 0) Z.eqb Z.eqb (fun x => x) ([], []) [ONew; OPush 0 1%Z; OPush 0 2%Z] = Ret (w, a) /\
    vdo 0%Z Z.eqb Z.eqb (fun x => x) (key tt 1%Z) (view w) = Some (1%Z, tt, [[1; 2; 9]]%Z) /\
    seen (Vec_DedupByKey 0%Z (fun _ _ => 0) Z.eqb Z.eqb (fun x => x) Z.eqb w 0 key tt) = Some (tt, [[1; 2]]%Z).
Proof. cbv zeta. eexists. eexists. split; [vm_compute; reflexivity|]. split; vm_compute; reflexivity. Qed.
Print Assumptions C113_vec_dedup_refuted.

(** For any key function, which may call any method of any vector, and any transitive equality
    of keys (a key need not equal itself): it is called as often as the vector had elements,
    what it does to the other vectors stays, and the vector then has exactly the values whose
    key equals none of the keys before; DedupByKey panics exactly when a call of the key
    function does. *)
Theorem C113_vec_dedup_characterised : forall T S K (zero : T) extra eqb deq clone (keq : K -> K -> bool) ops w a v l (key : S -> T -> body op answer (K * S)) st,
  (forall a b c, keq a b = true -> keq b c = true -> keq a c = true) ->
  run zero extra eqb deq clone ([], []) ops = Ret (w, a) -> nth_error (view w) v = Some l ->
  exists given, length given = length l /\
    seen (Vec_DedupByKey zero extra eqb deq clone keq w v key st) = vdeduped zero eqb deq clone keq key st v given (view w).
Proof.
  intros T S K zero extra eqb deq clone keq ops w a v l key st Tr E Hv.
  destruct (Vec_DedupByKey_any zero extra eqb deq clone keq Tr w v l key st (reached_separate _ _ _ _ _ _ _ _ _ E) Hv) as (given & G1 & G2 & _). eauto.
Qed.
Print Assumptions C113_vec_dedup_characterised.

(** For a key function that does not write the vector's elements in place, the values are the
    vector's elements, in order. *)
Theorem C113_vec_dedup_careful_partial : forall T S K (zero : T) extra eqb deq clone (keq : K -> K -> bool) ops w a v l (key : S -> T -> body op answer (K * S)) st,
  (forall a b c, keq a b = true -> keq b c = true -> keq a c = true) ->
  run zero extra eqb deq clone ([], []) ops = Ret (w, a) -> nth_error (view w) v = Some l ->
  always_careful zero eqb deq clone v (length l) key st l (view w) true ->
  seen (Vec_DedupByKey zero extra eqb deq clone keq w v key st) = vdeduped zero eqb deq clone keq key st v l (view w).
Proof.
  intros T S K zero extra eqb deq clone keq ops w a v l key st Tr E Hv C.
  destruct (Vec_DedupByKey_any zero extra eqb deq clone keq Tr w v l key st (reached_separate _ _ _ _ _ _ _ _ _ E) Hv) as (given & _ & G2 & G3). now rewrite <- (G3 C).
Qed.
Print Assumptions C113_vec_dedup_careful_partial.
Theorem C113_vec_dedup_looking_partial : forall T S K (zero : T) extra eqb deq clone (keq : K -> K -> bool) ops w a v l (key : S -> T -> body op answer (K * S)) st,
  (forall a b c, keq a b = true -> keq b c = true -> keq a c = true) ->
  run zero extra eqb deq clone ([], []) ops = Ret (w, a) -> nth_error (view w) v = Some l -> (forall st x, looking (key st x)) ->
  seen (Vec_DedupByKey zero extra eqb deq clone keq w v key st) = vdeduped zero eqb deq clone keq key st v l (view w).
Proof.
  intros T S K zero extra eqb deq clone keq ops w a v l key st Tr E Hv L.
  eapply C113_vec_dedup_careful_partial; eauto. now apply looking_always.
Qed.
Print Assumptions C113_vec_dedup_looking_partial.

(** A key function that notes the element in another vector, pops from its own and answers the
    parity; one that writes ahead, which is seen; a key that does not equal itself. *)
Example C113_vec_dedup_nonvacuous :
  let f := fun (n : Z) (x : Z) => Call (OPush 1 x) (fun _ => Call (OPop 0) (fun _ => Return (Z.modulo x 3, (n + x)%Z))) in
  let g := fun (n : Z) (x : Z) => Call (OSet 0 2 1%Z) (fun _ => Return (x, (n + x)%Z)) in
  let nan := fun a b : Z => Z.eqb a b && negb (Z.eqb a 0) in
  let ops := [ONew; ONew; OPush 0 3%Z; OPush 0 1%Z; OPush 0 4%Z; OPush 0 6%Z] in
  exists w a, run 0%Z (fun _ _ => 0) Z.eqb Z.eqb (fun x => x) ([], []) ops = Ret (w, a) /\
    nth_error (view w) 0 = Some [3; 1; 4; 6]%Z /\
    always_careful 0%Z Z.eqb Z.eqb (fun x => x) 0 4 f 0%Z [3; 1; 4; 6]%Z (view w) true /\
    seen (Vec_DedupByKey 0%Z (fun _ _ => 0) Z.eqb Z.eqb (fun x => x) Z.eqb w 0 f 0%Z) = Some (14, [[3; 1]; [3; 1; 4; 6]])%Z /\
    seen (Vec_DedupByKey 0%Z (fun _ _ => 0) Z.eqb Z.eqb (fun x => x) nan w 0 f 0%Z) = Some (14, [[3; 1; 6]; [3; 1; 4; 6]])%Z /\
    seen (Vec_DedupByKey 0%Z (fun _ _ => 0) Z.eqb Z.eqb (fun x => x) Z.eqb w 0 g 0%Z) = Some (11, [[3; 1; 6]; []])%Z.
Proof.
  cbv zeta. eexists. eexists. split; [vm_compute; reflexivity|]. split; [vm_compute; reflexivity|].
  split; [vm_compute; exact I|]. split; [vm_compute; reflexivity|]. split; vm_compute; reflexivity.
Qed.

(** *** Vec.FillWith *)

(** The language does not say whether the slice that is assigned to is read before or after the
    closure is called, and the result depends on it: 1, 2; the second call pops an element. *)
Theorem C113_vec_fill_order_refuted :
  let f := fun (n : Z) => if Z.eqb n 0 then Return (7%Z, 1%Z) else Call (OPop 0) (fun _ => Return (8%Z, 2%Z)) in
  exists w a, run 0%Z (fun _ _ => 0) Z.eqb Z.eqb (fun x => x) ([], []) [ONew; OPush 0 1%Z; OPush 0 2%Z] = Ret (w, a) /\
    (forall fuel, 2 <= fuel -> Vec_FillWith 0%Z (fun _ _ => 0) Z.eqb Z.eqb (fun x => x) (fun _ => true) fuel w 0 f 0%Z = Panic) /\
    (forall fuel, 3 <= fuel -> seen (Vec_FillWith 0%Z (fun _ _ => 0) Z.eqb Z.eqb (fun x => x) (fun _ => false) fuel w 0 f 0%Z) = Some (2, [[7]])%Z).
Proof.
  cbv zeta. eexists. eexists. split; [vm_compute; reflexivity|]. split.
  - intros [|[|fuel]] H; [lia|lia|]. reflexivity.
  - intros [|[|[|fuel]]] H; [lia|lia|lia|]. reflexivity.
Qed.
Print Assumptions C113_vec_fill_order_refuted.

(** When it is read after the call: for any closure, which may call any method of any vector,
    FillWith returns, or panics, exactly as the specification says on lists; it does not end
    exactly when the specification has no result. *)
Theorem C113_vec_fill_characterised : forall T S (zero : T) extra eqb deq clone ops w a v l (f : S -> body op answer (T * S)) st,
  run zero extra eqb deq clone ([], []) ops = Ret (w, a) -> nth_error (view w) v = Some l ->
  let fill fuel := Vec_FillWith zero extra eqb deq clone (fun _ => true) fuel w v f st in
  (forall st' s', vfilling zero eqb deq clone f v st 0 (view w) (Some (st', s')) <->
     exists n w', view w' = s' /\ forall fuel, n <= fuel -> fill fuel = Ret (st', w')) /\
  (vfilling zero eqb deq clone f v st 0 (view w) None <-> exists n, forall fuel, n <= fuel -> fill fuel = Panic) /\
  ((forall r, ~ vfilling zero eqb deq clone f v st 0 (view w) r) <-> forall fuel, fill fuel = Diverge).
Proof.
  intros T S zero extra eqb deq clone ops w a v l f st E Hv fill. pose proof (reached_separate _ _ _ _ _ _ _ _ _ E) as Sp.
  assert (So : forall fuel r, outcome (fill fuel) = Some r -> vfilling zero eqb deq clone f v st 0 (view w) r).
  { intros fuel r H. eapply vfill_sound; [exact Sp|congruence|exact H]. }
  assert (Co : forall r, vfilling zero eqb deq clone f v st 0 (view w) r -> exists n, forall fuel, n <= fuel -> outcome (fill fuel) = Some r).
  { intros r H. eapply vfill_complete; [exact H|exact Sp|reflexivity]. }
  assert (Mo : forall fuel k, fill fuel <> Diverge -> fill (k + fuel) = fill fuel).
  { intros fuel k. unfold fill, Vec_FillWith. generalize 0 as i. clear fill So Co Sp E Hv. revert st w. induction fuel as [|fuel IH]; intros st w i H; [now elim H|].
    rewrite Nat.add_succ_r. cbn [ReenterModel.vfill_loop] in *. destruct (var w v) as [s| |]; cbn [bind] in *; try reflexivity. destruct (i <? slen s); [|reflexivity].
    match type of H with context [bind ?z] => destruct z as [[[x st'] w']| |] end; cbn [bind] in *; try reflexivity.
    destruct (var w' v) as [s'| |]; cbn [bind] in *; try reflexivity. destruct (SetUnchecked (fst w') s' i x); cbn [bind] in *; try reflexivity. now apply IH. }
  split; [|split].
  - intros st' s'. split.
    + intros H. destruct (Co _ H) as (n & N). pose proof (N n (le_n _)) as O. destruct (fill n) as [[st2 w2]| |] eqn:F; try discriminate. injection O as <- <-.
      exists n, w2. split; [reflexivity|]. intros fuel Hf. replace fuel with ((fuel - n) + n) by lia. rewrite Mo; [exact F|rewrite F; discriminate].
    + intros (n & w' & <- & N). apply (So n). rewrite N by lia. reflexivity.
  - split.
    + intros H. destruct (Co _ H) as (n & N). exists n. intros fuel Hf. specialize (N fuel Hf). destruct (fill fuel) as [[]| |]; try discriminate. reflexivity.
    + intros (n & N). apply (So n). rewrite N by lia. reflexivity.
  - split.
    + intros H fuel. destruct (fill fuel) as [[st2 w2]| |] eqn:F; [| |reflexivity]; exfalso; eapply H, (So fuel); rewrite F; reflexivity.
    + intros H r R. destruct (Co _ R) as (n & N). specialize (N n (le_n _)). rewrite H in N. discriminate.
Qed.
Print Assumptions C113_vec_fill_characterised.

(** For a closure that only looks the order does not matter, the number of elements stays, and
    nothing happens to the other vectors. *)
Theorem C113_vec_fill_looking_partial : forall T S (zero : T) extra eqb deq clone ops w a v l (f : S -> body op answer (T * S)) st late,
  run zero extra eqb deq clone ([], []) ops = Ret (w, a) -> nth_error (view w) v = Some l -> (forall st, looking (f st)) ->
  (forall fuel, Vec_FillWith zero extra eqb deq clone late fuel w v f st = Vec_FillWith zero extra eqb deq clone (fun _ => true) fuel w v f st) /\
  forall st' s', vfilling zero eqb deq clone f v st 0 (view w) (Some (st', s')) -> exists made, s' = put (view w) v made /\ length made = length l.
Proof.
  intros T S zero extra eqb deq clone ops w a v l f st late E Hv L. split.
  - intros fuel. now apply vfill_looking.
  - intros st' s' H. exact (vfilling_looking zero eqb deq clone f v st 0 _ _ H L l Hv).
Qed.
Print Assumptions C113_vec_fill_looking_partial.

(** More generally the order does not matter for a closure that adds no elements to the vector
    and removes none; it may write to the vector and do anything to the others.  FillWith then makes no more than n rounds for n elements, gives what the
    specification says, keeps the number of elements, and panics only if the closure does. *)
Theorem C113_vec_fill_keeping_partial : forall T S (zero : T) extra eqb deq clone ops w a v l (f : S -> body op answer (T * S)) st late fuel,
  run zero extra eqb deq clone ([], []) ops = Ret (w, a) -> nth_error (view w) v = Some l -> (forall st, keeping v (f st)) -> length l < fuel ->
  match Vec_FillWith zero extra eqb deq clone late fuel w v f st with
  | Ret (st', w') => vfilling zero eqb deq clone f v st 0 (view w) (Some (st', view w')) /\
      exists made, nth_error (view w') v = Some made /\ length made = length l
  | Panic => vfilling zero eqb deq clone f v st 0 (view w) None /\ exists st1 s1, vdo zero eqb deq clone (f st1) s1 = None
  | Diverge => False
  end.
Proof.
  intros T S zero extra eqb deq clone ops w a v l f st late fuel E Hv L Hf. pose proof (reached_separate _ _ _ _ _ _ _ _ _ E) as Sp.
  unfold Vec_FillWith. rewrite vfill_keeping by exact L.
  pose proof (fun r => vfill_sound zero extra eqb deq clone f v fuel st 0 w r Sp ltac:(congruence)) as So.
  pose proof (vfill_keeping_ends zero extra eqb deq clone f v _ fuel st 0 w l L Sp Hv eq_refl ltac:(lia) ltac:(lia)) as En.
  destruct (vfill_loop zero extra eqb deq clone (fun _ => true) fuel v f st 0 w) as [[st' w']| |]; auto.
Qed.
Print Assumptions C113_vec_fill_keeping_partial.

(** 5, 6, 7; the closure swaps the first and the last element, pushes to another vector, and
    answers its counter. *)
Example C113_vec_fill_keeping_nonvacuous :
  let f := fun (n : Z) => Call (OSwap 0 0 2) (fun _ => Call (OPush 1 n) (fun _ => Return (n, (n + 1)%Z))) in
  (forall st, keeping 0 (f st)) /\ (forall y, ~ keeping 0 (Call (OPush 0 y) (fun _ => f 0%Z))) /\
  exists w a, run 0%Z (fun _ _ => 0) Z.eqb Z.eqb (fun x => x) ([], []) [ONew; ONew; OPush 0 5%Z; OPush 0 6%Z; OPush 0 7%Z] = Ret (w, a) /\
    nth_error (view w) 0 = Some [5; 6; 7]%Z /\
    seen (Vec_FillWith 0%Z (fun _ _ => 0) Z.eqb Z.eqb (fun x => x) (fun _ => false) 4 w 0 f 1%Z) = Some (4, [[1; 2; 3]; [1; 2; 3]])%Z.
Proof.
  cbv zeta. split; [cbn; auto|]. split. { intros y [H _]. discriminate. }
  eexists. eexists. split; [vm_compute; reflexivity|]. split; vm_compute; reflexivity.
Qed.

(** A closure that pushes to the vector in each call never lets FillWith return, in any order of
    evaluation, unless the vector is empty. *)
Theorem C113_vec_fill_endless : forall T S (zero : T) extra eqb deq clone ops w a v l late (y x : S -> T) (next : S -> S) st,
  run zero extra eqb deq clone ([], []) ops = Ret (w, a) -> nth_error (view w) v = Some l -> l <> [] -> forall fuel r,
  Vec_FillWith zero extra eqb deq clone late fuel w v (fun st => Call (OPush v (y st)) (fun _ => Return (x st, next st))) st <> Ret r.
Proof.
  intros T S zero extra eqb deq clone ops w a v l late y x next st E Hv N fuel r. pose proof (reached_separate _ _ _ _ _ _ _ _ _ E) as Sp.
  destruct (var_view w v l Sp Hv) as (s & Es & Ls & _). eapply vfill_endless; [exact Es|]. destruct l; [congruence|cbn in Ls; lia].
Qed.
Print Assumptions C113_vec_fill_endless.

(** A closure that answers the sum of what it sees in place 0 and a counter; one that pushes in
    its first call only, so that there is one more call; one that empties the vector. *)
Example C113_vec_fill_nonvacuous :
  let f := fun (n : Z) => Call (OGet 0 0) (fun r => Return (match r with Value (Some y) => (y + n)%Z | _ => 0%Z end, (n + 1)%Z)) in
  let g := fun (n : Z) => if Z.eqb n 0 then Call (OPush 0 9%Z) (fun _ => Return (n, 1%Z)) else Call (OPush 1 n) (fun _ => Return (n, (n + 1)%Z)) in
  let h := fun (n : Z) => Call (OClear 0) (fun _ => Return (n, n)) in
  let fill {late : nat -> bool} k w c := Vec_FillWith 0%Z (fun _ _ => 0) Z.eqb Z.eqb (fun x => x) late k w 0 c 0%Z in
  (forall st, looking (f st)) /\
  exists w a, run 0%Z (fun _ _ => 0) Z.eqb Z.eqb (fun x => x) ([], []) [ONew; ONew; OPush 0 5%Z; OPush 0 6%Z; OPush 0 7%Z] = Ret (w, a) /\
    nth_error (view w) 0 = Some [5; 6; 7]%Z /\
    seen (@fill (fun _ => true) 4 w f) = Some (3, [[5; 6; 7]; []])%Z /\
    seen (@fill (fun _ => true) 5 w g) = Some (4, [[0; 1; 2; 3]; [1; 2; 3]])%Z /\
    seen (@fill (fun _ => false) 5 w g) = Some (4, [[5; 1; 2; 3]; [1; 2; 3]])%Z /\
    @fill (fun _ => true) 4 w h = Panic /\ seen (@fill (fun _ => false) 4 w h) = Some (0, [[]; []])%Z.
Proof.
  cbv zeta. split; [cbn; auto|]. eexists. eexists. split; [vm_compute; reflexivity|].
  repeat (split; [vm_compute; reflexivity|]). vm_compute. reflexivity.
Qed.

(** *** VecDeque.Retain and VecDeque.FillWith *)
Local Open Scope Z_scope.
Notation on_deque limit d l := (DequeHistory.layout limit d /\ DequeHistory.shows d l).

(** A closure that only looks does not see the deque as it was: 1, 2, 3; the closure rejects 1
    and accepts the others as long as Front gives 1.  It should accept both and accepts 2. *)
Definition front_is_1 : bool -> Z -> body (@DequeSpec.dop Z) (@DequeSpec.danswer Z) (bool * bool) :=
  fun st x => if Z.eqb x 1 then Return (false, st)
              else Call DequeSpec.Front (fun r => Return (match r with DequeSpec.Value (Some y) => Z.eqb y 1 | _ => false end, st)).
Definition three : DequeModel.VecDeque Z := DequeModel.mkDeque [1; 2; 3; 0] 3 0.
Theorem C113_deque_looking_refuted :
  on_deque 100 three [1; 2; 3] /\ (forall st x, peeking (front_is_1 st x)) /\
  accepting 100 Z.eqb front_is_1 (unchanged [1; 2; 3] 4) true [1; 2; 3] [] true [2; 3] /\
  exists d', Deque_Retain 0 100 Z.eqb 4 three front_is_1 true = Ret (true, d') /\ on_deque 100 d' [2].
Proof.
  split; [|split; [|split]].
  - assert (R : DequeProofs.rep 100 three [1; 2; 3] 4%nat).
    { exists [1; 2; 3; 0], 0%nat. split; [reflexivity|]. split; [|split; [reflexivity|cbn; lia]]. unfold DequeProofs.repr. cbn [length]. repeat split; try lia.
      intros [|[|[|]]] H; try reflexivity. lia. }
    destruct (DequeRunProofs.rep_shows 100 ltac:(lia) _ _ _ R) as (S & L & _). auto.
  - intros st x. unfold front_is_1. destruct (Z.eqb x 1); cbn; auto.
  - eapply accepting_next; [apply does_return|]. cbn [app]. 
    eapply accepting_next; [eapply does_call; [apply DequeSpec.d_front|unfold DequeShareSpec.fits; cbn; lia|apply does_return]|].
    eapply accepting_next; [eapply does_call; [apply DequeSpec.d_front|unfold DequeShareSpec.fits; cbn; lia|apply does_return]|].
    apply accepting_end.
  - exists (DequeModel.mkDeque [2; 2; 3; 0] 1 0). split; [vm_compute; reflexivity|].
    assert (R : DequeProofs.rep 100 (DequeModel.mkDeque [2; 2; 3; 0] 1 0) [2] 4%nat).
    { exists [2; 2; 3; 0], 0%nat. split; [reflexivity|]. split; [|split; [reflexivity|cbn; lia]]. unfold DequeProofs.repr. cbn [length]. repeat split; try lia.
      intros [|] H; try reflexivity. lia. }
    destruct (DequeRunProofs.rep_shows 100 ltac:(lia) _ _ _ R) as (S & L & _). auto.
Qed.
Print Assumptions C113_deque_looking_refuted.

(** What a looking closure sees: the elements accepted so far in the first places, the old
    ones behind them.  It is called once on each element, in order; Retain ends, and the deque
    has the accepted elements. *)
Theorem C113_deque_looking_characterised : forall T S (zero : T) limit eqb (f : S -> T -> body DequeSpec.dop DequeSpec.danswer (bool * S)) d l st,
  7 <= limit < 2 ^ 63 -> on_deque limit d l -> (forall st x, peeking (f st x)) ->
  exists st' kept d', accepting limit eqb f (overwritten l (Z.to_nat (DequeModel.Capacity d))) st l [] st' kept /\
    on_deque limit d' kept /\ exists n, forall fuel, (n <= fuel)%nat -> Deque_Retain zero limit eqb fuel d f st = Ret (st', d').
Proof.
  intros T S zero limit eqb f d l st Ok [L Sh] P. pose proof (DequeRunProofs.shows_rep limit Ok _ _ Sh L) as R.
  destruct (Retain_looking zero limit Ok eqb f d l _ st R P) as (st' & kept & A & d' & N & R' & E).
  destruct (DequeRunProofs.rep_shows limit Ok _ _ _ R') as (S' & L' & _). exists st', kept, d'. eauto.
Qed.
Print Assumptions C113_deque_looking_characterised.
(** FillWith: once for each place; the places before show the answers already given. *)
Theorem C113_fill_looking_characterised : forall T S (zero : T) limit eqb (f : S -> body DequeSpec.dop DequeSpec.danswer (T * S)) d l st,
  7 <= limit < 2 ^ 63 -> on_deque limit d l -> (forall st, peeking (f st)) ->
  exists st' made d', answering limit eqb f (overwritten l (Z.to_nat (DequeModel.Capacity d))) st (length l) [] st' made /\
    on_deque limit d' made /\ exists n, forall fuel, (n <= fuel)%nat -> Deque_FillWith zero limit eqb fuel d f st = Ret (st', d').
Proof.
  intros T S zero limit eqb f d l st Ok [L Sh] P. pose proof (DequeRunProofs.shows_rep limit Ok _ _ Sh L) as R.
  destruct (FillWith_looking zero limit Ok eqb f d l _ st R P) as (st' & made & A & d' & N & R' & E).
  destruct (DequeRunProofs.rep_shows limit Ok _ _ _ R') as (S' & L' & _). exists st', made, d'. eauto.
Qed.
Print Assumptions C113_fill_looking_characterised.

(** A closure that pushes to the deque in each call never lets Retain or FillWith end (it
    panics when the buffer cannot grow any more), unless the deque is empty. *)
Theorem C113_deque_endless : forall T S (zero : T) limit eqb (y : S -> T -> T) (accept : S -> T -> bool) (next : S -> T -> S) d l st,
  7 <= limit < 2 ^ 63 -> on_deque limit d l -> l <> [] -> forall fuel r,
  Deque_Retain zero limit eqb fuel d (fun st x => Call (DequeSpec.PushBack (y st x)) (fun _ => Return (accept st x, next st x))) st <> Ret r.
Proof.
  intros T S zero limit eqb y accept next d l st Ok [L Sh] Ne fuel r. pose proof (DequeRunProofs.shows_rep limit Ok _ _ Sh L) as R.
  apply (retain_pushing zero limit Ok eqb y accept next fuel st 0 0 d l _ R); [destruct l; [congruence|cbn; lia]|lia].
Qed.
Print Assumptions C113_deque_endless.
Theorem C113_fill_endless : forall T S (zero : T) limit eqb (y x : S -> T) (next : S -> S) d l st,
  7 <= limit < 2 ^ 63 -> on_deque limit d l -> l <> [] -> forall fuel r,
  Deque_FillWith zero limit eqb fuel d (fun st => Call (DequeSpec.PushBack (y st)) (fun _ => Return (x st, next st))) st <> Ret r.
Proof.
  intros T S zero limit eqb y x next d l st Ok [L Sh] Ne fuel r. pose proof (DequeRunProofs.shows_rep limit Ok _ _ Sh L) as R.
  apply (fill_pushing zero limit Ok eqb y x next fuel st 0 d l _ R). destruct l; [congruence|cbn; lia].
Qed.
Print Assumptions C113_fill_endless.

(** Any closure, as long as it does not make the deque shorter than the part already written
    ([retaining], [filling]). *)
Theorem C113_deque_characterised : forall T S (zero : T) limit eqb (f : S -> T -> body DequeSpec.dop DequeSpec.danswer (bool * S)) d l st st' l' c',
  7 <= limit < 2 ^ 63 -> on_deque limit d l -> retaining limit eqb f st 0 0 (l, Z.to_nat (DequeModel.Capacity d)) st' (l', c') ->
  exists d' n, on_deque limit d' l' /\ DequeModel.Capacity d' = Z.of_nat c' /\ forall fuel, (n <= fuel)%nat -> Deque_Retain zero limit eqb fuel d f st = Ret (st', d').
Proof.
  intros T S zero limit eqb f d l st st' l' c' Ok [L Sh] H. pose proof (DequeRunProofs.shows_rep limit Ok _ _ Sh L) as R.
  destruct (retaining_sim zero limit Ok eqb _ _ _ _ _ _ _ H d R) as (d' & N & R' & E); [cbn; lia|].
  destruct (DequeRunProofs.rep_shows limit Ok _ _ _ R') as (S' & L' & C). exists d', N. auto.
Qed.
Print Assumptions C113_deque_characterised.
Theorem C113_fill_characterised : forall T S (zero : T) limit eqb (f : S -> body DequeSpec.dop DequeSpec.danswer (T * S)) d l st st' l' c',
  7 <= limit < 2 ^ 63 -> on_deque limit d l -> filling limit eqb f st 0 (l, Z.to_nat (DequeModel.Capacity d)) st' (l', c') ->
  exists d' n, on_deque limit d' l' /\ DequeModel.Capacity d' = Z.of_nat c' /\ forall fuel, (n <= fuel)%nat -> Deque_FillWith zero limit eqb fuel d f st = Ret (st', d').
Proof.
  intros T S zero limit eqb f d l st st' l' c' Ok [L Sh] H. pose proof (DequeRunProofs.shows_rep limit Ok _ _ Sh L) as R.
  destruct (filling_sim zero limit Ok eqb _ _ _ _ _ _ H d R) as (d' & N & R' & E).
  destruct (DequeRunProofs.rep_shows limit Ok _ _ _ R') as (S' & L' & C). exists d', N. auto.
Qed.
Print Assumptions C113_fill_characterised.

(** 1, 2, 3: the first call pushes 7, which is then offered too; then a pop while filling. *)
Example C113_deque_nonvacuous :
  let f := fun (first : bool) (x : Z) => if first then Call (DequeSpec.PushBack 7) (fun _ => Return (false, false)) else Return (Z.odd x, false) in
  let g := fun (n : Z) => if Z.eqb n 1 then Call DequeSpec.PopBack (fun _ => Return (5, n + 1)) else Return (n, n + 1) in
  on_deque 100 three [1; 2; 3] /\
  retaining 100 Z.eqb f true 0 0 ([1; 2; 3], 4%nat) false ([3; 7], 4%nat) /\
  (exists d', Deque_Retain 0 100 Z.eqb 5 three f true = Ret (false, d') /\ DequeHistory.shows d' [3; 7]) /\
  filling 100 Z.eqb g 0 0 ([1; 2; 3], 4%nat) 2 ([0; 5], 4%nat) /\
  (exists d', Deque_FillWith 0 100 Z.eqb 3 three g 0 = Ret (2, d') /\ DequeHistory.shows d' [0; 5]) /\
  (forall fuel r, Deque_Retain 0 100 Z.eqb fuel three (fun (_ : unit) x => Call (DequeSpec.PushBack x) (fun _ => Return (true, tt))) tt <> Ret r).
Proof.
  cbv zeta. pose proof (proj1 C113_deque_looking_refuted) as [L Sh].
  assert (H1 : retaining 100 Z.eqb (fun (first : bool) (x : Z) => if first then Call (DequeSpec.PushBack 7) (fun _ => Return (false, false)) else Return (Z.odd x, false))
    true 0 0 ([1; 2; 3], 4%nat) false ([3; 7], 4%nat)).
  { eapply retaining_drop; [reflexivity|eapply does_call; [apply DequeSpec.d_push_back|unfold DequeShareSpec.fits; cbn; lia|apply does_return]|]. cbn.
    eapply retaining_drop; [reflexivity|apply does_return|].
    eapply (retaining_keep _ _ _ _ _ _ _ _ 3); [reflexivity|apply does_return|cbn; lia|].
    eapply (retaining_keep _ _ _ _ _ _ _ _ 7); [reflexivity|apply does_return|cbn; lia|].
    apply (retaining_end _ _ _ false 4 2 [3; 7; 3; 7] 4); cbn; lia. }
  assert (H2 : filling 100 Z.eqb (fun (n : Z) => if Z.eqb n 1 then Call DequeSpec.PopBack (fun _ => Return (5, n + 1)) else Return (n, n + 1))
    0 0 ([1; 2; 3], 4%nat) 2 ([0; 5], 4%nat)).
  { eapply (filling_step _ _ _ _ _ _ _ 0 1); [cbn; lia|apply does_return|cbn; lia|]. cbn.
    eapply (filling_step _ _ _ _ _ _ _ 5 2); [cbn; lia|eapply does_call; [apply (DequeSpec.d_pop_back _ [0; 2] 3)|unfold DequeShareSpec.fits; cbn; lia|apply does_return]|cbn; lia|].
    cbn. apply filling_end. cbn. lia. }
  split; [auto|]. split; [exact H1|]. split.
  { destruct (C113_deque_characterised Z bool 0 100 Z.eqb _ three [1; 2; 3] true false [3; 7] 4%nat ltac:(lia) (conj L Sh) H1) as (d' & n & [_ S'] & _ & E).
    eexists. split; [vm_compute; reflexivity|]. specialize (E (5 + n)%nat ltac:(lia)).
    assert (Q : forall k, Deque_Retain 0 100 Z.eqb (5 + k) three (fun (first : bool) (x : Z) => if first then Call (DequeSpec.PushBack 7) (fun _ => Return (false, false)) else Return (Z.odd x, false)) true
      = Ret (false, DequeModel.mkDeque [3; 7; 3; 7] 2 0)) by (intros k; reflexivity).
    rewrite Q in E. injection E as <-. exact S'. }
  split; [exact H2|]. split.
  { destruct (C113_fill_characterised Z Z 0 100 Z.eqb _ three [1; 2; 3] 0 2 [0; 5] 4%nat ltac:(lia) (conj L Sh) H2) as (d' & n & [_ S'] & _ & E).
    eexists. split; [vm_compute; reflexivity|]. specialize (E (3 + n)%nat ltac:(lia)).
    assert (Q : forall k, Deque_FillWith 0 100 Z.eqb (3 + k) three (fun (n : Z) => if Z.eqb n 1 then Call DequeSpec.PopBack (fun _ => Return (5, n + 1)) else Return (n, n + 1)) 0
      = Ret (2, DequeModel.mkDeque [0; 5; 3; 0] 2 0)) by (intros k; reflexivity).
    rewrite Q in E. injection E as <-. exact S'. }
  intros fuel r. apply (C113_deque_endless Z unit 0 100 Z.eqb (fun _ x => x) (fun _ _ => true) (fun _ _ => tt) three [1; 2; 3] tt ltac:(lia) (conj L Sh)). discriminate.
Qed.
