(** IterReenterProps.v -- C128: the functions given to Map, Filter and Fold of a Vec's iterator
    or a LinkedList's or a VecDeque's may use the vectors (lists, the deque) of the program, the iterated one
    among them: they are called on the elements it had when the iterator was made. *)
From Verif Require Import Base Effect VecSpec VecModel VecHistory VecProofs IterShareSpec IterShareModel.
From Verif Require Import ReenterSpec ReenterModel ReenterProofs IterReenterSpec IterReenterModel IterReenterProofs.
Local Open Scope nat_scope.

Notation zrun ops := (run 0%Z (fun _ _ => 0) Z.eqb Z.eqb (fun x => x) ([], []) ops).
Notation zfold := (VIter_Fold 0%Z (fun _ _ => 0) Z.eqb Z.eqb (fun x => x)).

(** False: 1, 2, 3; the function writes 10 to place 2 and adds its arguments.  The sum is 13,
    not 6. *)
Definition write_and_add : unit -> Z -> Z -> body (@op Z) (@answer Z) (Z * unit) :=
  fun st acc x => Call (OSet 0 2 10%Z) (fun _ => Return ((acc + x)%Z, st)).
Theorem C128_refuted :
  exists w a s, zrun [ONew; OPush 0 1%Z; OPush 0 2%Z; OPush 0 3%Z] = Ret (w, a) /\ var w 0 = Ret s /\
    fold_seen (zfold 4 w (Vec_IntoIter s) 0%Z write_and_add tt) = Some (13, tt, [[1; 2; 10]])%Z /\
    folded 0%Z Z.eqb Z.eqb (fun x => x) write_and_add 0%Z tt [1; 2; 3]%Z (view w) = Some (6, tt, [[1; 2; 10]])%Z.
Proof. eexists. eexists. eexists. split; [vm_compute; reflexivity|]. split; [vm_compute; reflexivity|]. split; vm_compute; reflexivity. Qed.
Print Assumptions C128_refuted.

(** For any function, which may call any method of any vector: Fold, Map and Filter end (n + 1
    rounds do for n elements), call it as often as the vector had elements when the iterator was
    made, use its answers in order, and panic exactly when one of its calls does.  If it does not
    write the elements of the vector in place (pushing, popping, clearing, and anything to other
    vectors is allowed), then it is called on exactly those elements, in order. *)
Theorem C128_fold_partial : forall T S (zero : T) extra eqb deq clone ops w a v l (f : S -> T -> T -> body op answer (T * S)) init st fuel,
  run zero extra eqb deq clone ([], []) ops = Ret (w, a) -> nth_error (view w) v = Some l -> length l < fuel ->
  exists s, var w v = Ret s /\ exists given, length given = length l /\
    let r := VIter_Fold zero extra eqb deq clone fuel w (Vec_IntoIter s) init f st in
    r <> Diverge /\ fold_seen r = folded zero eqb deq clone f init st given (view w) /\
    (fold_careful zero eqb deq clone v (length l) f init st l (view w) true -> given = l).
Proof. intros T S zero extra eqb deq clone ops w a v l f init st fuel E Hv Hf. apply fold_any; auto. exact (reached_separate _ _ _ _ _ _ _ _ _ E). Qed.
Print Assumptions C128_fold_partial.
Theorem C128_map_partial : forall T S (zero : T) extra eqb deq clone ops w a v l (f : S -> T -> body op answer (T * S)) st fuel,
  run zero extra eqb deq clone ([], []) ops = Ret (w, a) -> nth_error (view w) v = Some l -> length l < fuel ->
  exists s, var w v = Ret s /\ exists given, length given = length l /\
    let r := VIter_Map zero extra eqb deq clone fuel w (Vec_IntoIter s) f st in
    r <> Diverge /\ collect_seen r = collected zero eqb deq clone mapped f st given (view w) /\
    (collect_careful zero eqb deq clone v (length l) f st l (view w) true -> given = l).
Proof. intros T S zero extra eqb deq clone ops w a v l f st fuel E Hv Hf. apply (collect_any zero extra eqb deq clone T mapped); auto. exact (reached_separate _ _ _ _ _ _ _ _ _ E). Qed.
Print Assumptions C128_map_partial.
Theorem C128_filter_partial : forall T S (zero : T) extra eqb deq clone ops w a v l (f : S -> T -> body op answer (bool * S)) st fuel,
  run zero extra eqb deq clone ([], []) ops = Ret (w, a) -> nth_error (view w) v = Some l -> length l < fuel ->
  exists s, var w v = Ret s /\ exists given, length given = length l /\
    let r := VIter_Filter zero extra eqb deq clone fuel w (Vec_IntoIter s) f st in
    r <> Diverge /\ collect_seen r = collected zero eqb deq clone filtered f st given (view w) /\
    (collect_careful zero eqb deq clone v (length l) f st l (view w) true -> given = l).
Proof. intros T S zero extra eqb deq clone ops w a v l f st fuel E Hv Hf. apply (collect_any zero extra eqb deq clone bool filtered); auto. exact (reached_separate _ _ _ _ _ _ _ _ _ E). Qed.
Print Assumptions C128_filter_partial.

(** A function that adds no elements to the vector and removes none is called on what is at
    places 0, 1, 2, ... of the vector at the time of each call. *)
Theorem C128_fold_characterised : forall T S (zero : T) extra eqb deq clone ops w a v l (f : S -> T -> T -> body op answer (T * S)) init st fuel,
  run zero extra eqb deq clone ([], []) ops = Ret (w, a) -> nth_error (view w) v = Some l -> length l < fuel ->
  (forall st acc x, keeping v (f st acc x)) ->
  exists s, var w v = Ret s /\
    fold_seen (VIter_Fold zero extra eqb deq clone fuel w (Vec_IntoIter s) init f st) = folded_live zero eqb deq clone f v (length l) 0 init st (view w).
Proof.
  intros T S zero extra eqb deq clone ops w a v l f init st fuel E Hv Hf K. pose proof (reached_separate _ _ _ _ _ _ _ _ _ E) as Sp.
  destruct (var_view w v l Sp Hv) as (s & Es & Ls & _). exists s. split; [exact Es|]. apply fold_live; auto; lia.
Qed.
Print Assumptions C128_fold_characterised.

(** 1, 2, 3.  A function that pushes what it is given to the vector itself, and one that pops;
    the function of the refutation keeps the size. *)
Example C128_nonvacuous :
  let push := fun (st : unit) (acc x : Z) => Call (OPush 0 x) (fun _ => Return ((acc + x)%Z, st)) in
  let double := fun (st : Z) (x : Z) => Call (OPop 0) (fun _ => Return ((x + x)%Z, (st + 1)%Z)) in
  let odd := fun (st : Z) (x : Z) => Call (OClear 0) (fun _ => Return (Z.odd x, (st + 1)%Z)) in
  (forall st acc x, keeping 0 (write_and_add st acc x)) /\
  exists w a s, zrun [ONew; OPush 0 1%Z; OPush 0 2%Z; OPush 0 3%Z] = Ret (w, a) /\ nth_error (view w) 0 = Some [1; 2; 3]%Z /\ var w 0 = Ret s /\
    fold_careful 0%Z Z.eqb Z.eqb (fun x => x) 0 3 push 0%Z tt [1; 2; 3]%Z (view w) true /\
    fold_seen (zfold 4 w (Vec_IntoIter s) 0%Z push tt) = Some (6, tt, [[1; 2; 3; 1; 2; 3]])%Z /\
    collect_careful 0%Z Z.eqb Z.eqb (fun x => x) 0 3 double 0%Z [1; 2; 3]%Z (view w) true /\
    collect_seen (VIter_Map 0%Z (fun _ _ => 0) Z.eqb Z.eqb (fun x => x) 4 w (Vec_IntoIter s) double 0%Z) = Some (3, [2; 4; 6], [[]])%Z /\
    collect_careful 0%Z Z.eqb Z.eqb (fun x => x) 0 3 odd 0%Z [1; 2; 3]%Z (view w) true /\
    collect_seen (VIter_Filter 0%Z (fun _ _ => 0) Z.eqb Z.eqb (fun x => x) 4 w (Vec_IntoIter s) odd 0%Z) = Some (3, [1; 3], [[]])%Z /\
    folded_live 0%Z Z.eqb Z.eqb (fun x => x) write_and_add 0 3 0 0%Z tt (view w) = Some (13, tt, [[1; 2; 10]])%Z.
Proof.
  cbv zeta. split; [cbn; auto|]. eexists. eexists. eexists. split; [vm_compute; reflexivity|].
  repeat (split; [vm_compute; auto|]). vm_compute. reflexivity.
Qed.

(** *** Linked lists *)
From Verif Require ListModel ListSpec ListHistory.
Notation zlrun ops := (ListHistory.run Z.eqb (fun x => x) ListHistory.start ops).

(** False: for every list of at least two elements, Fold with a function that pushes some
    element at the back of the list has not ended after n calls, for any n. *)
Theorem C128_list_endless : forall T S (eqb : T -> T -> bool) clone ops s a w v l (y x : S -> T -> T -> T) (next : S -> T -> T -> S) init st n,
  ListSpec.lhistory eqb clone [] ops s a -> ListHistory.run eqb clone ListHistory.start ops = Ret (w, a) ->
  nth_error s v = Some l -> 2 <= length l -> (Z.of_nat (length l + n) < 2 ^ 64)%Z ->
  exists l0, idx (ListHistory.vars w) v = Ret l0 /\
    LIter_Fold eqb clone n w (ListModel.IntoIter l0) init
      (fun st acc e => Call (ListSpec.PushBack v (y st acc e)) (fun _ => Return (x st acc e, next st acc e))) st = Diverge.
Proof.
  intros T S eqb clone ops s a w v l y x next init st n H E N L B. destruct (stands_begin eqb clone _ _ _ _ _ _ H E N) as (l0 & El & St).
  exists l0. split; [exact El|].
  assert (Lb : lbegin v l = ([], Some (v, 0))) by (destruct l; [cbn in L; lia|reflexivity]). rewrite Lb in St.
  destruct (push_rounds eqb clone y x next v n init st s 0 l N L (proj1 St) B) as (acc' & st' & s' & r' & R).
  destruct (fold_rounds eqb clone _ _ _ _ _ _ _ _ _ _ R _ _ St) as (w' & it' & _ & F). specialize (F 0). rewrite Nat.add_0_r in F. exact F.
Qed.
Print Assumptions C128_list_endless.

(** The function is called on what the iterator gives at the time of each call: if n calls
    lead to a place where it gives nothing (see [lrounds], [lgiven], [lmoved]), Fold ends with
    the result of the last call and the lists as the calls left them; if n calls are made at
    all, it does not end before. *)
Theorem C128_list_fold_characterised : forall T S (eqb : T -> T -> bool) clone ops s a w v l (f : S -> T -> T -> body (ListSpec.lop T) (ListSpec.lanswer T) (T * S)) init st n acc' st' s' r',
  ListSpec.lhistory eqb clone [] ops s a -> ListHistory.run eqb clone ListHistory.start ops = Ret (w, a) ->
  nth_error s v = Some l -> lrounds eqb clone f n init st s (lbegin v l) acc' st' s' r' ->
  exists l0, idx (ListHistory.vars w) v = Ret l0 /\
    (forall fuel, fuel <= n -> LIter_Fold eqb clone fuel w (ListModel.IntoIter l0) init f st = Diverge) /\
    (fst (lgiven s' r') = None -> exists w',
      (forall fuel, n < fuel -> LIter_Fold eqb clone fuel w (ListModel.IntoIter l0) init f st = Ret (acc', st', w')) /\
      forall u m, nth_error s' u = Some m -> exists w1, ListHistory.exec eqb clone w' (ListSpec.Elements u) = Ret (w1, ListSpec.Many m)).
Proof.
  intros T S eqb clone ops s a w v l f init st n acc' st' s' r' H E N R. destruct (stands_begin eqb clone _ _ _ _ _ _ H E N) as (l0 & El & St).
  exists l0. split; [exact El|]. split.
  - intros fuel Lf. destruct (rounds_prefix eqb clone _ _ _ _ _ _ _ _ _ _ R fuel Lf) as (acc1 & st1 & s1 & r1 & R1).
    destruct (fold_rounds eqb clone _ _ _ _ _ _ _ _ _ _ R1 _ _ St) as (w' & it' & _ & F). specialize (F 0). rewrite Nat.add_0_r in F. exact F.
  - intros G. destruct (fold_rounds eqb clone _ _ _ _ _ _ _ _ _ _ R _ _ St) as (w' & it' & St' & F). exists w'. split.
    + intros fuel Lf. replace fuel with (n + (fuel - n)) by lia. rewrite F. eapply fold_over; eauto. lia.
    + intros u m Hm. eapply stands_shows; eauto.
Qed.
Print Assumptions C128_list_fold_characterised.

(** Functions that leave the backs of the lists alone (pushing and popping at the front,
    clearing, and reading are allowed) are called on the elements the list had when the
    iterator was made, in order. *)
Theorem C128_list_fold_partial : forall T S (eqb : T -> T -> bool) clone ops s a w v l (f : S -> T -> T -> body (ListSpec.lop T) (ListSpec.lanswer T) (T * S)) init st acc' st' s',
  ListSpec.lhistory eqb clone [] ops s a -> ListHistory.run eqb clone ListHistory.start ops = Ret (w, a) ->
  nth_error s v = Some l -> (forall st acc x, lcareful (f st acc x)) -> lfolded eqb clone f init st l s acc' st' s' ->
  exists l0 w', idx (ListHistory.vars w) v = Ret l0 /\
    (forall fuel, length l < fuel -> LIter_Fold eqb clone fuel w (ListModel.IntoIter l0) init f st = Ret (acc', st', w')) /\
    forall u m, nth_error s' u = Some m -> exists w1, ListHistory.exec eqb clone w' (ListSpec.Elements u) = Ret (w1, ListSpec.Many m).
Proof.
  intros T S eqb clone ops s a w v l f init st acc' st' s' H E N L F.
  destruct (begin_sound s v l N) as [So A].
  destruct (careful_rounds eqb clone _ _ _ _ _ _ _ _ F L _ So A) as (r' & R & G).
  destruct (C128_list_fold_characterised _ _ _ _ _ _ _ _ _ _ _ _ _ _ _ _ _ _ H E N R) as (l0 & El & _ & W). destruct (W G) as (w' & Fo & Sh). eauto.
Qed.
Print Assumptions C128_list_fold_partial.

(** 1, 2, 3.  A function that pushes what it is given at the front of the list;
    and one that pops at the back, which is then called on fewer elements. *)
Example C128_list_nonvacuous :
  let push := fun (st : unit) (acc x : Z) => Call (ListSpec.PushFront 0 x) (fun _ => Return ((acc + x)%Z, st)) in
  let pop := fun (st : unit) (acc x : Z) => Call (ListSpec.PopBack 0) (fun _ => Return ((acc + x)%Z, st)) in
  let ops := [ListSpec.New; ListSpec.PushBack 0 1%Z; ListSpec.PushBack 0 2%Z; ListSpec.PushBack 0 3%Z] in
  (forall st acc x, lcareful (push st acc x)) /\
  ListSpec.lhistory Z.eqb (fun x => x) [] ops [[1; 2; 3]]%Z [ListSpec.Done; ListSpec.Done; ListSpec.Done; ListSpec.Done] /\
  lfolded Z.eqb (fun x => x) push 0%Z tt [1; 2; 3]%Z [[1; 2; 3]]%Z 6%Z tt [[3; 2; 1; 1; 2; 3]]%Z /\
  lrounds Z.eqb (fun x => x) pop 2 0%Z tt [[1; 2; 3]]%Z (lbegin 0 [1; 2; 3]%Z) 3%Z tt [[1]]%Z ([], None) /\
  exists w l0 w1 w2, zlrun ops = Ret (w, [ListSpec.Done; ListSpec.Done; ListSpec.Done; ListSpec.Done]) /\ idx (ListHistory.vars w) 0 = Ret l0 /\
    LIter_Fold Z.eqb (fun x => x) 4 w (ListModel.IntoIter l0) 0%Z push tt = Ret (6%Z, tt, w1) /\
    LIter_Fold Z.eqb (fun x => x) 4 w (ListModel.IntoIter l0) 0%Z pop tt = Ret (3%Z, tt, w2).
Proof.
  cbv zeta. split; [cbn; auto|]. split.
  { econstructor; [apply ListSpec.l_new|repeat constructor|].
    econstructor; [apply (ListSpec.l_push_back _ _ [[]] 0 1%Z []); reflexivity|repeat constructor|].
    econstructor; [apply (ListSpec.l_push_back _ _ [[1%Z]] 0 2%Z [1%Z]); reflexivity|repeat constructor|].
    econstructor; [apply (ListSpec.l_push_back _ _ [[1; 2]%Z] 0 3%Z [1; 2]%Z); reflexivity|repeat constructor|]. constructor. }
  split.
  { eapply lfolded_cons; [eapply lruns_call; [apply (ListSpec.l_push_front _ _ [[1; 2; 3]%Z] 0 1%Z [1; 2; 3]%Z); reflexivity|repeat constructor|constructor]|].
    eapply lfolded_cons; [eapply lruns_call; [apply (ListSpec.l_push_front _ _ [[1; 1; 2; 3]%Z] 0 2%Z [1; 1; 2; 3]%Z); reflexivity|repeat constructor|constructor]|].
    eapply lfolded_cons; [eapply lruns_call; [apply (ListSpec.l_push_front _ _ [[2; 1; 1; 2; 3]%Z] 0 3%Z [2; 1; 1; 2; 3]%Z); reflexivity|repeat constructor|constructor]|]. constructor. }
  split.
  { eapply lrounds_S; [reflexivity|eapply lmoves_call; [apply (ListSpec.l_pop_back _ _ [[1; 2; 3]%Z] 0 3%Z [1; 2]%Z); reflexivity|repeat constructor|constructor]|].
    eapply lrounds_S; [reflexivity|eapply lmoves_call; [apply (ListSpec.l_pop_back _ _ [[1; 2]%Z] 0 2%Z [1]%Z); reflexivity|repeat constructor|constructor]|]. constructor. }
  do 4 eexists. repeat (split; [vm_compute; reflexivity|]). vm_compute. reflexivity.
Qed.

(** Map and Filter do not end with such functions either. *)
Theorem C128_list_map_endless : forall T S (eqb : T -> T -> bool) clone ops s a w v l (y : S -> T -> T) (x : S -> T -> T) (next : S -> T -> S) st n,
  ListSpec.lhistory eqb clone [] ops s a -> ListHistory.run eqb clone ListHistory.start ops = Ret (w, a) ->
  nth_error s v = Some l -> 2 <= length l -> (Z.of_nat (length l + n) < 2 ^ 64)%Z ->
  exists l0, idx (ListHistory.vars w) v = Ret l0 /\
    LIter_Map eqb clone n w (ListModel.IntoIter l0) (fun st e => Call (ListSpec.PushBack v (y st e)) (fun _ => Return (x st e, next st e))) st = Diverge.
Proof. intros T S eqb clone. exact (collect_endless eqb clone mapped). Qed.
Print Assumptions C128_list_map_endless.
Theorem C128_list_filter_endless : forall T S (eqb : T -> T -> bool) clone ops s a w v l (y : S -> T -> T) (x : S -> T -> bool) (next : S -> T -> S) st n,
  ListSpec.lhistory eqb clone [] ops s a -> ListHistory.run eqb clone ListHistory.start ops = Ret (w, a) ->
  nth_error s v = Some l -> 2 <= length l -> (Z.of_nat (length l + n) < 2 ^ 64)%Z ->
  exists l0, idx (ListHistory.vars w) v = Ret l0 /\
    LIter_Filter eqb clone n w (ListModel.IntoIter l0) (fun st e => Call (ListSpec.PushBack v (y st e)) (fun _ => Return (x st e, next st e))) st = Diverge.
Proof. intros T S eqb clone. exact (collect_endless eqb clone filtered). Qed.
Print Assumptions C128_list_filter_endless.

(** Map and Filter of a list's iterator: the new list is list n, the next number; the result is
    an iterator of it.  As for Fold: exactly which calls are made, and what is kept; *)
Theorem C128_list_map_characterised : forall T S (eqb : T -> T -> bool) clone ops s a w v l n (f : S -> T -> body (ListSpec.lop T) (ListSpec.lanswer T) (T * S)) st k st' s' r',
  ListSpec.lhistory eqb clone [] ops s a -> ListHistory.run eqb clone ListHistory.start ops = Ret (w, a) ->
  nth_error s v = Some l -> n = length s -> lrounds eqb clone (lcollecting mapped n f) k tt st (s ++ [[]]) (lbegin v l) tt st' s' r' ->
  exists l0, idx (ListHistory.vars w) v = Ret l0 /\
    (forall fuel, fuel <= k -> LIter_Map eqb clone fuel w (ListModel.IntoIter l0) f st = Diverge) /\
    (fst (lgiven s' r') = None -> exists w' ln, idx (ListHistory.vars w') n = Ret ln /\
      (forall fuel, k < fuel -> LIter_Map eqb clone fuel w (ListModel.IntoIter l0) f st = Ret (st', w', ListModel.IntoIter ln)) /\
      forall u m, nth_error s' u = Some m -> exists w1, ListHistory.exec eqb clone w' (ListSpec.Elements u) = Ret (w1, ListSpec.Many m)).
Proof. intros T S eqb clone. exact (collect_rounds eqb clone mapped). Qed.
Print Assumptions C128_list_map_characterised.
Theorem C128_list_filter_characterised : forall T S (eqb : T -> T -> bool) clone ops s a w v l n (f : S -> T -> body (ListSpec.lop T) (ListSpec.lanswer T) (bool * S)) st k st' s' r',
  ListSpec.lhistory eqb clone [] ops s a -> ListHistory.run eqb clone ListHistory.start ops = Ret (w, a) ->
  nth_error s v = Some l -> n = length s -> lrounds eqb clone (lcollecting filtered n f) k tt st (s ++ [[]]) (lbegin v l) tt st' s' r' ->
  exists l0, idx (ListHistory.vars w) v = Ret l0 /\
    (forall fuel, fuel <= k -> LIter_Filter eqb clone fuel w (ListModel.IntoIter l0) f st = Diverge) /\
    (fst (lgiven s' r') = None -> exists w' ln, idx (ListHistory.vars w') n = Ret ln /\
      (forall fuel, k < fuel -> LIter_Filter eqb clone fuel w (ListModel.IntoIter l0) f st = Ret (st', w', ListModel.IntoIter ln)) /\
      forall u m, nth_error s' u = Some m -> exists w1, ListHistory.exec eqb clone w' (ListSpec.Elements u) = Ret (w1, ListSpec.Many m)).
Proof. intros T S eqb clone. exact (collect_rounds eqb clone filtered). Qed.
Print Assumptions C128_list_filter_characterised.
(** and for functions that leave the backs of the lists alone, the calls are on the elements
    the list had when the iterator was made, in order. *)
Theorem C128_list_map_partial : forall T S (eqb : T -> T -> bool) clone ops s a w v l n (f : S -> T -> body (ListSpec.lop T) (ListSpec.lanswer T) (T * S)) st st' s',
  ListSpec.lhistory eqb clone [] ops s a -> ListHistory.run eqb clone ListHistory.start ops = Ret (w, a) ->
  nth_error s v = Some l -> n = length s -> (forall st x, lcareful (f st x)) -> lcollected eqb clone mapped n f st l (s ++ [[]]) st' s' ->
  exists l0 w' ln, idx (ListHistory.vars w) v = Ret l0 /\ idx (ListHistory.vars w') n = Ret ln /\
    (forall fuel, length l < fuel -> LIter_Map eqb clone fuel w (ListModel.IntoIter l0) f st = Ret (st', w', ListModel.IntoIter ln)) /\
    forall u m, nth_error s' u = Some m -> exists w1, ListHistory.exec eqb clone w' (ListSpec.Elements u) = Ret (w1, ListSpec.Many m).
Proof. intros T S eqb clone. exact (collect_careful_list eqb clone mapped). Qed.
Print Assumptions C128_list_map_partial.
Theorem C128_list_filter_partial : forall T S (eqb : T -> T -> bool) clone ops s a w v l n (f : S -> T -> body (ListSpec.lop T) (ListSpec.lanswer T) (bool * S)) st st' s',
  ListSpec.lhistory eqb clone [] ops s a -> ListHistory.run eqb clone ListHistory.start ops = Ret (w, a) ->
  nth_error s v = Some l -> n = length s -> (forall st x, lcareful (f st x)) -> lcollected eqb clone filtered n f st l (s ++ [[]]) st' s' ->
  exists l0 w' ln, idx (ListHistory.vars w) v = Ret l0 /\ idx (ListHistory.vars w') n = Ret ln /\
    (forall fuel, length l < fuel -> LIter_Filter eqb clone fuel w (ListModel.IntoIter l0) f st = Ret (st', w', ListModel.IntoIter ln)) /\
    forall u m, nth_error s' u = Some m -> exists w1, ListHistory.exec eqb clone w' (ListSpec.Elements u) = Ret (w1, ListSpec.Many m).
Proof. intros T S eqb clone. exact (collect_careful_list eqb clone filtered). Qed.
Print Assumptions C128_list_filter_partial.

(** 1, 2, 3.  Map with a function that pushes its argument at the front and doubles it; Filter
    with one that clears the list and keeps odd elements. *)
Example C128_list_collect_nonvacuous :
  let double := fun (st : unit) (x : Z) => Call (ListSpec.PushFront 0 x) (fun _ => Return ((x + x)%Z, st)) in
  let odd := fun (st : unit) (x : Z) => Call (ListSpec.Clear 0) (fun _ => Return (Z.odd x, st)) in
  let ops := [ListSpec.New; ListSpec.PushBack 0 1%Z; ListSpec.PushBack 0 2%Z; ListSpec.PushBack 0 3%Z] in
  (forall st x, lcareful (double st x)) /\ (forall st x, lcareful (odd st x)) /\
  lcollected Z.eqb (fun x => x) mapped 1 double tt [1; 2; 3]%Z [[1; 2; 3]; []]%Z tt [[3; 2; 1; 1; 2; 3]; [2; 4; 6]]%Z /\
  lcollected Z.eqb (fun x => x) filtered 1 odd tt [1; 2; 3]%Z [[1; 2; 3]; []]%Z tt [[]; [1; 3]]%Z /\
  exists w l0 p q, zlrun ops = Ret (w, [ListSpec.Done; ListSpec.Done; ListSpec.Done; ListSpec.Done]) /\ idx (ListHistory.vars w) 0 = Ret l0 /\
    LIter_Map Z.eqb (fun x => x) 4 w (ListModel.IntoIter l0) double tt = Ret p /\
    LIter_Filter Z.eqb (fun x => x) 4 w (ListModel.IntoIter l0) odd tt = Ret q /\
    match ListHistory.exec Z.eqb (fun x => x) (snd (fst p)) (ListSpec.Elements 1) with Ret r => snd r = ListSpec.Many [2; 4; 6]%Z | _ => False end /\
    match ListHistory.exec Z.eqb (fun x => x) (snd (fst q)) (ListSpec.Elements 1) with Ret r => snd r = ListSpec.Many [1; 3]%Z | _ => False end.
Proof.
  cbv zeta. split; [cbn; auto|]. split; [cbn; auto|]. split.
  { eapply lcollected_keep with (m := []); [eapply lruns_call; [apply (ListSpec.l_push_front _ _ [[1; 2; 3]; []]%Z 0 1%Z [1; 2; 3]%Z); reflexivity|repeat constructor|constructor]|reflexivity|reflexivity|repeat constructor|].
    eapply lcollected_keep with (m := [2]%Z); [eapply lruns_call; [apply (ListSpec.l_push_front _ _ [[1; 1; 2; 3]; [2]]%Z 0 2%Z [1; 1; 2; 3]%Z); reflexivity|repeat constructor|constructor]|reflexivity|reflexivity|repeat constructor|].
    eapply lcollected_keep with (m := [2; 4]%Z); [eapply lruns_call; [apply (ListSpec.l_push_front _ _ [[2; 1; 1; 2; 3]; [2; 4]]%Z 0 3%Z [2; 1; 1; 2; 3]%Z); reflexivity|repeat constructor|constructor]|reflexivity|reflexivity|repeat constructor|]. constructor. }
  split.
  { eapply lcollected_keep with (m := []); [eapply lruns_call; [apply (ListSpec.l_clear _ _ [[1; 2; 3]; []]%Z 0 [1; 2; 3]%Z); reflexivity|repeat constructor|constructor]|reflexivity|reflexivity|repeat constructor|].
    eapply lcollected_drop; [eapply lruns_call; [apply (ListSpec.l_clear _ _ [[]; [1]]%Z 0 []); reflexivity|repeat constructor|constructor]|reflexivity|].
    eapply lcollected_keep with (m := [1]%Z); [eapply lruns_call; [apply (ListSpec.l_clear _ _ [[]; [1]]%Z 0 []); reflexivity|repeat constructor|constructor]|reflexivity|reflexivity|repeat constructor|]. constructor. }
  do 4 eexists. repeat (split; [vm_compute; reflexivity|]). vm_compute. reflexivity.
Qed.

(** *** A deque *)
From Verif Require DequeModel DequeSpec DequeHistory DequeRunProofs IterShareDequeProofs.
Local Open Scope Z_scope.

(** False: 1, 2; the function writes 10 at place 1 and adds its arguments.  The sum is 11,
    not 3. *)
Definition deque_write_and_add : unit -> Z -> Z -> body (DequeSpec.dop (T := Z)) (DequeSpec.danswer (T := Z)) (Z * unit) :=
  fun st acc x => Call (DequeSpec.Set_ 1 10) (fun _ => Return (acc + x, st)).
Theorem C128_deque_refuted : exists d d',
  DequeHistory.run 0 100 Z.eqb (DequeModel.mkDeque [0; 0] 0 0) [DequeSpec.PushBack 1; DequeSpec.PushBack 2] = Ret (d, [DequeSpec.Done; DequeSpec.Done]) /\
  DequeModel.VecDequeWithCapacity 0 100 2 = Ret (DequeModel.mkDeque [0; 0] 0 0) /\
  DIter_Fold 0 100 Z.eqb 3 d (Deque_IntoIter d) 0 deque_write_and_add tt = Ret (11, tt, d') /\
  dfolded Z.eqb deque_write_and_add 0 tt [1; 2] [1; 2] [DequeSpec.Set_ 1 10; DequeSpec.Set_ 1 10] 3 tt [1; 10].
Proof.
  do 2 eexists. split; [vm_compute; reflexivity|]. split; [vm_compute; reflexivity|]. split; [vm_compute; reflexivity|].
  change [DequeSpec.Set_ 1 10; DequeSpec.Set_ 1 10] with ([DequeSpec.Set_ 1 10] ++ [DequeSpec.Set_ 1 10] ++ []).
  eapply dfolded_cons; [eapply druns_call; [apply (DequeSpec.d_set Z.eqb [1; 2] 1 10); unfold DequeSpec.inside; cbn; lia|constructor]|].
  eapply dfolded_cons; [eapply druns_call; [apply (DequeSpec.d_set Z.eqb [1; 10] 1 10); unfold DequeSpec.inside; cbn; lia|constructor]|]. constructor.
Qed.
Print Assumptions C128_deque_refuted.

(** If the function's calls leave the elements the deque had alone (see [after]: adding and
    removing at either end is allowed, adding after removing is not) and there is memory for
    them, Fold calls it on exactly those elements, in order, ends with its last answer and
    leaves the deque as the calls made it. *)
Theorem C128_deque_fold_partial : forall T S (zero : T) limit eqb d l (f : S -> T -> T -> body DequeSpec.dop DequeSpec.danswer (T * S)) init st ops acc' st' l' fuel,
  7 <= limit < 2 ^ 63 -> DequeHistory.layout limit d -> DequeHistory.shows d l ->
  dfolded eqb f init st l l ops acc' st' l' -> dgentle eqb l (Inside 0 (length l)) ops ->
  DequeSpec.space (DequeModel.Capacity d) ops <= limit -> (length l < fuel)%nat ->
  exists d', DIter_Fold zero limit eqb fuel d (Deque_IntoIter d) init f st = Ret (acc', st', d') /\ DequeHistory.shows d' l'.
Proof.
  intros T S zero limit eqb d l f init st ops acc' st' l' fuel Ok La Sh Fo G Sp Lf.
  destruct (deque_start limit Ok d l Sh La) as (c & R & F).
  destruct (fold_gentle zero limit Ok eqb _ _ _ _ _ _ _ _ _ Fo (Inside 0 (length l)) d c (Deque_IntoIter d) l 0 _ fuel R
    (IterShareDequeProofs.tracks_iter limit _ _ _ R) G F Sp eq_refl (Nat.le_0_l _) Lf) as (d' & c' & E & R').
  exists d'. split; [exact E|]. now destruct (DequeRunProofs.rep_shows limit Ok _ _ _ R').
Qed.
Print Assumptions C128_deque_fold_partial.

(** A function that does not resize the deque is called on what is at places 0, 1, 2, ... of
    the deque at the time of each call. *)
Theorem C128_deque_fold_characterised : forall T S (zero : T) limit eqb d l (f : S -> T -> T -> body DequeSpec.dop DequeSpec.danswer (T * S)) init st ops acc' st' l' fuel,
  7 <= limit < 2 ^ 63 -> DequeHistory.layout limit d -> DequeHistory.shows d l ->
  dfolded_live eqb f 0 (length l) init st l ops acc' st' l' -> Forall (fun o => dresizes o = false) ops ->
  DequeSpec.space (DequeModel.Capacity d) ops <= limit -> (length l < fuel)%nat ->
  exists d', DIter_Fold zero limit eqb fuel d (Deque_IntoIter d) init f st = Ret (acc', st', d') /\ DequeHistory.shows d' l'.
Proof.
  intros T S zero limit eqb d l f init st ops acc' st' l' fuel Ok La Sh Fo G Sp Lf.
  destruct (deque_start limit Ok d l Sh La) as (c & R & F).
  destruct (fold_steady zero limit Ok eqb _ _ _ _ _ _ _ _ _ _ Fo d c (Deque_IntoIter d) _ fuel R (conj eq_refl eq_refl) G F Sp eq_refl Lf) as (d' & c' & E & R').
  exists d'. split; [exact E|]. now destruct (DequeRunProofs.rep_shows limit Ok _ _ _ R').
Qed.
Print Assumptions C128_deque_fold_characterised.

(** 1, 2 again.  A function that puts its argument at the back, which makes the deque grow; and
    the function of the refutation. *)
Example C128_deque_nonvacuous :
  let push := fun (st : unit) (acc x : Z) => Call (DequeSpec.PushBack x) (fun _ => Return (acc + x, st)) in
  let d := DequeModel.mkDeque [2; 1] 2 1 in
  DequeHistory.layout 100 d /\ DequeHistory.shows d [1; 2] /\
  dfolded Z.eqb push 0 tt [1; 2] [1; 2] [DequeSpec.PushBack 1; DequeSpec.PushBack 2] 3 tt [1; 2; 1; 2] /\
  dgentle Z.eqb [1; 2] (Inside 0 2) [DequeSpec.PushBack 1; DequeSpec.PushBack 2] /\
  dfolded_live Z.eqb deque_write_and_add 0 2 0 tt [1; 2] [DequeSpec.Set_ 1 10; DequeSpec.Set_ 1 10] 11 tt [1; 10] /\
  DequeSpec.space (DequeModel.Capacity d) [DequeSpec.PushBack 1; DequeSpec.PushBack 2] <= 100.
Proof.
  cbv zeta. split; [unfold DequeHistory.layout; cbn; lia|]. split.
  { apply (DequeRunProofs.rep_shows 100 ltac:(lia) _ _ 2%nat). exists [2; 1], 1%nat. split; [reflexivity|]. split; [|split; [reflexivity|lia]].
    split; [cbn; lia|]. split; [cbn; lia|]. intros [|[|i]] Hi; cbn in *; try reflexivity; lia. }
  split.
  { change [DequeSpec.PushBack 1; DequeSpec.PushBack 2] with ([DequeSpec.PushBack 1] ++ [DequeSpec.PushBack 2] ++ []).
    eapply dfolded_cons; [eapply druns_call; [apply DequeSpec.d_push_back|constructor]|].
    eapply dfolded_cons; [eapply druns_call; [apply DequeSpec.d_push_back|constructor]|]. constructor. }
  split; [eapply dgentle_cons; [apply DequeSpec.d_push_back|reflexivity|]; eapply dgentle_cons; [apply DequeSpec.d_push_back|reflexivity|]; constructor|].
  split; [|vm_compute; discriminate].
  change [DequeSpec.Set_ 1 10; DequeSpec.Set_ 1 10] with ([DequeSpec.Set_ 1 10] ++ [DequeSpec.Set_ 1 10] ++ []).
  eapply dfolded_live_next; [reflexivity|eapply druns_call; [apply (DequeSpec.d_set Z.eqb [1; 2] 1 10); unfold DequeSpec.inside; cbn; lia|constructor]|].
  eapply dfolded_live_next; [reflexivity|eapply druns_call; [apply (DequeSpec.d_set Z.eqb [1; 10] 1 10); unfold DequeSpec.inside; cbn; lia|constructor]|]. constructor.
Qed.

(** The same for Map and Filter; nd is the new deque, of which they return an iterator. *)
Theorem C128_deque_map_partial : forall T S (zero : T) limit eqb (f : S -> T -> body DequeSpec.dop DequeSpec.danswer (T * S)) d l st ops kept st' l' fuel,
  7 <= limit < 2 ^ 63 -> DequeHistory.layout limit d -> DequeHistory.shows d l ->
  dcollected eqb mapped f st l l ops kept st' l' -> dgentle eqb l (Inside 0 (length l)) ops ->
  DequeSpec.space (DequeModel.Capacity d) ops <= limit -> (length l < fuel)%nat ->
  exists d' nd, DIter_Map zero limit eqb fuel d (Deque_IntoIter d) f st = Ret (st', d', Deque_IntoIter nd) /\
    DequeHistory.shows d' l' /\ DequeHistory.shows nd kept.
Proof. intros T S zero limit eqb f d l st ops kept st' l' fuel Ok. exact (dcollect_gentle zero limit Ok eqb _ mapped f d l st ops kept st' l' fuel). Qed.
Print Assumptions C128_deque_map_partial.
Theorem C128_deque_filter_partial : forall T S (zero : T) limit eqb (f : S -> T -> body DequeSpec.dop DequeSpec.danswer (bool * S)) d l st ops kept st' l' fuel,
  7 <= limit < 2 ^ 63 -> DequeHistory.layout limit d -> DequeHistory.shows d l ->
  dcollected eqb filtered f st l l ops kept st' l' -> dgentle eqb l (Inside 0 (length l)) ops ->
  DequeSpec.space (DequeModel.Capacity d) ops <= limit -> (length l < fuel)%nat ->
  exists d' nd, DIter_Filter zero limit eqb fuel d (Deque_IntoIter d) f st = Ret (st', d', Deque_IntoIter nd) /\
    DequeHistory.shows d' l' /\ DequeHistory.shows nd kept.
Proof. intros T S zero limit eqb f d l st ops kept st' l' fuel Ok. exact (dcollect_gentle zero limit Ok eqb _ filtered f d l st ops kept st' l' fuel). Qed.
Print Assumptions C128_deque_filter_partial.
Theorem C128_deque_map_characterised : forall T S (zero : T) limit eqb (f : S -> T -> body DequeSpec.dop DequeSpec.danswer (T * S)) d l st ops kept st' l' fuel,
  7 <= limit < 2 ^ 63 -> DequeHistory.layout limit d -> DequeHistory.shows d l ->
  dcollected_live eqb mapped f 0 (length l) st l ops kept st' l' -> Forall (fun o => dresizes o = false) ops ->
  DequeSpec.space (DequeModel.Capacity d) ops <= limit -> (length l < fuel)%nat ->
  exists d' nd, DIter_Map zero limit eqb fuel d (Deque_IntoIter d) f st = Ret (st', d', Deque_IntoIter nd) /\
    DequeHistory.shows d' l' /\ DequeHistory.shows nd kept.
Proof. intros T S zero limit eqb f d l st ops kept st' l' fuel Ok. exact (dcollect_steady zero limit Ok eqb _ mapped f d l st ops kept st' l' fuel). Qed.
Print Assumptions C128_deque_map_characterised.
Theorem C128_deque_filter_characterised : forall T S (zero : T) limit eqb (f : S -> T -> body DequeSpec.dop DequeSpec.danswer (bool * S)) d l st ops kept st' l' fuel,
  7 <= limit < 2 ^ 63 -> DequeHistory.layout limit d -> DequeHistory.shows d l ->
  dcollected_live eqb filtered f 0 (length l) st l ops kept st' l' -> Forall (fun o => dresizes o = false) ops ->
  DequeSpec.space (DequeModel.Capacity d) ops <= limit -> (length l < fuel)%nat ->
  exists d' nd, DIter_Filter zero limit eqb fuel d (Deque_IntoIter d) f st = Ret (st', d', Deque_IntoIter nd) /\
    DequeHistory.shows d' l' /\ DequeHistory.shows nd kept.
Proof. intros T S zero limit eqb f d l st ops kept st' l' fuel Ok. exact (dcollect_steady zero limit Ok eqb _ filtered f d l st ops kept st' l' fuel). Qed.
Print Assumptions C128_deque_filter_characterised.

(** 1, 2 again: Map with a function that puts its argument at the front and doubles it, Filter
    with one that writes 10 at place 1 and keeps even elements. *)
Example C128_deque_collect_nonvacuous :
  let double := fun (st : unit) (x : Z) => Call (DequeSpec.PushFront x) (fun _ => Return (x + x, st)) in
  let even := fun (st : unit) (x : Z) => Call (DequeSpec.Set_ 1 10) (fun _ => Return (Z.even x, st)) in
  dcollected Z.eqb mapped double tt [1; 2] [1; 2] [DequeSpec.PushFront 1; DequeSpec.PushFront 2] [2; 4] tt [2; 1; 1; 2] /\
  dgentle Z.eqb [1; 2] (Inside 0 2) [DequeSpec.PushFront 1; DequeSpec.PushFront 2] /\
  dcollected_live Z.eqb filtered even 0 2 tt [1; 2] [DequeSpec.Set_ 1 10; DequeSpec.Set_ 1 10] [10] tt [1; 10] /\
  exists p q, DIter_Map 0 100 Z.eqb 3 (DequeModel.mkDeque [2; 1] 2 1) (Deque_IntoIter (DequeModel.mkDeque [2; 1] 2 1)) double tt = Ret p /\
    DequeModel.buffer (hdr (snd p)) = [2; 4] /\
    DIter_Filter 0 100 Z.eqb 3 (DequeModel.mkDeque [2; 1] 2 1) (Deque_IntoIter (DequeModel.mkDeque [2; 1] 2 1)) even tt = Ret q /\
    DequeModel.buffer (hdr (snd q)) = [10; 0].
Proof.
  cbv zeta. split.
  { change [DequeSpec.PushFront 1; DequeSpec.PushFront 2] with ([DequeSpec.PushFront 1] ++ [DequeSpec.PushFront 2] ++ []).
    change [2; 4] with (kept_with (mapped (1 + 1) 1) (kept_with (mapped (2 + 2) 2) [])).
    eapply dcollected_cons; [eapply druns_call; [apply DequeSpec.d_push_front|constructor]|].
    eapply dcollected_cons; [eapply druns_call; [apply DequeSpec.d_push_front|constructor]|]. constructor. }
  split; [eapply dgentle_cons; [apply DequeSpec.d_push_front|reflexivity|]; eapply dgentle_cons; [apply DequeSpec.d_push_front|reflexivity|]; constructor|].
  split.
  { change [DequeSpec.Set_ 1 10; DequeSpec.Set_ 1 10] with ([DequeSpec.Set_ 1 10] ++ [DequeSpec.Set_ 1 10] ++ []).
    change [10] with (kept_with (filtered (Z.even 1) 1) (kept_with (filtered (Z.even 10) 10) [])) at 1.
    eapply dcollected_live_next; [reflexivity|eapply druns_call; [apply (DequeSpec.d_set Z.eqb [1; 2] 1 10); unfold DequeSpec.inside; cbn; lia|constructor]|].
    eapply dcollected_live_next; [reflexivity|eapply druns_call; [apply (DequeSpec.d_set Z.eqb [1; 10] 1 10); unfold DequeSpec.inside; cbn; lia|constructor]|]. constructor. }
  do 2 eexists. repeat (split; [vm_compute; reflexivity|]). vm_compute. reflexivity.
Qed.
