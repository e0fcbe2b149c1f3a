(** IterShareProps.v -- C107: an iterator gives the elements its container had when the
    iterator was made, whatever is done with the container in the meantime. *)
From Verif Require Import Base Effect VecSpec VecModel VecHistory VecProofs IterShareSpec IterShareModel.
From Verif Require IterShareProofs IterShareDequeProofs IterShareListProofs.
From Verif Require DequeModel DequeSpec DequeHistory DequeProofs DequeRunProofs ListModel ListSpec ListHistory ListRunProofs.

(** *** Vectors *)

(** False: Set between IntoIter and Next shows through the iterator.
    (1, 2; it := v.IntoIter(); v.Set(0, 9); it.Next() gives 9, not 1.) *)
Definition vec_witness : list (iop (T := Z)) :=
  [IOp ONew; IOp (OPush 0 1%Z); IOp (OPush 0 2%Z); IIter 0; IOp (OSet 0 0 9%Z); INext 0].
Theorem C107_vec_refuted :
  answers (irun 0%Z (fun _ _ => 0) Z.eqb Z.eqb (fun x => x) ([], [], []) vec_witness)
    = Some [Done; Done; Done; Done; Value None; Value (Some 9%Z)] /\
  ideal 0%Z Z.eqb Z.eqb (fun x => x) ([], []) vec_witness
    = Some [Done; Done; Done; Done; Value None; Value (Some 1%Z)].
Proof. split; vm_compute; reflexivity. Qed.
Print Assumptions C107_vec_refuted.

(** For every program that leaves the elements of its iterators in place (the exact list of
    calls is [disturbs]; growing, shrinking at the end, clearing and retaining are allowed),
    the property holds: the same answers, and a panic where the specification has one. *)
Theorem C107_vec_calm_partial : forall T (zero : T) extra eqb deq clone prog,
  calm zero eqb deq clone [] [] prog ->
  answers (irun zero extra eqb deq clone ([], [], []) prog) = ideal zero eqb deq clone ([], []) prog.
Proof.
  intros T zero extra eqb deq clone prog C.
  exact (IterShareProofs.calm_run zero extra eqb deq clone prog ([], []) [] [] [] ltac:(split; constructor) (Forall2_nil _) C).
Qed.
Print Assumptions C107_vec_calm_partial.
Example C107_vec_calm_nonvacuous :
  let prog := [IOp ONew; IOp (OPush 0 1%Z); IOp (OPush 0 2%Z); IOp (OPush 0 3%Z); IIter 0; INext 0; IOp (OPush 0 4%Z); IOp (OPop 0);
               IOp (OPop 0); IOp (ORetain 0 (fun x => Z.eqb x 2)); IOp (OSet 0 0 9%Z); INext 0; INext 0; INext 0] in
  calm 0%Z Z.eqb Z.eqb (fun x => x) [] [] prog /\
  ideal 0%Z Z.eqb Z.eqb (fun x => x) ([], []) prog =
    Some [Done; Done; Done; Done; Done; Value (Some 1%Z); Done; Value (Some 4%Z); Value (Some 3%Z); Done; Value None;
          Value (Some 2%Z); Value (Some 3%Z); Value None].
Proof.
  cbv zeta. split; [|vm_compute; reflexivity].
  cbn [calm step nth nth_error app list_set put]. 
  repeat (split; [intros v n H; cbn in H; intuition; repeat match goal with H : (_, _) = (_, _) |- _ => injection H as <- <- end; reflexivity|]; cbn).
  exact I.
Qed.

(** For every program whatsoever: an iterator gives as many elements as the vector had when it
    was made, all other answers are untouched by it, and there is no other panic. *)
Theorem C107_vec_number : forall T (zero : T) extra eqb deq clone prog,
  match ideal zero eqb deq clone ([], []) prog with
  | Some l => exists st l', irun zero extra eqb deq clone ([], [], []) prog = Ret (st, l') /\ alike prog l' l
  | None => irun zero extra eqb deq clone ([], [], []) prog = Panic
  end.
Proof.
  intros T zero extra eqb deq clone prog.
  exact (IterShareProofs.any_run zero extra eqb deq clone prog [] ([], []) [] [] eq_refl ltac:(split; constructor) (Forall2_nil _)).
Qed.
Print Assumptions C107_vec_number.

(** And for every program that does not add or remove elements of a vector it iterates over,
    an iterator is a place in the vector: Next gives what is there now. *)
Theorem C107_vec_characterised : forall T (zero : T) extra eqb deq clone prog, steady [] prog ->
  answers (irun zero extra eqb deq clone ([], [], []) prog) = live zero eqb deq clone ([], []) prog.
Proof.
  intros T zero extra eqb deq clone prog S.
  exact (IterShareProofs.steady_run zero extra eqb deq clone prog [] ([], []) [] [] [] eq_refl ltac:(split; constructor) (Forall2_nil _) S).
Qed.
Print Assumptions C107_vec_characterised.
Example C107_vec_characterised_nonvacuous :
  let prog := [IOp ONew; IOp (OPush 0 1%Z); IOp (OPush 0 2%Z); IOp (OPush 0 3%Z); IIter 0; INext 0; IOp (OReverse 0); INext 0; INext 0] in
  steady [] prog /\
  live 0%Z Z.eqb Z.eqb (fun x => x) ([], []) prog =
    Some [Done; Done; Done; Done; Done; Value (Some 1%Z); Done; Value (Some 2%Z); Value (Some 1%Z)].
Proof.
  cbv zeta. split; [|vm_compute; reflexivity]. cbn [steady].
  repeat (split; [intros v H; cbn in H; intuition|]). exact I.
Qed.

(** *** Maps and sets: an iterator has a Vec of its own *)

(** Proved: whatever is then done with vectors and with other iterators of them. *)
Theorem C107_map : forall T (zero : T) extra eqb deq clone w xs prog, separate w ->
  calm zero eqb deq clone (view w) [] prog ->
  let (m', it) := Buf_IntoIter zero extra (fst w) xs in
  answers (irun zero extra eqb deq clone (m', snd w, [it]) prog) = ideal zero eqb deq clone (view w, [(xs, 0)]) prog.
Proof. intros T zero extra eqb deq clone. exact (IterShareProofs.Buf_run zero extra eqb deq clone). Qed.
Print Assumptions C107_map.
(** But CollectToVec hands out that very Vec: what is then written into the collected Vec, as
    long as it is not resized, is what the iterator gives. *)
Theorem C107_map_collected : forall T (zero : T) extra eqb deq clone w xs prog, separate w ->
  steady [length (snd w)] prog ->
  let (m', it) := Buf_IntoIter zero extra (fst w) xs in
  answers (irun zero extra eqb deq clone (m', snd w ++ [Buf_CollectToVec it], [it]) prog) =
    live zero eqb deq clone (view w ++ [xs], [(length (snd w), 0)]) prog.
Proof. intros T zero extra eqb deq clone. exact (IterShareProofs.Buf_collected zero extra eqb deq clone). Qed.
Print Assumptions C107_map_collected.
Example C107_map_nonvacuous :
  separate (T := Z) ([], []) /\ calm 0%Z Z.eqb Z.eqb (fun x => x) [] [] [IOp ONew; IOp (OPush 0 7%Z); INext 0; INext 0; INext 0] /\
  ideal 0%Z Z.eqb Z.eqb (fun x => x) ([], [([5; 6]%Z, 0)]) [IOp ONew; IOp (OPush 0 7%Z); INext 0; INext 0; INext 0] =
    Some [Done; Done; Value (Some 5%Z); Value (Some 6%Z); Value None] /\
  steady (T := Z) [0] [IOp (OSet 0 1 9%Z); INext 0; INext 0] /\
  live 0%Z Z.eqb Z.eqb (fun x => x) ([[5; 6]%Z], [(0, 0)]) [IOp (OSet 0 1 9%Z); INext 0; INext 0] =
    Some [Value None; Value (Some 5%Z); Value (Some 9%Z)].
Proof.
  split; [split; constructor|]. split; [|split; [vm_compute; reflexivity|split; [|vm_compute; reflexivity]]].
  - repeat (split; [intros v n []|]; cbn). exact I.
  - cbn [steady]. split; [intros v [<-|[]]; reflexivity|]. exact I.
Qed.

(** *** Deques *)
Local Open Scope Z_scope.

(** For every program whose calls leave the elements of its iterators alone (see [after]:
    adding or removing elements at either end is allowed, adding after removing is not),
    the property holds. *)
Theorem C107_deque_calm_partial : forall T (zero : T) limit eqb m l n prog ans, 7 <= limit < 2 ^ 63 ->
  DequeHistory.makes zero limit m l n -> DequeSpec.space n (calls prog) <= limit ->
  dideal eqb l [] prog ans -> dcalm eqb l [] prog ->
  exists d st, m = Ret d /\ dirun zero limit eqb (d, []) prog = Ret (st, ans).
Proof.
  intros T zero limit eqb m l n prog ans Ok Mk Sp Id Ca.
  destruct (IterShareDequeProofs.ideal_history eqb _ _ _ _ Id) as (l' & a' & H).
  destruct (IterShareDequeProofs.makes_start zero limit Ok eqb _ _ _ _ _ _ Mk H Sp) as (d & c & -> & R & A1 & A2 & A3 & A4).
  destruct (IterShareDequeProofs.calm_run zero limit Ok eqb _ _ _ _ Id [] d c [] _ Ca R ltac:(constructor) A1 A2 A3 A4) as (st & E).
  exists d, st. auto.
Qed.
Print Assumptions C107_deque_calm_partial.

(** For every program: as many elements as the deque had, and every other answer untouched. *)
Theorem C107_deque_number : forall T (zero : T) limit eqb m l n prog ans, 7 <= limit < 2 ^ 63 ->
  DequeHistory.makes zero limit m l n -> DequeSpec.space n (calls prog) <= limit ->
  dideal eqb l [] prog ans ->
  exists d st ans', m = Ret d /\ dirun zero limit eqb (d, []) prog = Ret (st, ans') /\ dalike prog ans' ans.
Proof.
  intros T zero limit eqb m l n prog ans Ok Mk Sp Id.
  destruct (IterShareDequeProofs.ideal_history eqb _ _ _ _ Id) as (l' & a' & H).
  destruct (IterShareDequeProofs.makes_start zero limit Ok eqb _ _ _ _ _ _ Mk H Sp) as (d & c & -> & R & A1 & A2 & A3 & A4).
  destruct (IterShareDequeProofs.any_run zero limit Ok eqb _ _ _ _ Id d c [] _ R ltac:(constructor) A1 A2 A3 A4) as (st & ans' & E & Al).
  exists d, st, ans'. auto.
Qed.
Print Assumptions C107_deque_number.

(** For every program that does not add, remove or make room once it has an iterator: an
    iterator is a place in the deque, and Next gives what is there now. *)
Theorem C107_deque_characterised : forall T (zero : T) limit eqb m l n prog ans, 7 <= limit < 2 ^ 63 ->
  DequeHistory.makes zero limit m l n -> DequeSpec.space n (calls prog) <= limit ->
  dlive eqb l [] prog ans -> dsteady false prog = true ->
  exists d st, m = Ret d /\ dirun zero limit eqb (d, []) prog = Ret (st, ans).
Proof.
  intros T zero limit eqb m l n prog ans Ok Mk Sp Id Ca.
  destruct (IterShareDequeProofs.live_history eqb _ _ _ _ Id) as (l' & a' & H).
  destruct (IterShareDequeProofs.makes_start zero limit Ok eqb _ _ _ _ _ _ Mk H Sp) as (d & c & -> & R & A1 & A2 & A3 & A4).
  destruct (IterShareDequeProofs.steady_run zero limit Ok eqb _ _ _ _ Id d c [] _ false R ltac:(constructor) Ca A1 A2 A3 A4) as (st & E).
  exists d, st. auto.
Qed.
Print Assumptions C107_deque_characterised.

(** False: an element that was there, then taken out at the front, then overwritten by one
    pushed at the back.  (A deque of 1 element made WithCapacity(1).) *)
Definition deque_witness : list (diop (T := Z)) :=
  [DOp (DequeSpec.PushBack 1); DIter; DOp DequeSpec.PopFront; DOp (DequeSpec.PushBack 2); DNext 0].
Theorem C107_deque_refuted :
  (exists d st, DequeModel.VecDequeWithCapacity 0 100 1 = Ret d /\
    dirun 0 100 Z.eqb (d, []) deque_witness = Ret (st, [DequeSpec.Done; DequeSpec.Done; DequeSpec.Value (Some 1); DequeSpec.Done; DequeSpec.Value (Some 2)])) /\
  dideal Z.eqb [] [] deque_witness [DequeSpec.Done; DequeSpec.Done; DequeSpec.Value (Some 1); DequeSpec.Done; DequeSpec.Value (Some 1)].
Proof.
  split.
  - exists (DequeModel.mkDeque [0] 0 0), (DequeModel.mkDeque [2] 1 0, [mkDIter (DequeModel.mkDeque [2] 1 0) true 1]).
    split; vm_compute; reflexivity.
  - unfold deque_witness. eapply di_op; [apply DequeSpec.d_push_back|]. eapply di_iter.
    eapply di_op; [apply (DequeSpec.d_pop_front _ 1 [])|]. eapply di_op; [apply DequeSpec.d_push_back|].
    apply (di_next Z.eqb [2] [([1], 0%nat)] 0 [1] 0); [reflexivity|]. constructor.
Qed.
Print Assumptions C107_deque_refuted.
(** And so for every full deque: PopFront and PushBack y make the older iterator start with y. *)
Theorem C107_deque_overwritten : forall T (zero : T) limit eqb d x xs y, 7 <= limit < 2 ^ 63 ->
  DequeHistory.layout limit d -> DequeHistory.shows d (x :: xs) -> DequeModel.Capacity d = Z.of_nat (length (x :: xs)) ->
  exists st, dirun zero limit eqb (d, []) [DIter; DOp DequeSpec.PopFront; DOp (DequeSpec.PushBack y); DNext 0] =
    Ret (st, [DequeSpec.Done; DequeSpec.Value (Some x); DequeSpec.Done; DequeSpec.Value (Some y)]).
Proof.
  intros T zero limit eqb d x xs y Ok L S C. pose proof (DequeRunProofs.shows_rep limit Ok _ _ S L) as R. rewrite C, Nat2Z.id in R.
  destruct (IterShareDequeProofs.overwrite zero limit Ok eqb d x xs y R) as (d1 & d2 & E1 & E2 & E3). cbv zeta in E3.
  eexists. cbn [dirun diexec bind fst snd DequeHistory.exec app map]. rewrite E1. cbn [bind fst snd dirun diexec DequeHistory.exec map]. rewrite E2.
  cbn [bind fst snd dirun diexec nth_error of_option map]. rewrite E3. reflexivity.
Qed.
Print Assumptions C107_deque_overwritten.

Example C107_deque_calm_nonvacuous :
  let prog := [DOp (DequeSpec.PushBack 1); DOp (DequeSpec.PushBack 2); DIter; DNext 0; DOp (DequeSpec.PushFront 0); DOp (DequeSpec.PushBack 3); DOp DequeSpec.PopFront;
               DOp DequeSpec.PopFront; DNext 0; DNext 0] in
  DequeHistory.makes 0 100 (DequeModel.VecDequeNew 0 100) [] 0 /\ DequeSpec.space 0 (calls prog) <= 100 /\ dcalm Z.eqb [] [] prog /\
  dideal Z.eqb [] [] prog [DequeSpec.Done; DequeSpec.Done; DequeSpec.Done; DequeSpec.Value (Some 1); DequeSpec.Done; DequeSpec.Done; DequeSpec.Value (Some 0);
               DequeSpec.Value (Some 1); DequeSpec.Value (Some 2); DequeSpec.Value None].
Proof.
  cbv zeta. split; [left; auto|]. split; [vm_compute; discriminate|]. split.
  - eapply dc_op; [apply DequeSpec.d_push_back|constructor|]. eapply dc_op; [apply DequeSpec.d_push_back|constructor|]. apply dc_iter, dc_next.
    eapply dc_op; [apply DequeSpec.d_push_front|repeat constructor|]. eapply dc_op; [apply DequeSpec.d_push_back|repeat constructor|].
    eapply dc_op; [apply (DequeSpec.d_pop_front _ 0 [1;2;3])|repeat constructor|].
    eapply dc_op; [apply (DequeSpec.d_pop_front _ 1 [2;3])|repeat constructor|]. repeat constructor.
  - eapply di_op; [apply DequeSpec.d_push_back|]. eapply di_op; [apply DequeSpec.d_push_back|]. apply di_iter.
    apply (di_next Z.eqb _ [([1;2], 0%nat)] 0 [1;2] 0); [reflexivity|].
    eapply di_op; [apply DequeSpec.d_push_front|]. eapply di_op; [apply DequeSpec.d_push_back|].
    eapply di_op; [apply (DequeSpec.d_pop_front _ 0 [1;2;3])|]. eapply di_op; [apply (DequeSpec.d_pop_front _ 1 [2;3])|].
    apply (di_next Z.eqb _ [([1;2], 1%nat)] 0 [1;2] 1); [reflexivity|].
    apply (di_next Z.eqb _ [([1;2], 2%nat)] 0 [1;2] 2); [reflexivity|]. constructor.
Qed.
Example C107_deque_characterised_nonvacuous :
  let prog := [DOp (DequeSpec.PushBack 1); DOp (DequeSpec.PushBack 2); DIter; DOp (DequeSpec.Swap 0 1); DNext 0; DNext 0; DNext 0] in
  DequeSpec.space 0 (calls prog) <= 100 /\ dsteady false prog = true /\
  dlive Z.eqb [] [] prog [DequeSpec.Done; DequeSpec.Done; DequeSpec.Done; DequeSpec.Done; DequeSpec.Value (Some 2); DequeSpec.Value (Some 1); DequeSpec.Value None].
Proof.
  cbv zeta. split; [vm_compute; discriminate|]. split; [reflexivity|].
  eapply dl_op; [apply DequeSpec.d_push_back|]. eapply dl_op; [apply DequeSpec.d_push_back|]. apply dl_iter.
  eapply dl_op with (l' := [2; 1]); [|].
  { apply (DequeSpec.d_swap Z.eqb [1;2] [2;1] 0 1); try (unfold DequeSpec.inside; cbn; lia). exact (DequeRunProofs.list_set_exchanged [1;2] 0 1 1 2 eq_refl eq_refl). }
  apply (dl_next Z.eqb [2;1] [0%nat] 0 0); [reflexivity|]. apply (dl_next Z.eqb [2;1] [1%nat] 0 1); [reflexivity|].
  apply (dl_next Z.eqb [2;1] [2%nat] 0 2); [reflexivity|]. constructor.
Qed.

(** *** Linked lists *)

(** What every program sees: an iterator stands on an element, [lmoved] says what calls do to
    it, and [lgiven] what Next gives: the elements that are behind it now, even when the one it
    stands on has been taken out. *)
Theorem C107_list_characterised : forall T (eqb : T -> T -> bool) clone prog ans,
  llive eqb clone [] [] prog ans -> exists st, lirun eqb clone (ListHistory.start, []) prog = Ret (st, ans).
Proof.
  intros T eqb clone prog ans L.
  exact (IterShareListProofs.live_run eqb clone [] [] prog ans L ListHistory.start [] [] ListRunProofs.owns_start eq_refl (Forall_nil _) (Forall2_nil _)).
Qed.
Print Assumptions C107_list_characterised.

(** For every program that does not add or remove elements at the back, append lists, or write
    through Front and Back after it has made an iterator, the property holds. *)
Theorem C107_list_calm_partial : forall T (eqb : T -> T -> bool) clone prog ans,
  lideal eqb clone [] [] prog ans -> lcalm false prog = true ->
  exists st, lirun eqb clone (ListHistory.start, []) prog = Ret (st, ans).
Proof. intros T eqb clone prog ans. exact (IterShareListProofs.calm_run eqb clone prog ans). Qed.
Print Assumptions C107_list_calm_partial.

(** False: for every list of at least two elements and every number n of rounds, pushing at
    the back in the loop over the list gives n elements, so the loop never ends. *)
Theorem C107_list_endless : forall T (eqb : T -> T -> bool) clone xs y n, (2 <= length xs)%nat -> Z.of_nat (length xs + n) < 2 ^ 64 ->
  exists st, lirun eqb clone (ListHistory.start, [])
      (LOp ListSpec.New :: map (fun x => LOp (ListSpec.PushBack 0 x)) xs ++
       LIter 0 :: concat (repeat [LNext 0; LOp (ListSpec.PushBack 0 y)] n)) =
    Ret (st, ListSpec.Done :: repeat ListSpec.Done (length xs) ++ ListSpec.Done ::
             concat (map (fun x => [ListSpec.Value (Some x); ListSpec.Done]) (firstn n (xs ++ repeat y n)))).
Proof. intros T eqb clone. exact (IterShareListProofs.endless_run eqb clone). Qed.
Print Assumptions C107_list_endless.

Definition list_witness : list (liop (T := Z)) :=
  [LOp ListSpec.New; LOp (ListSpec.PushBack 0 1); LIter 0; LOp (ListSpec.PushBack 0 2); LNext 0; LNext 0].
Theorem C107_list_refuted :
  (exists st, lirun Z.eqb (fun x => x) (ListHistory.start, []) list_witness =
    Ret (st, [ListSpec.Done; ListSpec.Done; ListSpec.Done; ListSpec.Done; ListSpec.Value (Some 1); ListSpec.Value (Some 2)])) /\
  lideal Z.eqb (fun x => x) [] [] list_witness
    [ListSpec.Done; ListSpec.Done; ListSpec.Done; ListSpec.Done; ListSpec.Value (Some 1); ListSpec.Value None].
Proof.
  split.
  - eexists. vm_compute. reflexivity.
  - unfold list_witness. eapply li_op; [apply ListSpec.l_new|repeat constructor|].
    eapply li_op; [apply (ListSpec.l_push_back _ _ [[]] 0 1 []); reflexivity|repeat constructor|].
    eapply (li_iter _ _ [[1]] [] 0 [1]); [reflexivity|].
    eapply li_op; [apply (ListSpec.l_push_back _ _ [[1]] 0 2 [1]); reflexivity|repeat constructor|].
    apply (li_next _ _ _ [[1]] 0 [1]); [reflexivity|]. apply (li_next _ _ _ [[]] 0 []); [reflexivity|]. constructor.
Qed.
Print Assumptions C107_list_refuted.
Example C107_list_nonvacuous :
  let prog := [LOp ListSpec.New; LOp (ListSpec.PushBack 0 1); LOp (ListSpec.PushBack 0 2); LIter 0; LOp (ListSpec.PushFront 0 0); LNext 0;
               LOp (ListSpec.Clear 0); LNext 0; LNext 0] in
  let ans := [ListSpec.Done; ListSpec.Done; ListSpec.Done; ListSpec.Done; ListSpec.Done; ListSpec.Value (Some 1); ListSpec.Done; ListSpec.Value (Some 2); ListSpec.Value None] in
  lideal Z.eqb (fun x => x) [] [] prog ans /\ lcalm false prog = true /\ llive Z.eqb (fun x => x) [] [] prog ans.
Proof.
  cbv zeta.
  assert (I : lideal Z.eqb (fun x => x) [] [] [LOp ListSpec.New; LOp (ListSpec.PushBack 0 1); LOp (ListSpec.PushBack 0 2); LIter 0; LOp (ListSpec.PushFront 0 0); LNext 0;
               LOp (ListSpec.Clear 0); LNext 0; LNext 0]
     [ListSpec.Done; ListSpec.Done; ListSpec.Done; ListSpec.Done; ListSpec.Done; ListSpec.Value (Some 1); ListSpec.Done; ListSpec.Value (Some 2); ListSpec.Value None]).
  { eapply li_op; [apply ListSpec.l_new|repeat constructor|].
    eapply li_op; [apply (ListSpec.l_push_back _ _ [[]] 0 1 []); reflexivity|repeat constructor|].
    eapply li_op; [apply (ListSpec.l_push_back _ _ [[1]] 0 2 [1]); reflexivity|repeat constructor|].
    eapply (li_iter _ _ [[1;2]] [] 0 [1;2]); [reflexivity|].
    eapply li_op; [apply (ListSpec.l_push_front _ _ [[1;2]] 0 0 [1;2]); reflexivity|repeat constructor|].
    apply (li_next _ _ _ [[1;2]] 0 [1;2]); [reflexivity|].
    eapply li_op; [apply (ListSpec.l_clear _ _ [[0;1;2]] 0 [0;1;2]); reflexivity|repeat constructor|].
    apply (li_next _ _ _ [[2]] 0 [2]); [reflexivity|]. apply (li_next _ _ _ [[]] 0 []); [reflexivity|]. constructor. }
  split; [exact I|]. split; [reflexivity|].
  eapply IterShareListProofs.calm_live with (watched := false); [exact I|reflexivity|reflexivity|constructor].
Qed.
