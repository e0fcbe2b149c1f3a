(** OptShareProps.v -- C111: Options are values. *)
From Coq Require Import List ZArith.
From Verif Require Import Base OptShareSpec OptShareModel OptShareProofs.
Import ListNotations.
Local Open Scope Z_scope.

(** x = Some(1); y = x.Filter(...); *y.GetOrInsert(0) = 5: x has become Some(5). *)
Definition filtered : list (stmt Z) :=
  [Assign 0 (ESome 1); Assign 1 (EFilter 0 (fun v => v <? 3)); DoGetOrInsert 1 0 0; Write 0 5; AskUnwrap 0; AskUnwrap 1].
Theorem C111_refuted : exists (p : list (stmt Z)) (l l' : list (answer Z)), vrun vstart p = Some l /\ run start p = Ret l' /\ l <> l'.
Proof. exists filtered. do 2 eexists. split; [vm_compute; reflexivity|]. split; [vm_compute; reflexivity|]. discriminate. Qed.
Print Assumptions C111_refuted.

(** What happens instead, for every program whose references are in force when they are used. *)
Theorem C111_characterised : forall (T : Type) (p : list (stmt T)) l, trun tstart p = Some l -> run start p = Ret l.
Proof. intros T p l. apply run_sim, start_sim. Qed.
Print Assumptions C111_characterised.

(** Options are values in programs that do not write through references ... *)
Theorem C111_without_writes_partial : forall (T : Type) (p : list (stmt T)) l, Forall (fun c => writes c = false) p ->
  vrun vstart p = Some l -> run start p = Ret l.
Proof.
  intros T p l F H. apply C111_characterised. rewrite <- H. apply calm_run; auto using start_same, start_live.
Qed.
Print Assumptions C111_without_writes_partial.
(** ... and in programs that do not derive one Option from another by assignment, Filter, Or,
    OrElse or Xor. *)
Theorem C111_without_derivation_partial : forall (T : Type) (p : list (stmt T)) l, Forall (fun c => derives c = false) p ->
  vrun vstart p = Some l -> run start p = Ret l.
Proof.
  intros T p l F H. apply C111_characterised. rewrite <- H. apply unshared_run; auto using start_same, start_live, start_apart.
Qed.
Print Assumptions C111_without_derivation_partial.

(** A program of each kind; and one in which y = x, x.Replace(7): the variables part. *)
Example C111_nonvacuous :
  (let p := [Assign 0 (ESome 1); Assign 1 (EXor 0 2); Assign 2 (EReplace 1 8); AskUnwrap 0; AskUnwrap 1; AskUnwrap 2; AskSome 3] in
   Forall (fun c => writes c = false) p /\
   vrun vstart p = Some [ADone; ADone; ADone; AUnwrap (Some 1); AUnwrap (Some 8); AUnwrap (Some 1); ABool false]) /\
  (let p := [Assign 0 (ESome 1); DoGetOrInsert 0 9 0; Assign 1 (EMap 0 (fun v => v + 1)); Write 0 5; Read 0; AskUnwrap 0; AskUnwrap 1; Assign 2 (ETake 0); AskSome 0; AskUnwrap 2] in
   Forall (fun c => derives c = false) p /\
   vrun vstart p = Some [ADone; ADone; ADone; ADone; AValue 5; AUnwrap (Some 5); AUnwrap (Some 2); ADone; ABool false; AUnwrap (Some 5)]) /\
  trun tstart filtered = Some [ADone; ADone; ADone; ADone; AUnwrap (Some 5); AUnwrap (Some 5)] /\
  run start [Assign 0 (ESome 1); Assign 1 (EVar 0); Assign 2 (EReplace 0 7); DoGetOrInsert 1 0 0; Write 0 5; AskUnwrap 0; AskUnwrap 1; AskUnwrap 2] =
    Ret [ADone; ADone; ADone; ADone; ADone; AUnwrap (Some 7); AUnwrap (Some 5); AUnwrap (Some 1)].
Proof. repeat split; repeat constructor. Qed.
