(** HashVarProps.v -- C123: variables of the hash containers. *)
From Verif Require Import Base HashModel HashSpec HashVarSpec HashVarModel HashVarProofs.
Local Open Scope Z_scope.

(** The property for all programs would be: the answers are those of variables that are
    values ([values]).  It is false: an assignment makes two names of one map. *)
Definition shared : list (cop (@mop Z Z) mquery) :=
  [From MNew []; Copy 0; Do 1 (MInsert 1 10); Do 0 (MGet 1)].
Theorem C123_refuted :
  scoped mmakes 0 shared /\ Forall mform shared /\
  map_program Z.eqb (fun _ l => l) shared = [Some Done; Some Done; Some (Value None); Some (Value (Some 10))] /\
  ~ values (mdoing Z.eqb) mfrom (Some Done) [] shared (map_program Z.eqb (fun _ l => l) shared).
Proof.
  split; [vm_compute; repeat split; auto|]. split; [repeat constructor|]. split; [reflexivity|].
  change (map_program Z.eqb (fun _ l => l) shared) with [Some (@Done Z Z); Some Done; Some (Value None); Some (Value (Some 10))].
  intros H. unfold shared in H.
  inversion H as [|? ? fs1 ? ? ? S1 H1]; subst. inversion S1 as [| |? ? ? gs r ? E F]; subst.
  destruct gs; [|discriminate]. inversion F; subst. cbn [new_one app] in H1.
  inversion H1 as [|? ? fs2 ? ? ? S2 H2]; subst. inversion S2 as [? ? f E2| |]; subst. cbn [nth_error] in E2. injection E2 as <-. cbn [app] in H2.
  inversion H2 as [|? ? fs3 ? ? ? S3 H3]; subst. inversion S3 as [|? ? ? f g ? E3 D3|]; subst. cbn [nth_error] in E3. injection E3 as <-. cbn [list_set] in H3.
  inversion H3 as [|? ? fs4 ? ? ? S4 H4]; subst. inversion S4 as [|? ? ? f4 g4 ? E4 D4|]; subst. cbn [nth_error] in E4. injection E4 as <-.
  inversion D4 as [? ? ? ? M| | |]; subst. inversion M.
Qed.
Print Assumptions C123_refuted.

(** What holds of all programs: variables bound together by assignments have the same
    contents, until Clear unbinds its receiver.  Clear never reaches the others. *)
Theorem C123_map_characterised : forall K V (keqb : K -> K -> bool) (ords : nat -> order K V) ops,
  equivalence keqb -> (forall n, fair (ords n)) -> scoped mmakes 0 ops -> Forall mform ops ->
  bound (mdoing keqb) mfrom (Some Done) mclears ([], unbound) ops (map_program keqb ords ops).
Proof. intros. now apply map_bound. Qed.
Print Assumptions C123_map_characterised.
Theorem C123_set_characterised : forall K (keqb : K -> K -> bool) clone (ords : nat -> nat -> sorder K) ops,
  equivalence keqb -> (forall x, keqb (clone x) x = true) -> (forall n i, fair (ords n i)) -> scoped smakes 0 ops -> Forall sform ops ->
  bound (sdoing keqb) (sfrom keqb) (Some SDone) sclears ([], unbound) ops (set_program keqb clone ords ops).
Proof. intros. now apply set_bound. Qed.
Print Assumptions C123_set_characterised.

(** What is left of the property: it holds of a program that, when it writes to a variable,
    has done with the variables bound to it (or will clear them first). *)
Theorem C123_map_partial : forall K V (keqb : K -> K -> bool) (ords : nat -> order K V) ops,
  equivalence keqb -> (forall n, fair (ords n)) -> scoped mmakes 0 ops -> Forall mform ops ->
  careful mclears mmakes mwrites 0 unbound ops ->
  values (mdoing keqb) mfrom (Some Done) [] ops (map_program keqb ords ops).
Proof. intros. now apply map_values. Qed.
Print Assumptions C123_map_partial.
Theorem C123_set_partial : forall K (keqb : K -> K -> bool) clone (ords : nat -> nat -> sorder K) ops,
  equivalence keqb -> (forall x, keqb (clone x) x = true) -> (forall n i, fair (ords n i)) -> scoped smakes 0 ops -> Forall sform ops ->
  careful sclears smakes swrites 0 unbound ops ->
  values (sdoing keqb) (sfrom keqb) (Some SDone) [] ops (set_program keqb clone ords ops).
Proof. intros. now apply set_values. Qed.
Print Assumptions C123_set_partial.

(** A careful program: the source is read after the copy, then cleared before the copy is
    written; and one whose variables stay bound. *)
Definition handed_over : list (cop (@mop Z Z) mquery) :=
  [From MNew []; Do 0 (MInsert 1 10); Copy 0; Do 0 MLen; Do 1 (MInsert 2 20); Do 0 MClear; Do 0 (MInsert 3 30); Do 1 (MGet 3); Do 0 MLen; Do 1 MLen].
Example C123_nonvacuous :
  scoped mmakes 0 handed_over /\ Forall mform handed_over /\ careful mclears mmakes mwrites 0 unbound handed_over /\
  map_program Z.eqb (fun _ l => l) handed_over =
    [Some Done; Some (Value None); Some Done; Some (Number 1); Some (Value None); Some Done; Some (Value None); Some (Value None); Some (Number 1); Some (Number 2)].
Proof.
  split; [vm_compute; repeat split; auto 12|]. split; [repeat constructor|]. split; [|reflexivity].
  unfold handed_over. cbn [careful mclears mmakes mwrites].
  repeat split; try discriminate; intros _ w Hw N Hb; destruct w as [|[|w]]; try lia; try reflexivity; vm_compute in Hb; discriminate.
Qed.
Definition two_sets : list (cop (sdo Z) (squery Z)) :=
  [From (QFromSlice [1; 2]) []; Copy 0; From QDeclare []; Do 1 (DRemove 2); From QEq [0; 1]%nat; Do 0 DLen; Do 2 (DInsert 5); Do 1 DClear; From QUnion [0; 1]%nat; Do 3 DLen].
Example C123_sets_nonvacuous :
  scoped smakes 0 two_sets /\ Forall sform two_sets /\
  set_program Z.eqb (fun x => x) (fun _ _ l => l) two_sets =
    [Some SDone; Some SDone; Some SDone; Some (STruth true); Some (STruth true); Some (SNumber 1); None; Some SDone; Some SDone; Some (SNumber 1)].
Proof. split; [vm_compute; repeat split; repeat constructor|]. split; [repeat constructor|reflexivity]. Qed.
