(** FsPoolProofs.v -- several writers at the same time. *)
From Verif Require Import Base BaseLemmas OsModel FsModel FsSpec FsProofs FsWriteProofs FsTreeProofs.
Open Scope Z_scope.

Lemma nth_pool {A} (l : list A) i j x : nth_error (list_set l i x) j = if (j =? i)%nat then (match nth_error l j with Some _ => Some x | None => None end) else nth_error l j.
Proof.
  revert i j. induction l as [|y l IH]; intros [|i] [|j]; cbn [list_set nth_error Nat.eqb]; try reflexivity.
  - destruct (j =? i)%nat; reflexivity.
  - apply IH.
Qed.
Lemma Forall2_len {A B} {R : A -> B -> Prop} {l l'} : Forall2 R l l' -> length l = length l'.
Proof. induction 1; cbn [length]; congruence. Qed.
(** How far the writer of [data] to file i is. *)
Inductive writer (w0 w : world) (p data : list Z) (i : nat) : prog (Result unit) -> Prop :=
| WStart : bytes w i = bytes w0 i -> writer w0 w p data i (Write p data)
| WWrite fd a rest : data = a ++ rest -> bytes w i = Some a -> nth_error (files w) fd = Some (i, length a) ->
    writer w0 w p data i (FileWrite fd rest (kW fd))
| WEnd fd a rest r q : data = a ++ rest -> bytes w i = Some a -> (r = Ok tt -> rest = []) -> ended fd q r -> writer w0 w p data i q
| WFail e : bytes w i = bytes w0 i -> writer w0 w p data i (Done (Err e)).
Definition touches (w w' : world) (i : nat) : Prop :=
  same_tree w w' /\ (forall j, j <> i -> bytes w' j = bytes w j) /\
  (forall fd j off, nth_error (files w) fd = Some (j, off) -> j <> i -> nth_error (files w') fd = Some (j, off)).
Lemma touches_refl w i : touches w w i.
Proof. repeat split; auto. Qed.
Lemma same_tree_trans a b c : same_tree a b -> same_tree b c -> same_tree a c.
Proof. intros (A1 & A2 & A3) (B1 & B2 & B3). split; [congruence|]. split; intros; [rewrite B2; apply A2|rewrite B3; apply A3]. Qed.
Lemma same_tree_sym a b : same_tree a b -> same_tree b a.
Proof. intros (A1 & A2 & A3). split; [congruence|]. split; intros; symmetry; auto. Qed.
Lemma other_writer w0 w w' p data i j q : writer w0 w p data i q -> touches w w' j -> i <> j -> writer w0 w' p data i q.
Proof.
  intros W (_ & B & F) N. destruct W.
  - apply WStart. rewrite B by exact N. assumption.
  - eapply WWrite; eauto. rewrite B by exact N. assumption.
  - eapply WEnd; eauto. rewrite B by exact N. assumption.
  - apply WFail. rewrite B by exact N. assumption.
Qed.
Lemma set_touches w i x a : nth_error (inodes w) i = Some (IFile a) -> same_tree w (set_inode w i (IFile x)) /\ (forall j, bytes (set_inode w i (IFile x)) j = if (j =? i)%nat then Some x else bytes w j).
Proof.
  intros N. destruct (same_inodes w (set_inode w i (IFile x)) i x a) as (A & B & _); auto.
Qed.
Lemma bytes_some w i a : bytes w i = Some a <-> nth_error (inodes w) i = Some (IFile a).
Proof. rewrite bytes_nth. destruct (nth_error (inodes w) i) as [[]|]; cbn; split; intros H; try discriminate; congruence. Qed.
Lemma writer_step w0 w p data i q ch w1 q1 : same_tree w0 w -> leads_to w0 p = Some i -> bytes w0 i <> None ->
  writer w0 w p data i q -> step w q ch = (w1, q1) -> touches w w1 i /\ writer w0 w1 p data i q1.
Proof.
  intros ST L B0 W H. destruct W as [B|fd a rest D B F|fd a rest r q D B R E|e B].
  - unfold Write in H. cbn [step] in H. destruct (fails ch) as [e|]; [injection H as <- <-; split; [apply touches_refl|apply WFail; exact B]|].
    assert (L' := leads_same w0 w p ST). rewrite L in L'. destruct (bytes w0 i) as [old|] eqn:OLD; [|contradiction]. assert (N := proj1 (bytes_some _ _ _) B).
    unfold os_Create, leads_to in *. assert (P := locate_place w true p).
    destruct (locate w true p) as [[d|d c [j|]]|e] eqn:LOC; try discriminate; injection L' as ->.
    + exfalso. destruct P as (pp & P). rewrite sort_of_nth, N in P. discriminate.
    + rewrite N in H. cbn [open_file] in H. injection H as <- <-. rewrite cast_id. cbn [app].
      destruct (set_touches w i [] old N) as [T BB]. split; [split; [exact T|split]|].
      * intros j J. change (bytes (set_inode w i (IFile [])) j = bytes w j). rewrite BB. apply Nat.eqb_neq in J. rewrite J. reflexivity.
      * intros fd j off F J. cbn [files set_inode]. rewrite nth_error_app1; [exact F|]. apply nth_error_Some. rewrite F. discriminate.
      * apply (WWrite _ _ _ _ _ _ []); [reflexivity| |].
        -- change (bytes (set_inode w i (IFile [])) i = Some []). rewrite BB, Nat.eqb_refl. reflexivity.
        -- cbn [files set_inode]. rewrite nth_error_app2 by lia. rewrite Nat.sub_diag. reflexivity.
  - cbn [step] in H. assert (N := proj1 (bytes_some _ _ _) B).
    destruct (fails ch) as [e|]; [injection H as <- <-; split; [apply touches_refl|]; eapply (WEnd _ _ _ _ _ fd a rest (Err e)); eauto; [discriminate|left; reflexivity]|].
    set (n := Nat.min (count ch) (length rest)) in *. unfold os_write in H. rewrite F, N in H. rewrite write_at_end in H.
    assert (SP : rest = firstn n rest ++ skipn n rest) by (symmetry; apply firstn_skipn).
    set (x := firstn n rest) in *. set (w2 := set_file (set_inode w i (IFile (a ++ x))) fd (i, (length a + length x)%nat)) in *.
    destruct (set_touches w i (a ++ x) a N) as [T BB].
    assert (TW : touches w w2 i).
    { split; [exact T|split].
      - intros j J. change (bytes (set_inode w i (IFile (a ++ x))) j = bytes w j). rewrite BB. apply Nat.eqb_neq in J. rewrite J. reflexivity.
      - intros fd' j off F' J. cbn [w2 set_file files set_inode]. rewrite nth_pool. destruct (fd' =? fd)%nat eqn:X; [|exact F']. apply Nat.eqb_eq in X. congruence. }
    assert (B2 : bytes w2 i = Some (a ++ x)). { change (bytes (set_inode w i (IFile (a ++ x))) i = Some (a ++ x)). rewrite BB, Nat.eqb_refl. reflexivity. }
    assert (D2 : data = (a ++ x) ++ skipn n rest) by (rewrite <- app_assoc, <- SP; exact D).
    destruct (skipn n rest) as [|b rest'] eqn:SK.
    + injection H as <- <-. split; [exact TW|]. eapply (WEnd _ _ _ _ _ fd (a ++ x) [] (Ok tt)); eauto. left. reflexivity.
    + destruct (n =? 0)%nat; injection H as <- <-; (split; [exact TW|]).
      * eapply (WEnd _ _ _ _ _ fd (a ++ x) (b :: rest') (Err EEOF)); eauto; [discriminate|left; reflexivity].
      * eapply (WWrite _ _ _ _ _ fd (a ++ x)); eauto. cbn [w2 set_file files set_inode]. rewrite nth_pool, Nat.eqb_refl, F, app_length. reflexivity.
  - destruct E as [-> | ->]; cbn [step] in H; injection H as <- <-; (split; [apply touches_refl|]; eapply (WEnd _ _ _ _ _ fd a rest r); eauto; right; reflexivity).
  - cbn [step] in H. injection H as <- <-. split; [apply touches_refl|]. apply WFail. exact B.
Qed.

Definition jobs_ok (w0 : world) (jobs : list (list Z * list Z)) (is_ : list nat) : Prop :=
  Forall2 (fun job i => leads_to w0 (fst job) = Some i /\ bytes w0 i <> None) jobs is_ /\ NoDup is_.
Lemma pool_inv w0 jobs is_ : jobs_ok w0 jobs is_ -> forall sched w ps w' ps',
  same_tree w0 w -> length ps = length jobs ->
  (forall k job i q, nth_error jobs k = Some job -> nth_error is_ k = Some i -> nth_error ps k = Some q -> writer w0 w (fst job) (snd job) i q) ->
  (forall j, ~ In j is_ -> bytes w j = bytes w0 j) ->
  run_pool w ps sched = (w', ps') ->
  same_tree w0 w' /\ length ps' = length jobs /\
  (forall k job i q, nth_error jobs k = Some job -> nth_error is_ k = Some i -> nth_error ps' k = Some q -> writer w0 w' (fst job) (snd job) i q) /\
  (forall j, ~ In j is_ -> bytes w' j = bytes w0 j).
Proof.
  intros (F & ND). induction sched as [|[k ch] sched IH]; intros w ps w' ps' ST LN W OT H; cbn [run_pool] in H; [injection H as <- <-; auto|].
  destruct (nth_error ps k) as [q|] eqn:Q; [|eapply IH; eauto]. destruct (step w q ch) as [w1 q1] eqn:S.
  assert (LK : (k < length jobs)%nat) by (rewrite <- LN; apply nth_error_Some; rewrite Q; discriminate).
  assert (LI := Forall2_len F).
  destruct (nth_error jobs k) as [job|] eqn:J; [|apply nth_error_None in J; lia]. destruct (nth_error is_ k) as [i|] eqn:I; [|apply nth_error_None in I; lia].
  assert (FK : leads_to w0 (fst job) = Some i /\ bytes w0 i <> None).
  { clear -F J I. revert k J I. induction F as [|x y l l' R F IH]; intros [|k] J I; cbn in *; try discriminate; [injection J as ->; injection I as ->; exact R|eapply IH; eauto]. }
  destruct (writer_step w0 w _ _ i q ch w1 q1 ST (proj1 FK) (proj2 FK) (W _ _ _ _ J I Q) S) as [T WK].
  eapply IH; [| | | |exact H].
  - eapply same_tree_trans; [exact ST|]. exact (proj1 T).
  - rewrite list_set_length. exact LN.
  - intros k' job' i' q' J' I' Q'. rewrite nth_pool in Q'. destruct (k' =? k)%nat eqn:X.
    + apply Nat.eqb_eq in X. subst k'. rewrite Q in Q'. injection Q' as <-. assert (job' = job) by congruence. assert (i' = i) by congruence. subst. exact WK.
    + apply (other_writer w0 w w1 _ _ i' i); auto; [eapply W; eauto|]. intros ->. apply Nat.eqb_neq in X. apply X.
      apply (proj1 (NoDup_nth_error is_) ND); [apply nth_error_Some; rewrite I'; discriminate|congruence].
  - intros j JN. destruct T as (_ & T & _). rewrite T; [apply OT; exact JN|]. intros ->. apply JN. eapply nth_error_In. exact I.
Qed.

(** Any number of writers to different files, any schedule, any moment. *)
Theorem pool_writes w jobs is_ sched w' ps : jobs_ok w jobs is_ ->
  run_pool w (map (fun job => Write (fst job) (snd job)) jobs) sched = (w', ps) ->
  length ps = length jobs /\
  (forall q, leads_to w' q = leads_to w q) /\ (forall j, ~ In j is_ -> bytes w' j = bytes w j) /\
  (forall k p data q, nth_error jobs k = Some (p, data) -> nth_error ps k = Some q ->
     (q = Done (Ok tt) -> contents w' p = Some data) /\
     (contents w' p = contents w p \/ exists x, prefix x data /\ contents w' p = Some x)).
Proof.
  intros JO H. assert (P := pool_inv w jobs is_ JO sched w (map (fun job => Write (fst job) (snd job)) jobs) w' ps).
  assert (X : same_tree w w) by (split; [reflexivity|]; split; reflexivity). specialize (P X (map_length _ _)). clear X.
  assert (X : forall k job i q, nth_error jobs k = Some job -> nth_error is_ k = Some i -> nth_error (map (fun job => Write (fst job) (snd job)) jobs) k = Some q -> writer w w (fst job) (snd job) i q).
  { intros k job i q J I Q. rewrite nth_error_map, J in Q. apply f_equal with (f := fun o => match o with Some x => x | None => q end) in Q. cbn [option_map] in Q. rewrite <- Q. apply WStart. reflexivity. }
  specialize (P X (fun j _ => eq_refl) H). clear X. destruct P as (ST & LN & W & OT).
    split; [exact LN|]. split; [intros q; apply leads_same; exact ST|]. split; [exact OT|]. intros k p data q J Q.
    destruct JO as [F ND]. assert (LI := Forall2_len F).
    assert (LK : (k < length jobs)%nat) by (apply nth_error_Some; rewrite J; discriminate).
    destruct (nth_error is_ k) as [i|] eqn:I; [|apply nth_error_None in I; lia].
    assert (FK : leads_to w p = Some i /\ bytes w i <> None).
    { clear -F J I. revert k J I. induction F as [|x y l l' R F IH]; intros [|k] J I; cbn in *; try discriminate; [injection J as ->; injection I as ->; exact R|eapply IH; eauto]. }
    assert (X := W k (p, data) i q J I Q). cbn [fst snd] in X. unfold contents. rewrite (leads_same w w' p ST), (proj1 FK).
    destruct X as [B|fd a rest D B F'|fd a rest r q D B R E|e B].
    + split; [discriminate|]. left. exact B.
    + split; [discriminate|]. right. exists a. split; [exists rest; exact D|exact B].
    + split.
      * intros ->. destruct E as [E|E]; [discriminate|]. injection E as E. rewrite (R (eq_sym E)), app_nil_r in D. congruence.
      * right. exists a. split; [exists rest; exact D|exact B].
    + split; [discriminate|]. left. exact B.
Qed.
