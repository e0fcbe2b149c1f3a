(** FsPoolNewProofs.v -- several writers at the same time, some of which create their files. *)
From Verif Require Import Base BaseLemmas OsModel FsModel FsSpec FsProofs FsWriteProofs FsTreeProofs FsPoolProofs.
Open Scope Z_scope.

(** The inode behind a target now. *)
Definition inode_of (w : world) (t : target) : option nat := match t with OldFile i => Some i | NewName d c => entry w d c end.
Definition finds (w : world) (p : list Z) (t : target) : Prop :=
  match t with
  | OldFile i => exists d c, locate w true p = inl (PAt d c (Some i))
  | NewName d c => locate w true p = inl (PAt d c (entry w d c))
  end.
Definition blocked (w : world) (p : list Z) : Prop :=
  match locate w true p with
  | inl (PAt d c None) => False
  | inl (PAt d c (Some i)) => bytes w i = None
  | _ => True
  end.
Definition path_ok (w : world) (p : list Z) (o : option target) : Prop := match o with Some t => finds w p t | None => blocked w p end.
Lemma path_start w p : path_ok w p (target_of w p).
Proof.
  unfold target_of. assert (P := locate_place w true p). destruct (locate w true p) as [[d|d c [i|]]|e] eqn:L; cbn [path_ok].
  - unfold blocked. rewrite L. exact I.
  - destruct (bytes w i) eqn:B; cbn [path_ok finds]; [eauto|]. unfold blocked. rewrite L. exact B.
  - cbn [finds]. destruct P as (_ & -> & _). exact L.
  - unfold blocked. rewrite L. exact I.
Qed.
(** What one step of the writer to t does to the world. *)
Inductive touched (w w1 : world) (t : target) : Prop :=
| TNone : w1 = w -> touched w w1 t
| TWrite i : inode_of w t = Some i -> same_tree w w1 -> bytes w1 i <> None -> (forall j, j <> i -> bytes w1 j = bytes w j) ->
    (forall fd j off, nth_error (files w) fd = Some (j, off) -> j <> i -> nth_error (files w1) fd = Some (j, off)) -> touched w w1 t
| TNew d c : t = NewName d c -> grown w w1 d c (length (inodes w)) AFile ->
    (forall j, bytes w1 j = if (j =? length (inodes w))%nat then Some [] else bytes w j) ->
    (forall fd x, nth_error (files w) fd = Some x -> nth_error (files w1) fd = Some x) -> touched w w1 t.
(** How far the writer is. *)
Definition untouched (w0 w : world) (t : target) : Prop :=
  inode_of w t = inode_of w0 t /\ forall i, inode_of w t = Some i -> bytes w i = bytes w0 i /\ bytes w i <> None.
Inductive writer2 (w0 w : world) (p data : list Z) (t : target) : prog (Result unit) -> Prop :=
| XStart : untouched w0 w t -> writer2 w0 w p data t (Write p data)
| XWrite fd a rest i : data = a ++ rest -> inode_of w t = Some i -> bytes w i = Some a -> nth_error (files w) fd = Some (i, length a) ->
    writer2 w0 w p data t (FileWrite fd rest (kW fd))
| XEnd fd a rest r q i : data = a ++ rest -> inode_of w t = Some i -> bytes w i = Some a -> (r = Ok tt -> rest = []) -> ended fd q r -> writer2 w0 w p data t q
| XFail e : untouched w0 w t -> writer2 w0 w p data t (Done (Err e)).
(** A writer without a target. *)
Inductive idle (p data : list Z) : prog (Result unit) -> Prop :=
| IStart : idle p data (Write p data)
| IFail e : idle p data (Done (Err e)).
Definition progress (w0 w : world) (p data : list Z) (o : option target) (q : prog (Result unit)) : Prop :=
  match o with Some t => writer2 w0 w p data t q | None => idle p data q end.

(** Two different targets have different inodes. *)
Definition disjoint (w : world) (t u : target) : Prop := t <> u /\ forall i, inode_of w t = Some i -> inode_of w u <> Some i.
Lemma here_false d c d' c' : NewName d c <> NewName d' c' -> (d' =? d)%nat && beq c' c = false.
Proof.
  intros N. destruct ((d' =? d)%nat && beq c' c) eqn:E; [|reflexivity]. apply andb_true_iff in E. destruct E as [A B].
  apply Nat.eqb_eq in A. apply beq_eq in B. subst. destruct (N eq_refl).
Qed.
Lemma inode_lt w t i : wf w -> (match t with OldFile i => (i < length (inodes w))%nat | _ => True end) -> inode_of w t = Some i -> (i < length (inodes w))%nat.
Proof. intros WF V H. destruct t as [j|d c]; cbn in *; [injection H as <-; exact V|]. apply (entry_lt _ _ _ _ WF H). Qed.
Definition valid (w : world) (t : target) : Prop := match t with OldFile i => (i < length (inodes w))%nat | _ => True end.
Lemma inode_other w w1 t u : touched w w1 t -> t <> u -> inode_of w1 u = inode_of w u.
Proof.
  intros T N. destruct u as [j|d c]; [reflexivity|]. cbn [inode_of]. destruct T as [->|i _ (_ & _ & E) _ _ _|d' c' -> G _ _]; [reflexivity|apply E|].
  rewrite (gr_entry _ _ _ _ _ _ G), (here_false d' c' d c N). reflexivity.
Qed.
Lemma bytes_other w w1 t u i : wf w -> valid w u -> touched w w1 t -> disjoint w t u -> inode_of w u = Some i -> bytes w1 i = bytes w i.
Proof.
  intros WF V T (N & D) I. destruct T as [->|j J _ _ B _|d c -> G B _]; [reflexivity| |].
  - apply B. intros ->. exact (D _ J I).
  - rewrite B. rewrite (proj2 (Nat.eqb_neq i (length (inodes w)))); [reflexivity|]. assert (L := inode_lt w u i WF V I). lia.
Qed.
Lemma other_writer2 w0 w w1 p data t u q : wf w -> valid w u -> writer2 w0 w p data u q -> touched w w1 t -> disjoint w t u -> writer2 w0 w1 p data u q.
Proof.
  intros WF V W T D. assert (EI := inode_other w w1 t u T (proj1 D)).
  assert (UN : untouched w0 w u -> untouched w0 w1 u).
  { intros (A & B). split; [congruence|]. intros i I. rewrite EI in I. rewrite (bytes_other w w1 t u i WF V T D I). apply B. exact I. }
  assert (FI : forall fd i off, inode_of w u = Some i -> nth_error (files w) fd = Some (i, off) -> nth_error (files w1) fd = Some (i, off)).
  { intros fd i off I F. destruct T as [->|j J _ _ _ FF|d c -> _ _ FF]; [exact F| |apply FF; exact F]. apply FF; [exact F|]. intros ->. exact (proj2 D _ J I). }
  destruct W as [U|fd a rest i DA I B F|fd a rest r q i DA I B R E|e U].
  - apply XStart; auto.
  - apply (XWrite _ _ _ _ _ fd a rest i); auto; [congruence|]. rewrite (bytes_other w w1 t u i WF V T D I). exact B.
  - apply (XEnd _ _ _ _ _ fd a rest r q i); auto; [congruence|]. rewrite (bytes_other w w1 t u i WF V T D I). exact B.
  - apply XFail; auto.
Qed.
(** Paths in the new world. *)
Lemma path_next w w1 t p o : wf w -> touched w w1 t -> path_ok w p o -> path_ok w1 p o.
Proof.
  intros WF T P. destruct T as [->|i I ST BN B _|d c -> G B _]; [exact P| |].
  - assert (L := locate_same w w1 true p ST). destruct o as [[j|d c]|]; cbn [path_ok finds] in *.
    + rewrite L. exact P.
    + rewrite L. destruct ST as (_ & _ & E). rewrite E. exact P.
    + unfold blocked in *. rewrite L. destruct (locate w true p) as [[d|d c [j|]]|e]; auto.
      destruct ST as (_ & S & _). specialize (S j). rewrite bytes_nth in *. rewrite !sort_of_nth in S.
      destruct (nth_error (inodes w1) j) as [[]|]; cbn in *; auto; destruct (nth_error (inodes w) j) as [[]|]; cbn in *; congruence.
  - assert (BA := locate_grown w w1 d c _ _ true p WF G). assert (PL := locate_place w true p). destruct o as [[j|d2 c2]|]; cbn [path_ok finds] in *.
    + destruct P as (d2 & c2 & L). rewrite L in BA. cbn [before_after] in BA. eauto.
    + rewrite P in BA. rewrite (gr_entry _ _ _ _ _ _ G). destruct ((d2 =? d)%nat && beq c2 c) eqn:H.
      * apply andb_true_iff in H. destruct H as [H1 H2]. apply Nat.eqb_eq in H1. apply beq_eq in H2. subst d2 c2.
        rewrite (gr_free _ _ _ _ _ _ G) in BA. cbn [before_after] in BA. rewrite Nat.eqb_refl, beq_refl in BA. exact BA.
      * destruct (entry w d2 c2); cbn [before_after] in BA; [exact BA|]. rewrite H in BA. exact BA.
    + unfold blocked in *. destruct (locate w true p) as [[d2|d2 c2 [j|]]|e] eqn:L; cbn [before_after] in BA.
      * rewrite BA. exact I.
      * rewrite BA, B. destruct (Nat.eqb_spec j (length (inodes w))) as [->|]; [|exact P].
        exfalso. destruct PL as (_ & E & _). apply (entry_lt _ _ _ _ WF) in E. lia.
      * destruct P.
      * destruct BA as (e' & -> & _). exact I.
Qed.
Lemma step_writer2 w0 w p data t q ch w1 q1 : wf w -> finds w p t -> (forall i, inode_of w t = Some i -> bytes w i <> None) ->
  writer2 w0 w p data t q -> step w q ch = (w1, q1) -> touched w w1 t /\ writer2 w0 w1 p data t q1.
Proof.
  intros WF P NB W H. destruct W as [U|fd a rest i D I B F|fd a rest r q i D I B R E|e U].
  - unfold Write in H. cbn [step] in H. destruct (fails ch) as [e|]; [injection H as <- <-; split; [apply TNone; reflexivity|apply XFail; exact U]|].
    unfold os_Create in H. assert (PL := locate_place w true p).
    assert (CASES : (exists i d c, locate w true p = inl (PAt d c (Some i)) /\ inode_of w t = Some i) \/ (exists d c, t = NewName d c /\ locate w true p = inl (PAt d c None) /\ entry w d c = None)).
    { destruct t as [i|d c]; cbn [finds inode_of] in *; [destruct P as (d & c & P); eauto 6|]. destruct (entry w d c) as [i|] eqn:EN; eauto 8. }
    destruct CASES as [(i & d & c & L & IN)|(d & c & -> & L & EN)]; rewrite L in *.
    + destruct (bytes w i) as [old|] eqn:OLD; [|destruct (NB i IN OLD)]. assert (N := proj1 (bytes_some _ _ _) OLD). rewrite N in H. cbn [open_file] in H. injection H as <- <-.
      rewrite cast_id. cbn [app]. destruct (set_touches w i [] old N) as [T BB]. split.
      * apply (TWrite _ _ _ i IN); [exact T| | |].
        -- change (bytes (set_inode w i (IFile [])) i <> None). rewrite BB, Nat.eqb_refl. discriminate.
        -- intros j J. change (bytes (set_inode w i (IFile [])) j = bytes w j). rewrite BB. apply Nat.eqb_neq in J. rewrite J. reflexivity.
        -- intros fd j off F J. cbn [files set_inode]. rewrite nth_error_app1; [exact F|]. apply nth_error_Some. rewrite F. discriminate.
      * apply (XWrite _ _ _ _ _ _ [] data i); [reflexivity| | |].
        -- rewrite <- IN. destruct t as [j|d' c']; [reflexivity|]. destruct T as (_ & _ & E). apply E.
        -- change (bytes (set_inode w i (IFile [])) i = Some []). rewrite BB, Nat.eqb_refl. reflexivity.
        -- cbn [files set_inode]. rewrite nth_error_app2 by lia. rewrite Nat.sub_diag. reflexivity.
    + destruct PL as ((pp & S) & _ & GN & _). assert (G := plant_grown w (IFile []) d c pp WF S EN (or_introl eq_refl)). assert (PB := fun j => plant_bytes w (IFile []) d c j pp S).
      cbn [new_inode open_file] in H. injection H as <- <-. rewrite cast_id. cbn [app]. fold (new_inode w (IFile [])) in *.
      change (change_dir (mkWorld (inodes w ++ [IFile []]) (cwd w) (files w)) d (link_name c (length (inodes w)))) with (plant w (IFile []) d c) in *.
      set (pw := plant w (IFile []) d c) in *.
      assert (FW : files pw = files w) by (unfold pw, plant; rewrite files_change; reflexivity).
      assert (G' : grown w (mkWorld (inodes pw) (cwd pw) (files pw ++ [(length (inodes w), 0%nat)])) d c (length (inodes w)) AFile).
      { destruct G as [g1 g2 g3 g4 g5 g6 g7 g8]. constructor; auto. }
      split.
      * apply (TNew _ _ _ d c eq_refl G'); [intros j; apply PB|]. intros fd x F. cbn [files]. rewrite FW, nth_error_app1; [exact F|]. apply nth_error_Some. rewrite F. discriminate.
      * apply (XWrite _ _ _ _ _ _ [] data (length (inodes w))); [reflexivity| | |].
        -- cbn [inode_of]. rewrite (gr_entry _ _ _ _ _ _ G'), Nat.eqb_refl, beq_refl. reflexivity.
        -- change (bytes pw (length (inodes w)) = Some []). rewrite PB, Nat.eqb_refl. reflexivity.
        -- cbn [files]. rewrite nth_error_app2 by lia. rewrite Nat.sub_diag. reflexivity.
  - cbn [step] in H. assert (N := proj1 (bytes_some _ _ _) B).
    destruct (fails ch) as [e|]; [injection H as <- <-; split; [apply TNone; reflexivity|]; eapply (XEnd _ _ _ _ _ fd a rest (Err e)); eauto; [discriminate|left; reflexivity]|].
    set (n := Nat.min (count ch) (length rest)) in *. unfold os_write in H. rewrite F, N in H. rewrite write_at_end in H.
    assert (SP : rest = firstn n rest ++ skipn n rest) by (symmetry; apply firstn_skipn).
    set (x := firstn n rest) in *. set (w2 := set_file (set_inode w i (IFile (a ++ x))) fd (i, (length a + length x)%nat)) in *.
    destruct (set_touches w i (a ++ x) a N) as [T BB].
    assert (B2 : bytes w2 i = Some (a ++ x)). { change (bytes (set_inode w i (IFile (a ++ x))) i = Some (a ++ x)). rewrite BB, Nat.eqb_refl. reflexivity. }
    assert (TW : touched w w2 t).
    { apply (TWrite _ _ _ i I); [exact T|rewrite B2; discriminate| |].
      - intros j J. change (bytes (set_inode w i (IFile (a ++ x))) j = bytes w j). rewrite BB. apply Nat.eqb_neq in J. rewrite J. reflexivity.
      - intros fd' j off F' J. cbn [w2 set_file files set_inode]. rewrite nth_pool. destruct (fd' =? fd)%nat eqn:X; [|exact F']. apply Nat.eqb_eq in X. congruence. }
    assert (I2 : inode_of w2 t = Some i). { rewrite <- I. destruct t as [j|d' c']; [reflexivity|]. destruct T as (_ & _ & E). apply E. }
    assert (D2 : data = (a ++ x) ++ skipn n rest) by (rewrite <- app_assoc, <- SP; exact D).
    destruct (skipn n rest) as [|b rest'] eqn:SK.
    + injection H as <- <-. split; [exact TW|]. eapply (XEnd _ _ _ _ _ fd (a ++ x) [] (Ok tt)); eauto. left. reflexivity.
    + destruct (n =? 0)%nat; injection H as <- <-; (split; [exact TW|]).
      * eapply (XEnd _ _ _ _ _ fd (a ++ x) (b :: rest') (Err EEOF)); eauto; [discriminate|left; reflexivity].
      * eapply (XWrite _ _ _ _ _ fd (a ++ x)); eauto. cbn [w2 set_file files set_inode]. rewrite nth_pool, Nat.eqb_refl, F, app_length. reflexivity.
  - destruct E as [-> | ->]; cbn [step] in H; injection H as <- <-; (split; [apply TNone; reflexivity|]; eapply (XEnd _ _ _ _ _ fd a rest r); eauto; right; reflexivity).
  - cbn [step] in H. injection H as <- <-. split; [apply TNone; reflexivity|]. apply XFail. exact U.
Qed.
Lemma step_idle w p data q ch w1 q1 : blocked w p -> idle p data q -> step w q ch = (w1, q1) -> w1 = w /\ idle p data q1.
Proof.
  intros B [|e] H; [|cbn [step] in H; injection H as <- <-; split; [reflexivity|constructor]].
  unfold Write in H. cbn [step] in H. destruct (fails ch) as [e|]; [injection H as <- <-; split; [reflexivity|constructor]|].
  unfold os_Create, blocked in *. destruct (locate w true p) as [[d|d c [i|]]|e]; [| | destruct B|]; try (injection H as <- <-; split; [reflexivity|constructor]).
  rewrite bytes_nth in B. destruct (nth_error (inodes w) i) as [[]|]; cbn in B; try discriminate; injection H as <- <-; (split; [reflexivity|constructor]).
Qed.
Lemma writer2_bytes w0 w p data t q : writer2 w0 w p data t q -> forall i, inode_of w t = Some i -> bytes w i <> None.
Proof.
  intros [(_ & U)|fd a rest j D I B F|fd a rest r q' j D I B R E|e (_ & U)] i H.
  - apply U. exact H.
  - rewrite I in H. injection H as <-. rewrite B. discriminate.
  - rewrite I in H. injection H as <-. rewrite B. discriminate.
  - apply U. exact H.
Qed.
Lemma touched_leads w w1 t q i : wf w -> touched w w1 t -> leads_to w q = Some i -> leads_to w1 q = Some i.
Proof.
  intros WF T L. destruct T as [->|j _ ST _ _ _|d c -> G _ _]; [exact L|rewrite (leads_same w w1 q ST); exact L|].
  assert (BA := locate_grown w w1 d c _ _ true q WF G). unfold leads_to in *. destruct (locate w true q) as [[d'|d' c' [j|]]|e]; try discriminate; cbn in BA; rewrite BA; exact L.
Qed.
Lemma touched_length w w1 t : touched w w1 t -> (forall j, nth_error (inodes w) j <> None -> nth_error (inodes w1) j <> None).
Proof.
  intros T j H. assert (S : sort_of w j <> None -> sort_of w1 j <> None).
  { destruct T as [->|i _ (_ & S & _) _ _ _|d c -> G _ _]; [auto|rewrite S; auto|]. rewrite (gr_sort _ _ _ _ _ _ G). destruct (j =? length (inodes w))%nat; [discriminate|auto]. }
  rewrite !sort_of_nth in S. destruct (nth_error (inodes w) j); [|contradiction]. destruct (nth_error (inodes w1) j); [discriminate|]. intros _. apply S; [discriminate|reflexivity].
Qed.
Lemma disjoint_next w w1 t u v : wf w -> valid w u -> valid w v -> touched w w1 t -> (u = t \/ disjoint w t u) -> (v = t \/ disjoint w t v) -> disjoint w u v -> disjoint w1 u v.
Proof.
  intros WF Vu Vv T Du Dv (N & D). split; [exact N|]. intros i Iu Iv.
  assert (EQ : forall x, (x = t \/ disjoint w t x) -> inode_of w1 x = inode_of w x \/ (x = t /\ inode_of w1 x = Some (length (inodes w)))).
  { intros x [-> |DX]; [|left; apply (inode_other w w1 t x T (proj1 DX))]. destruct T as [->|j _ (_ & _ & E) _ _ _|d c -> G _ _]; [left; reflexivity| |].
    - left. destruct t; [reflexivity|apply E].
    - right. split; [reflexivity|]. cbn [inode_of]. rewrite (gr_entry _ _ _ _ _ _ G), Nat.eqb_refl, beq_refl. reflexivity. }
  destruct (EQ u Du) as [Eu|[-> Eu]], (EQ v Dv) as [Ev|[-> Ev]].
  - rewrite Eu in Iu. rewrite Ev in Iv. exact (D i Iu Iv).
  - rewrite Ev in Iv. injection Iv as <-. rewrite Eu in Iu. assert (L := inode_lt w u _ WF Vu Iu). lia.
  - rewrite Eu in Iu. injection Iu as <-. rewrite Ev in Iv. assert (L := inode_lt w v _ WF Vv Iv). lia.
  - destruct (N eq_refl).
Qed.
Definition differ (w : world) (p q : list Z) : Prop := target_of w p = None \/ target_of w p <> target_of w q.
Record inv (w0 w : world) (jobs : list (list Z * list Z)) (ps : list (prog (Result unit))) : Prop := {
  in_wf : wf w;
  in_len : length ps = length jobs;
  in_path : forall p data, In (p, data) jobs -> path_ok w p (target_of w0 p);
  in_prog : forall k p data q, nth_error jobs k = Some (p, data) -> nth_error ps k = Some q -> progress w0 w p data (target_of w0 p) q;
  in_valid : forall p data t, In (p, data) jobs -> target_of w0 p = Some t -> valid w t;
  in_disj : forall k k' p data p' data' t t', k <> k' -> nth_error jobs k = Some (p, data) -> nth_error jobs k' = Some (p', data') ->
    target_of w0 p = Some t -> target_of w0 p' = Some t' -> disjoint w t t';
  in_leads : forall q i, leads_to w0 q = Some i -> leads_to w q = Some i;
  in_bytes : forall j, (j < length (inodes w0))%nat -> (forall p data, In (p, data) jobs -> target_of w0 p <> Some (OldFile j)) -> bytes w j = bytes w0 j;
  in_entry : forall d c, entry w d c = entry w0 d c \/ exists p data, In (p, data) jobs /\ target_of w0 p = Some (NewName d c);
  in_grow : (length (inodes w0) <= length (inodes w))%nat;
  in_old : forall p data d c i, In (p, data) jobs -> target_of w0 p = Some (NewName d c) -> entry w d c = Some i -> (length (inodes w0) <= i)%nat }.
Lemma inv_step w0 w jobs ps k q ch w1 q1 : inv w0 w jobs ps -> nth_error ps k = Some q -> step w q ch = (w1, q1) -> inv w0 w1 jobs (list_set ps k q1).
Proof.
  intros V Q S. assert (LK : (k < length jobs)%nat) by (rewrite <- (in_len _ _ _ _ V); apply nth_error_Some; rewrite Q; discriminate).
  destruct (nth_error jobs k) as [[p data]|] eqn:J; [|apply nth_error_None in J; lia]. assert (IJ := nth_error_In _ _ J).
  assert (WF1 : wf w1). { assert (X := step_wf w q ch (in_wf _ _ _ _ V)). rewrite S in X. exact X. }
  assert (PK := in_path _ _ _ _ V p data IJ). assert (GK := in_prog _ _ _ _ V k p data q J Q).
  destruct (target_of w0 p) as [t|] eqn:T0; cbn [path_ok progress] in PK, GK.
  2:{ destruct (step_idle w p data q ch w1 q1 PK GK S) as [-> ID].
      destruct V as [v1 v2 v3 v4 v5 v6 v7 v8 v9 v10 v11]. constructor; auto.
      - rewrite list_set_length. exact v2.
      - intros k' p' data' q' J' Q'. rewrite nth_pool in Q'. destruct (k' =? k)%nat eqn:X; [|exact (v4 _ _ _ _ J' Q')].
        apply Nat.eqb_eq in X. subst k'. rewrite Q in Q'. injection Q' as <-. rewrite J in J'. injection J' as <- <-. rewrite T0. exact ID. }
  destruct (step_writer2 w0 w p data t q ch w1 q1 (in_wf _ _ _ _ V) PK (writer2_bytes _ _ _ _ _ _ GK) GK S) as [T WK].
  assert (DK : forall k' p' data' u, k' <> k -> nth_error jobs k' = Some (p', data') -> target_of w0 p' = Some u -> disjoint w t u).
  { intros k' p' data' u N J' U. eapply (in_disj _ _ _ _ V); [|exact J|exact J'|exact T0|exact U]. auto. }
  assert (TD : forall k' p' data' u, nth_error jobs k' = Some (p', data') -> target_of w0 p' = Some u -> u = t \/ disjoint w t u).
  { intros k' p' data' u J' U. destruct (Nat.eq_dec k' k) as [->|N]; [|right; eapply DK; eauto]. left. rewrite J in J'. injection J' as <- <-. congruence. }
  destruct V as [v1 v2 v3 v4 v5 v6 v7 v8 v9 v10 v11]. constructor.
  - exact WF1.
  - rewrite list_set_length. exact v2.
  - intros p' data' I'. exact (path_next w w1 t p' _ v1 T (v3 p' data' I')).
  - intros k' p' data' q' J' Q'. rewrite nth_pool in Q'. destruct (k' =? k)%nat eqn:X.
    + apply Nat.eqb_eq in X. subst k'. rewrite Q in Q'. injection Q' as <-. rewrite J in J'. injection J' as <- <-. rewrite T0. exact WK.
    + apply Nat.eqb_neq in X. assert (G' := v4 _ _ _ _ J' Q'). destruct (target_of w0 p') as [u|] eqn:U; [|exact G']. cbn [progress] in *.
      apply (other_writer2 w0 w w1 p' data' t u q' v1 (v5 p' data' u (nth_error_In _ _ J') U) G' T (DK k' p' data' u X J' U)).
  - intros p' data' u I' U. assert (L := v5 _ _ _ I' U). destruct u as [j|]; [|exact I]. cbn [valid] in *. apply nth_error_Some. apply (touched_length w w1 t T). apply nth_error_Some. exact L.
  - intros k1 k2 p1 data1 p2 data2 t1 t2 N J1 J2 T1 T2. exact (disjoint_next w w1 t t1 t2 v1 (v5 _ _ _ (nth_error_In _ _ J1) T1) (v5 _ _ _ (nth_error_In _ _ J2) T2) T (TD _ _ _ _ J1 T1) (TD _ _ _ _ J2 T2) (v6 _ _ _ _ _ _ _ _ N J1 J2 T1 T2)).
  - intros x i L. exact (touched_leads w w1 t x i v1 T (v7 x i L)).
  - intros j L NT. rewrite <- (v8 j L NT). destruct T as [->|i I ST BN B F|d c -> G B F]; [reflexivity| |].
    + apply B. intros ->. destruct t as [i'|d c]; cbn [inode_of] in I; [injection I as ->; exact (NT _ _ IJ T0)|]. assert (X := v11 _ _ _ _ _ IJ T0 I). lia.
    + rewrite B. rewrite (proj2 (Nat.eqb_neq j (length (inodes w)))) by lia. reflexivity.
  - intros d c. destruct T as [->|i I (_ & _ & E) BN B F|d' c' -> G B F]; [apply v9|rewrite E; apply v9|].
    rewrite (gr_entry _ _ _ _ _ _ G). destruct ((d =? d')%nat && beq c c') eqn:H; [|apply v9]. apply andb_true_iff in H. destruct H as [H1 H2].
    apply Nat.eqb_eq in H1. apply beq_eq in H2. subst. right. exists p, data. auto.
  - destruct (Nat.le_gt_cases (length (inodes w)) (length (inodes w1))) as [L|L]; [lia|]. exfalso.
    apply (touched_length w w1 t T (length (inodes w1))); [apply nth_error_Some; exact L|apply nth_error_None; lia].
  - intros p' data' d c i I' U E. destruct T as [->|j Ij (_ & _ & EE) BN B F|d' c' -> G B F]; [exact (v11 _ _ _ _ _ I' U E)|rewrite EE in E; exact (v11 _ _ _ _ _ I' U E)|].
    rewrite (gr_entry _ _ _ _ _ _ G) in E. destruct ((d =? d')%nat && beq c c'); [injection E as <-; exact v10|exact (v11 _ _ _ _ _ I' U E)].
Qed.
Lemma inv_run w0 jobs : forall sched w ps w' ps', inv w0 w jobs ps -> run_pool w ps sched = (w', ps') -> inv w0 w' jobs ps'.
Proof.
  induction sched as [|[k ch] sched IH]; intros w ps w' ps' V H; cbn [run_pool] in H; [injection H as <- <-; exact V|].
  destruct (nth_error ps k) as [q|] eqn:Q; [|eapply IH; eauto]. destruct (step w q ch) as [w1 q1] eqn:S. eapply IH; [|exact H]. eapply inv_step; eauto.
Qed.
Lemma ordpairs_nth {A} (R : A -> A -> Prop) l : ForallOrdPairs R l -> forall k k' x y, (k < k')%nat -> nth_error l k = Some x -> nth_error l k' = Some y -> R x y.
Proof.
  induction 1 as [|a l F _ IH]; intros k k' x y L X Y; [destruct k; discriminate|]. destruct k as [|k], k' as [|k']; try lia; cbn [nth_error] in X, Y.
  - injection X as <-. rewrite Forall_forall in F. apply F. eapply nth_error_In. exact Y.
  - apply (IH k k'); auto. lia.
Qed.
Lemma inv_start w jobs : wf w -> ForallOrdPairs (fun a b => differ w (fst a) (fst b)) jobs ->
  inv w w jobs (map (fun job => Write (fst job) (snd job)) jobs).
Proof.
  intros WF FP. assert (TB : forall p i, target_of w p = Some (OldFile i) -> bytes w i <> None).
  { intros p i H. unfold target_of in H. destruct (locate w true p) as [[d|d c [j|]]|e]; try discriminate. destruct (bytes w j) eqn:B; [|discriminate]. injection H as <-. rewrite B. discriminate. }
  assert (TN : forall p d c, target_of w p = Some (NewName d c) -> entry w d c = None).
  { intros p d c H. unfold target_of in H. assert (P := locate_place w true p). destruct (locate w true p) as [[d'|d' c' [j|]]|e]; try discriminate; [destruct (bytes w j); discriminate|]. injection H as <- <-. tauto. }
  constructor; auto.
  - apply map_length.
  - intros p data _. apply path_start.
  - intros k p data q J Q. rewrite nth_error_map, J in Q. cbn [option_map fst snd] in Q. injection Q as <-.
    destruct (target_of w p) as [t|] eqn:T; cbn [progress]; [|constructor]. apply XStart. split; [reflexivity|]. intros i I. split; [reflexivity|].
    destruct t as [j|d c]; cbn [inode_of] in I; [injection I as <-; eapply TB; eauto|]. rewrite (TN _ _ _ T) in I. discriminate.
  - intros p data t _ T. destruct t as [i|]; [|exact I]. cbn [valid]. assert (B := TB _ _ T). rewrite bytes_nth in B. apply nth_error_Some. intros E. rewrite E in B. contradiction.
  - assert (W : forall k k' p data p' data' t t', (k < k')%nat -> nth_error jobs k = Some (p, data) -> nth_error jobs k' = Some (p', data') ->
      target_of w p = Some t -> target_of w p' = Some t' -> t <> t').
    { intros k k' p data p' data' t t' L J J' T T' E. subst t'. destruct (ordpairs_nth _ _ FP k k' _ _ L J J') as [X|X]; cbn [fst] in X; congruence. }
    intros k k' p data p' data' t t' N J J' T T'. assert (NE : t <> t').
    { destruct (Nat.lt_gt_cases k k') as [L _]. specialize (L N). destruct L as [L|L]; [eapply W; eauto|]. intros E. symmetry in E. revert E. eapply (W k' k); eauto. }
    split; [exact NE|]. intros i I I'. destruct t as [j|d c], t' as [j'|d' c']; cbn [inode_of] in *.
    + congruence.
    + rewrite (TN _ _ _ T') in I'. discriminate.
    + rewrite (TN _ _ _ T) in I. discriminate.
    + rewrite (TN _ _ _ T) in I. discriminate.
  - intros p data d c i _ T E. rewrite (TN _ _ _ T) in E. discriminate.
Qed.
Theorem pool_new w jobs sched w' ps : wf w -> ForallOrdPairs (fun a b => differ w (fst a) (fst b)) jobs ->
  run_pool w (map (fun job => Write (fst job) (snd job)) jobs) sched = (w', ps) ->
  length ps = length jobs /\
  (forall q i, leads_to w q = Some i -> leads_to w' q = Some i) /\
  (forall j, (j < length (inodes w))%nat -> (forall p data, In (p, data) jobs -> target_of w p <> Some (OldFile j)) -> bytes w' j = bytes w j) /\
  (forall d c, entry w' d c = entry w d c \/ exists p data, In (p, data) jobs /\ target_of w p = Some (NewName d c)) /\
  (forall k p data q, nth_error jobs k = Some (p, data) -> nth_error ps k = Some q ->
     (q = Done (Ok tt) -> contents w' p = Some data) /\
     (contents w' p = contents w p \/ exists x, prefix x data /\ contents w' p = Some x)).
Proof.
  intros WF FP H. assert (V := inv_run w jobs sched _ _ _ _ (inv_start w jobs WF FP) H).
  destruct V as [v1 v2 v3 v4 v5 v6 v7 v8 v9 v10 v11]. split; [exact v2|]. split; [exact v7|]. split; [exact v8|]. split; [exact v9|].
  intros k p data q J Q. assert (IJ := nth_error_In _ _ J). assert (P := v3 p data IJ). assert (G := v4 k p data q J Q). assert (P0 := path_start w p).
  assert (LT : forall v t, finds v p t -> leads_to v p = inode_of v t).
  { intros v t F. unfold leads_to. destruct t as [i|d c]; cbn [finds inode_of] in *; [destruct F as (d & c & ->); reflexivity|]. rewrite F. destruct (entry v d c); reflexivity. }
  destruct (target_of w p) as [t|] eqn:T; cbn [path_ok progress] in P, P0, G.
  - unfold contents. rewrite (LT _ _ P), (LT _ _ P0). destruct G as [(A & B)|fd a rest i D I B F|fd a rest r q' i D I B R E|e (A & B)].
    + split; [discriminate|]. left. rewrite <- A. destruct (inode_of w' t) as [i|]; [apply B|]; reflexivity.
    + split; [discriminate|]. right. exists a. rewrite I. split; [exists rest; exact D|exact B].
    + rewrite I. split; [|right; exists a; split; [exists rest; exact D|exact B]]. intros ->. destruct E as [E|E]; [discriminate|]. injection E as E. rewrite (R (eq_sym E)), app_nil_r in D. congruence.
    + split; [discriminate|]. left. rewrite <- A. destruct (inode_of w' t) as [i|]; [apply B|]; reflexivity.
  - split; [destruct G; discriminate|]. left. assert (X : forall v, blocked v p -> contents v p = None).
    { intros v B. unfold contents, leads_to, blocked in *. assert (PL := locate_place v true p). destruct (locate v true p) as [[d|d c [i|]]|e]; try reflexivity; [|exact B].
      destruct PL as (pp & S). rewrite bytes_nth. rewrite sort_of_nth in S. destruct (nth_error (inodes v) d) as [[]|]; try discriminate; reflexivity. }
    rewrite (X w' P), (X w P0). reflexivity.
Qed.
