(** FsTreeProofs.v -- Copy, RemoveFile, RemoveDir, Rename, CreateDir and ReadDir. *)
From Verif Require Import Base BaseLemmas OsModel FsModel FsSpec FsProofs FsWriteProofs.
Open Scope Z_scope.

Definition here (d d' : nat) (c c' : list Z) : bool := (d' =? d)%nat && beq c' c.
Lemma here_eq d d' c c' : here d d' c c' = true <-> d' = d /\ c' = c.
Proof. unfold here. rewrite andb_true_iff, Nat.eqb_eq, beq_eq. tauto. Qed.
Lemma here_refl d c : here d d c c = true.
Proof. apply here_eq. auto. Qed.

(** Following a last symbolic link or not. *)
Lemma walk_follow w : forall links d0 cs,
  match walk w false links d0 cs with
  | inl (PAt d c (Some i)) => (forall t, sort_of w i <> Some (ALink t)) -> walk w true links d0 cs = walk w false links d0 cs
  | inl _ => walk w true links d0 cs = walk w false links d0 cs
  | inr e => walk w true links d0 cs = walk w false links d0 cs
  end.
Proof.
  apply (walk_ind (fun links d0 cs => match walk w false links d0 cs with
    | inl (PAt d c (Some i)) => (forall t, sort_of w i <> Some (ALink t)) -> walk w true links d0 cs = walk w false links d0 cs
    | inl _ => walk w true links d0 cs = walk w false links d0 cs
    | inr e => walk w true links d0 cs = walk w false links d0 cs end)).
  intros links d0 cs H1 H2. rewrite (walk_eq w true), (walk_eq w false).
  destruct (sort_of w d0) as [[|p|t]|]; try reflexivity. destruct cs as [|c r]; [reflexivity|].
  destruct (dot c); [apply H1; cbn [length]; lia|]. destruct (dotdot c); [apply H1; cbn [length]; lia|].
  destruct (entry w d0 c) as [i|]; [|destruct r; reflexivity].
  destruct (sort_of w i) as [[|q|t]|] eqn:S; try (destruct r; [reflexivity|apply H1; cbn [length]; lia]).
  cbn [negb]. destruct r as [|c1 r].
  - intros NL. exfalso. eapply NL. exact S.
  - destruct links as [|links']; [reflexivity|]. apply H2. reflexivity.
Qed.
Lemma locate_follow w p :
  match locate w false p with
  | inl (PAt d c (Some i)) => (forall t, sort_of w i <> Some (ALink t)) -> locate w true p = locate w false p
  | _ => locate w true p = locate w false p
  end.
Proof.
  unfold locate. destruct p as [|b p]; [reflexivity|]. assert (X := walk_follow w 40 (if rooted (b :: p) then 0%nat else cwd w) (components (b :: p))).
  destruct (walk w false 40 _ _) as [[d|d c [i|]]|e]; exact X.
Qed.

(** *** A new name for an old thing *)
Record linked (w w' : world) (d : nat) (c : list Z) (i : nat) : Prop := {
  ln_cwd : cwd w' = cwd w;
  ln_sort : forall j, sort_of w' j = sort_of w j;
  ln_entry : forall d' c', entry w' d' c' = if here d d' c c' then Some i else entry w d' c';
  ln_free : entry w d c = None;
  ln_dir : forall p, sort_of w i <> Some (ADir p);
  ln_bytes : forall j, bytes w' j = bytes w j }.
Definition link_view (w : world) follow d c i (r r' : place + errno) : Prop :=
  match r with
  | inl (PAt d' c' None) =>
      if here d d' c c' then (follow = false \/ forall t, sort_of w i <> Some (ALink t)) -> r' = inl (PAt d c (Some i)) else r' = r
  | inl _ => r' = r
  | inr e => (forall t, sort_of w i <> Some (ALink t)) -> exists e', r' = inr e'
  end.
Lemma lv_refl w follow d c i r : (forall d' c', r = inl (PAt d' c' None) -> here d d' c c' = false) -> link_view w follow d c i r r.
Proof.
  intros H. destruct r as [[d'|d' c' [j|]]|e]; cbn; eauto. rewrite (H _ _ eq_refl). reflexivity.
Qed.
Lemma walk_linked w w' follow d c i : linked w w' d c i -> forall links d0 cs,
  link_view w follow d c i (walk w follow links d0 cs) (walk w' follow links d0 cs).
Proof.
  intros G. apply (walk_ind (fun links d0 cs => link_view w follow d c i (walk w follow links d0 cs) (walk w' follow links d0 cs))).
  intros links d0 cs H1 H2. rewrite (walk_eq w'), (walk_eq w). rewrite (ln_sort _ _ _ _ _ G).
  destruct (sort_of w d0) as [[|p|t]|] eqn:SD; try (apply lv_refl; discriminate).
  destruct cs as [|c0 r]; [apply lv_refl; discriminate|].
  destruct (dot c0); [apply H1; cbn [length]; lia|]. destruct (dotdot c0); [apply H1; cbn [length]; lia|].
  rewrite (ln_entry _ _ _ _ _ G). destruct (here d d0 c c0) eqn:HERE.
  - assert (HR := HERE). apply here_eq in HERE. destruct HERE as [-> ->].
    rewrite (ln_free _ _ _ _ _ G), (ln_sort _ _ _ _ _ G). destruct r as [|c1 r].
    + cbn [link_view]. rewrite HR. intros NL. destruct (sort_of w i) as [[|q|t]|] eqn:SI; try reflexivity.
      destruct NL as [-> |NL]; [reflexivity|]. exfalso. eapply NL. reflexivity.
    + cbn [link_view]. intros NL. destruct (sort_of w i) as [[|q|t]|] eqn:SI.
      * rewrite walk_eq, (ln_sort _ _ _ _ _ G), SI. eauto.
      * exfalso. eapply (ln_dir _ _ _ _ _ G). exact SI.
      * exfalso. eapply NL. reflexivity.
      * rewrite walk_eq, (ln_sort _ _ _ _ _ G), SI. eauto.
  - destruct (entry w d0 c0) as [j|] eqn:EN.
    + rewrite (ln_sort _ _ _ _ _ G).
      assert (X : link_view w follow d c i (match r with [] => inl (PAt d0 c0 (Some j)) | _ => walk w follow links j r end)
                                           (match r with [] => inl (PAt d0 c0 (Some j)) | _ => walk w' follow links j r end)).
      { destruct r; [apply lv_refl; discriminate|]. apply H1; cbn [length]; lia. }
      destruct (sort_of w j) as [[|q|t]|]; try exact X.
      destruct (match r with [] => negb follow | _ => false end); [apply lv_refl; discriminate|].
      destruct links as [|links']; [apply lv_refl; discriminate|]. apply H2. reflexivity.
    + apply lv_refl. intros d' c' E. destruct r; [|discriminate]. injection E as <- <-. exact HERE.
Qed.
Lemma locate_linked w w' follow d c i p : linked w w' d c i -> link_view w follow d c i (locate w follow p) (locate w' follow p).
Proof.
  intros G. unfold locate. destruct p as [|b p]; [apply lv_refl; discriminate|]. rewrite (ln_cwd _ _ _ _ _ G). apply walk_linked. exact G.
Qed.
Lemma link_linked w d c i p : sort_of w d = Some (ADir p) -> entry w d c = None -> (forall q, sort_of w i <> Some (ADir q)) ->
  linked w (change_dir w d (link_name c i)) d c i.
Proof.
  intros S E D. constructor; auto.
  - apply cwd_change.
  - apply sort_change.
  - intros d' c'. rewrite !entry_assoc, (entries_change _ _ _ _ _ S). unfold here. destruct (d' =? d)%nat eqn:X; cbn [andb]; [|reflexivity].
    rewrite assoc_link. apply Nat.eqb_eq in X. subst. reflexivity.
  - apply bytes_change.
Qed.

(** One call: what a finished run of it is. *)
Definition one_call (f : world -> world * option errno) (p : (option errno -> prog (Result unit)) -> prog (Result unit)) : Prop :=
  forall w k ch, step w (p k) ch = match fails ch with Some e => (w, k (Some e)) | None => let (w1, r) := f w in (w1, k r) end.
Lemma call_run f p w chs w' r : one_call f p -> (forall w e, snd (f w) = Some e -> fst (f w) = w) ->
  (forall x, p (fun err => Done (finish err tt)) <> Done x) ->
  run w (p (fun err => Done (finish err tt))) chs = (w', Done r) ->
  (exists e, r = Err e /\ w' = w) \/ (r = Ok tt /\ f w = (w', None)).
Proof.
  intros OC FAIL ND H. destruct chs as [|ch chs]; cbn [run] in H; [injection H as _ H; destruct (ND _ H)|].
  rewrite OC in H. destruct (fails ch) as [e|].
  - apply run_done in H. destruct H as [-> H]. injection H as ->. left. exists e. auto.
  - destruct (f w) as [w1 [e|]] eqn:F; apply run_done in H; destruct H as [-> H]; injection H as ->.
    + left. exists e. split; [reflexivity|]. specialize (FAIL w e). rewrite F in FAIL. apply FAIL. reflexivity.
    + right. auto.
Qed.
Lemma link_failed w p q e : snd (os_Link w p q) = Some e -> fst (os_Link w p q) = w.
Proof.
  unfold os_Link. destruct (locate w false p) as [[d|d c [i|]]|e1]; try reflexivity.
  destruct (nth_error (inodes w) i) as [[]|]; try reflexivity; destruct (locate w false q) as [[d'|d' c' [i'|]]|e']; try reflexivity; discriminate.
Qed.
Lemma remove_failed w p e : snd (os_Remove w p) = Some e -> fst (os_Remove w p) = w.
Proof.
  unfold os_Remove. destruct (locate w false (strip p)) as [[d|d c [i|]]|e1]; try reflexivity.
  destruct (nth_error (inodes w) i) as [[x|q [|en es]|t]|]; try reflexivity; try discriminate; destruct (slash_at_end p); try reflexivity; discriminate.
Qed.
Lemma mkdir_failed w p e : snd (os_Mkdir w p) = Some e -> fst (os_Mkdir w p) = w.
Proof.
  unfold os_Mkdir. destruct (locate w false (strip p)) as [[d|d c [i|]]|e1]; try reflexivity. discriminate.
Qed.
Lemma sys_rename_failed w p q e : snd (sys_rename w p q) = Some e -> fst (sys_rename w p q) = w.
Proof.
  unfold sys_rename. destruct (locate w false (strip p)) as [[d|d c [i|]]|e1]; try reflexivity.
  destruct (locate w false (strip q)) as [[d'|d' c' t]|e']; try reflexivity.
  destruct (negb (is_dir w i) && _); [reflexivity|]. destruct (match t with Some j => (j =? i)%nat | None => false end); [reflexivity|].
  destruct (is_dir w i && _); [reflexivity|]. destruct (match t with Some j => xorb _ _ | None => false end); [reflexivity|]. discriminate.
Qed.
Lemma rename_failed w p q e : snd (os_Rename w p q) = Some e -> fst (os_Rename w p q) = w.
Proof.
  assert (S := sys_rename_failed w p q e). unfold os_Rename.
  destruct (locate w false q) as [[d'|d' c' [j|]]|e']; try exact S.
  - destruct (is_dir w d'); [|exact S]. destruct (locate w false p) as [[d|d c [i|]]|e1]; try reflexivity; destruct (beq q p || negb _); try reflexivity; exact S.
  - destruct (is_dir w j); [|exact S]. destruct (locate w false p) as [[d|d c [i|]]|e1]; try reflexivity; destruct (beq q p || negb _); try reflexivity; exact S.
Qed.

(** *** Copy *)
Theorem Copy_run w a b chs w' r : wf w -> run w (Copy a b) chs = (w', Done r) ->
  (exists e, r = Err e /\ w' = w) \/
  (r = Ok tt /\ exists i d c, named w a = Some i /\ locate w false b = inl (PAt d c None) /\ linked w w' d c i /\
     named w' a = Some i /\ named w' b = Some i).
Proof.
  intros WF H. destruct (call_run (fun w => os_Link w a b) (Link a b) w chs w' r) as [F|[OK E]]; auto.
  - intros v k ch. reflexivity.
  - intros v e. apply link_failed.
  - discriminate.
  - right. split; [exact OK|]. unfold os_Link in E. assert (PA := locate_place w false a). assert (PB := locate_place w false b).
    unfold named at 1. destruct (locate w false a) as [[d1|d1 c1 [i|]]|e1] eqn:LA; try discriminate.
    assert (ND : forall q, sort_of w i <> Some (ADir q)).
    { intros q S. rewrite sort_of_nth in S. destruct (nth_error (inodes w) i) as [[]|]; discriminate. }
    assert (E' : match locate w false b with inl (PAt d c None) => (change_dir w d (link_name c i), None) | inl _ => (w, Some EEXIST) | inr e => (w, Some e) end = (w', None)).
    { destruct (nth_error (inodes w) i) as [[]|]; try discriminate; exact E. }
    clear E. destruct (locate w false b) as [[d|d c [j|]]|e] eqn:LB; try discriminate. injection E' as <-.
    destruct PB as ((q & S) & EN & GN & _). assert (LK := link_linked w d c i q S EN ND). exists i, d, c. split; [reflexivity|]. split; [reflexivity|]. split; [exact LK|].
    assert (VA := locate_linked w _ false d c i a LK). assert (VB := locate_linked w _ false d c i b LK). rewrite LA in VA. rewrite LB in VB.
    cbn [link_view] in VA, VB. rewrite here_refl in VB. unfold named. rewrite VA, (VB (or_introl eq_refl)). auto.
Qed.
(** A file, not a symbolic link: both paths lead to it. *)
Lemma named_leads w p i : named w p = Some i -> (forall t, sort_of w i <> Some (ALink t)) -> leads_to w p = Some i.
Proof.
  unfold named, leads_to. intros H NL. assert (X := locate_follow w p). destruct (locate w false p) as [[d|d c [j|]]|e]; try discriminate; injection H as ->; rewrite X by auto; reflexivity.
Qed.
Lemma file_not_link w i data : bytes w i = Some data -> forall t, sort_of w i <> Some (ALink t).
Proof. intros B t. rewrite bytes_nth in B. rewrite sort_of_nth. destruct (nth_error (inodes w) i) as [[]|]; discriminate. Qed.
Lemma Copy_target w a b i chs w' r : named w b = Some i -> run w (Copy a b) chs = (w', Done r) -> w' = w /\ exists e, r = Err e.
Proof.
  intros NB H. destruct (call_run (fun w => os_Link w a b) (Link a b) w chs w' r) as [(e & -> & ->)|[OK E]]; eauto.
  - intros v k ch. reflexivity.
  - intros v e. apply link_failed.
  - discriminate.
  - exfalso. unfold os_Link in E. unfold named in NB. destruct (locate w false b) as [[d|d c [j|]]|e]; try discriminate;
      destruct (locate w false a) as [[d1|d1 c1 [k|]]|e1]; try discriminate; destruct (nth_error (inodes w) k) as [[]|]; discriminate.
Qed.

(** *** Removing a name *)
Record unlinked (w w' : world) (d : nat) (c : list Z) : Prop := {
  un_cwd : cwd w' = cwd w;
  un_sort : forall j, sort_of w' j = sort_of w j;
  un_entry : forall d' c', entry w' d' c' = if here d d' c c' then None else entry w d' c';
  un_bytes : forall j, bytes w' j = bytes w j }.
Lemma walk_unlinked w w' follow d c : unlinked w w' d c -> forall links d0 cs,
  let r := walk w follow links d0 cs in let r' := walk w' follow links d0 cs in
  (r' = r /\ forall i, r <> inl (PAt d c (Some i))) \/ r' = inl (PAt d c None) \/ r' = inr ENOENT.
Proof.
  intros G. apply (walk_ind (fun links d0 cs => let r := walk w follow links d0 cs in let r' := walk w' follow links d0 cs in
    (r' = r /\ forall i, r <> inl (PAt d c (Some i))) \/ r' = inl (PAt d c None) \/ r' = inr ENOENT)).
  intros links d0 cs H1 H2. rewrite (walk_eq w'), (walk_eq w). cbv zeta. rewrite (un_sort _ _ _ _ G).
  destruct (sort_of w d0) as [[|p|t]|] eqn:SD; try (left; split; [reflexivity|discriminate]).
  destruct cs as [|c0 r]; [left; split; [reflexivity|discriminate]|].
  destruct (dot c0); [apply H1; cbn [length]; lia|]. destruct (dotdot c0); [apply H1; cbn [length]; lia|].
  rewrite (un_entry _ _ _ _ G). destruct (here d d0 c c0) eqn:HERE.
  - apply here_eq in HERE. destruct HERE as [-> ->]. destruct r; auto.
  - assert (NH : forall i, inl (PAt d0 c0 (Some i)) <> inl (PAt d c (Some i)) :> place + errno).
    { intros i E. injection E as -> ->. rewrite here_refl in HERE. discriminate. }
    destruct (entry w d0 c0) as [j|] eqn:EN.
    + rewrite (un_sort _ _ _ _ G).
      assert (X : let r1 := (match r with [] => inl (PAt d0 c0 (Some j)) | _ => walk w follow links j r end) in
                  let r2 := (match r with [] => inl (PAt d0 c0 (Some j)) | _ => walk w' follow links j r end) in
                  (r2 = r1 /\ forall i, r1 <> inl (PAt d c (Some i))) \/ r2 = inl (PAt d c None) \/ r2 = inr ENOENT).
      { destruct r; [|apply H1; cbn [length]; lia]. left. split; [reflexivity|]. intros i E. injection E as -> -> ->. rewrite here_refl in HERE. discriminate. }
      destruct (sort_of w j) as [[|q|t]|]; try exact X.
      destruct (match r with [] => negb follow | _ => false end); [left; split; [reflexivity|]; intros i E; injection E as -> -> ->; rewrite here_refl in HERE; discriminate|].
      destruct links as [|links']; [left; split; [reflexivity|discriminate]|]. apply H2. reflexivity.
    + left. destruct r; split; auto; discriminate.
Qed.
Lemma locate_unlinked w w' follow d c p : unlinked w w' d c ->
  (locate w' follow p = locate w follow p /\ forall i, locate w follow p <> inl (PAt d c (Some i))) \/ locate w' follow p = inl (PAt d c None) \/ locate w' follow p = inr ENOENT.
Proof.
  intros G. unfold locate. destruct p as [|b p]; [auto|]. rewrite (un_cwd _ _ _ _ G). apply (walk_unlinked w w' follow d c G).
Qed.
Lemma unlink_unlinked w d c p : sort_of w d = Some (ADir p) -> unlinked w (change_dir w d (unlink_name c)) d c.
Proof.
  intros S. constructor.
  - apply cwd_change.
  - apply sort_change.
  - intros d' c'. rewrite !entry_assoc, (entries_change _ _ _ _ _ S). unfold here. destruct (d' =? d)%nat eqn:X; cbn [andb]; [|reflexivity].
    rewrite assoc_unlink. apply Nat.eqb_eq in X. subst. reflexivity.
  - apply bytes_change.
Qed.
Theorem Remove_run w p chs w' r : run w (RemoveFile p) chs = (w', Done r) ->
  (exists e, r = Err e /\ w' = w) \/
  (r = Ok tt /\ exists i d c, locate w false (strip p) = inl (PAt d c (Some i)) /\ unlinked w w' d c /\
     named w' (strip p) = None /\ ((forall q, sort_of w i <> Some (ADir q)) \/ entries w i = [])).
Proof.
  intros H. destruct (call_run (fun w => os_Remove w p) (Remove p) w chs w' r) as [F|[OK E]]; auto.
  - intros v k ch. reflexivity.
  - intros v e. apply remove_failed.
  - discriminate.
  - right. split; [exact OK|]. unfold os_Remove in E. assert (P := locate_place w false (strip p)).
    destruct (locate w false (strip p)) as [[d|d c [i|]]|e] eqn:L; try discriminate. destruct P as ((q & S) & EN & _).
    assert (X : w' = change_dir w d (unlink_name c) /\ ((forall q, sort_of w i <> Some (ADir q)) \/ entries w i = [])).
    { rewrite sort_of_nth, entries_nth. destruct (nth_error (inodes w) i) as [[x|q' [|e es]|t]|]; try discriminate; try (destruct (slash_at_end p); [discriminate|]);
        injection E as <-; (split; [reflexivity|]); cbn [sort_i entries_i]; try (right; reflexivity); left; discriminate. }
    destruct X as [-> X]. assert (U := unlink_unlinked w d c q S). exists i, d, c. split; [reflexivity|]. split; [exact U|]. split; [|exact X].
    unfold named. destruct (locate_unlinked w _ false d c (strip p) U) as [[-> N]|[-> | ->]]; try reflexivity. exfalso. eapply N. exact L.
Qed.

(** *** CreateDir *)
Theorem CreateDir_run w p chs w' r : wf w -> run w (CreateDir p) chs = (w', Done r) ->
  (exists e, r = Err e /\ w' = w) \/
  (r = Ok tt /\ exists d c new, locate w false (strip p) = inl (PAt d c None) /\ grown w w' d c new (ADir d) /\
     named w' (strip p) = Some new /\ entries w' new = [] /\ forall j, bytes w' j = bytes w j).
Proof.
  intros WF H. destruct (call_run (fun w => os_Mkdir w p) (Mkdir p) w chs w' r) as [F|[OK E]]; auto.
  - intros v k ch. reflexivity.
  - intros v e. apply mkdir_failed.
  - discriminate.
  - right. split; [exact OK|]. unfold os_Mkdir in E. assert (P := locate_place w false (strip p)).
    destruct (locate w false (strip p)) as [[d|d c [i|]]|e] eqn:L; try discriminate. destruct P as ((q & S) & EN & GN & _).
    assert (PL : w' = plant w (IDir d []) d c) by (cbn [new_inode] in E; injection E as <-; reflexivity). subst w'. clear E.
    assert (G := plant_grown w (IDir d []) d c q WF S EN (or_intror eq_refl)). cbn [sort_i] in G. exists d, c, (length (inodes w)).
    split; [reflexivity|]. split; [exact G|]. assert (LP := sort_lt _ _ _ S). split; [|split].
    + assert (X := locate_grown w _ d c _ _ false (strip p) WF G). rewrite L in X. cbn [before_after] in X. rewrite Nat.eqb_refl, beq_refl in X. cbn [andb] in X. unfold named. rewrite X. reflexivity.
    + unfold plant. rewrite (entries_change _ _ _ q); [|rewrite sort_new, (new_old w (IDir d []) _ LP); exact S].
      assert (N : (length (inodes w) =? d)%nat = false) by (apply Nat.eqb_neq; lia). rewrite N, entries_nth, nth_new, Nat.eqb_refl. reflexivity.
    + intros j. rewrite (plant_bytes _ _ _ _ _ _ S). destruct (j =? length (inodes w))%nat eqn:J; [|reflexivity]. apply Nat.eqb_eq in J. subst.
      rewrite bytes_nth. assert (N : nth_error (inodes w) (length (inodes w)) = None) by (apply nth_error_None; lia). rewrite N. reflexivity.
Qed.

(** *** Rename *)
Record moved (w w' : world) (d1 d2 : nat) (c1 c2 : list Z) (i : nat) : Prop := {
  mv_cwd : cwd w' = cwd w;
  mv_sort : forall j, sort_of w' j = if (j =? i)%nat && is_dir w i then Some (ADir d2) else sort_of w j;
  mv_entry : forall d' c', entry w' d' c' = if here d2 d' c2 c' then Some i else if here d1 d' c1 c' then None else entry w d' c';
  mv_bytes : forall j, bytes w' j = bytes w j }.
Theorem Rename_run w from to chs w' r : run w (Rename from to) chs = (w', Done r) ->
  (exists e, r = Err e /\ w' = w) \/
  (r = Ok tt /\ exists i d1 c1 d2 c2 t, locate w false (strip from) = inl (PAt d1 c1 (Some i)) /\ locate w false (strip to) = inl (PAt d2 c2 t) /\
     (if match t with Some j => (j =? i)%nat | None => false end then w' = w
      else moved w w' d1 d2 c1 c2 i)).
Proof.
  intros H. destruct (call_run (fun w => os_Rename w from to) (OsRename from to) w chs w' r) as [F|[OK E]]; auto.
  - intros v k ch. reflexivity.
  - intros v e. apply rename_failed.
  - discriminate.
  - right. split; [exact OK|]. assert (E' : sys_rename w from to = (w', None)).
    { unfold os_Rename in E. destruct (locate w false to) as [[d'|d' c' [j|]]|e']; try exact E.
      - destruct (is_dir w d'); [|exact E]. destruct (locate w false from) as [[d|d c [i|]]|e1]; try discriminate; destruct (beq to from || negb _); try discriminate; exact E.
      - destruct (is_dir w j); [|exact E]. destruct (locate w false from) as [[d|d c [i|]]|e1]; try discriminate; destruct (beq to from || negb _); try discriminate; exact E. }
    clear E. unfold sys_rename in E'. assert (P := locate_place w false (strip from)). assert (Q := locate_place w false (strip to)).
    destruct (locate w false (strip from)) as [[d1|d1 c1 [i|]]|e1]; try discriminate.
    destruct (locate w false (strip to)) as [[d2|d2 c2 t]|e2]; try discriminate.
    destruct P as ((q1 & S1) & EN1 & _). destruct Q as ((q2 & S2) & EN2 & _).
    exists i, d1, c1, d2, c2, t. split; [reflexivity|]. split; [reflexivity|].
    destruct (negb (is_dir w i) && _); [discriminate|]. destruct (match t with Some j => (j =? i)%nat | None => false end) eqn:SAME; [congruence|].
    destruct (is_dir w i && beneath _ _ _ _); [discriminate|]. destruct (match t with Some j => xorb _ _ | None => false end); [discriminate|].
    injection E' as <-. assert (S2' : sort_of (change_dir w d1 (unlink_name c1)) d2 = Some (ADir q2)) by (rewrite sort_change; exact S2). constructor.
    + unfold set_parent. destruct (nth_error _ i) as [[]|]; cbn [set_inode cwd]; rewrite !cwd_change; reflexivity.
    + intros j. rewrite sort_set_parent, !sort_change. unfold is_dir at 1.
      assert (X : is_dir (change_dir (change_dir w d1 (unlink_name c1)) d2 (link_name c2 i)) i = is_dir w i).
      { assert (Y : sort_of (change_dir (change_dir w d1 (unlink_name c1)) d2 (link_name c2 i)) i = sort_of w i) by (rewrite !sort_change; reflexivity).
        unfold is_dir. revert Y. rewrite !sort_of_nth. generalize (nth_error (inodes (change_dir (change_dir w d1 (unlink_name c1)) d2 (link_name c2 i))) i).
        intros o Y. destruct o as [[]|], (nth_error (inodes w) i) as [[]|]; try discriminate; reflexivity. }
      unfold is_dir at 1 in X. rewrite X. reflexivity.
    + intros d' c'. rewrite !entry_assoc, entries_set_parent, (entries_change _ _ _ _ _ S2'). unfold here. destruct (d' =? d2)%nat eqn:X2; cbn [andb].
      * rewrite assoc_link. destruct (beq c' c2); [reflexivity|]. rewrite (entries_change _ _ _ _ _ S1). apply Nat.eqb_eq in X2. subst d'.
        destruct (d2 =? d1)%nat eqn:X1; cbn [andb]; [|reflexivity]. rewrite assoc_unlink. apply Nat.eqb_eq in X1. subst. reflexivity.
      * rewrite (entries_change _ _ _ _ _ S1). destruct (d' =? d1)%nat eqn:X1; cbn [andb]; [|reflexivity]. rewrite assoc_unlink. apply Nat.eqb_eq in X1. subst. reflexivity.
    + intros j. rewrite bytes_set_parent, !bytes_change. reflexivity.
Qed.
