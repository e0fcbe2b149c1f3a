(** FsProps.v -- files and directories (C65 to C68, C75 to C79).

    A theorem about a call ranges over every state of the file system, every path and
    every behaviour of the system allowed by POSIX: [run w P chs] performs one system
    call of P for each element of chs, which decides whether the call fails and how many
    bytes it moves.  [Done r] is a call that has returned r. *)
From Coq Require Import Permutation Sorted.
From Verif Require Import Base BaseLemmas TextSpec OsModel FsModel FsSpec FsProofs FsWriteProofs FsTreeProofs FsDirProofs FsPoolProofs FsPoolNewProofs.
Open Scope Z_scope.

(** A file system to try things on:  /a and /b are the same file, /s -> d is a symbolic
    link, /d contains the file x, the symbolic link l -> x and the empty directory e,
    /x is another file. *)
Definition w0 : world := mkWorld
  [IDir 0 [(zs "a", 1%nat); (zs "d", 2%nat); (zs "s", 3%nat); (zs "b", 1%nat); (zs "x", 7%nat)];
   IFile (zs "old"); IDir 0 [(zs "x", 4%nat); (zs "l", 5%nat); (zs "e", 6%nat)]; ISymlink (zs "d"); IFile (zs "in d"); ISymlink (zs "x"); IDir 2 []; IFile (zs "top")] 0 [].
Lemma w0_wf : wf w0.
Proof.
  constructor.
  - reflexivity.
  - exists 0%nat. reflexivity.
  - intros d p H. do 8 (destruct d as [|d]; [cbn in H; try discriminate; injection H as <-; eexists; reflexivity|]). destruct d; discriminate.
  - intros d. do 8 (destruct d as [|d]; [cbn; repeat constructor; cbn; intuition discriminate|]). destruct d; constructor.
  - intros d c i H. assert (G : forall c, dot c = false -> dotdot c = false -> existsb (Z.eqb 47) c = false -> good_name c).
    { intros x A B C. split; [exact A|]. split; [exact B|]. intros I. assert (X : existsb (Z.eqb 47) x = true) by (apply existsb_exists; exists 47; split; [exact I|reflexivity]). congruence. }
    do 8 (destruct d as [|d]; [cbn in H; repeat (destruct H as [H|H]; [injection H as <- <-; split; [apply G; reflexivity|cbn; lia]|]); destruct H|]). destruct d; destruct H.
  - intros i off [].
Qed.

(** *** C65: write, then read *)

(** The full statement is false: one read(2) may return fewer bytes than asked for, and
    Read and ReadToString then return zero bytes in place of the rest. *)
Theorem C65_read_refuted : exists w p data w1 w2 chs1 chs2 bs, wf w /\
  run w (Write p data) chs1 = (w1, Done (Ok tt)) /\
  run w1 (Read p) chs2 = (w2, Done (Ok bs)) /\ run w1 (ReadToString p) chs2 = (w2, Done (Ok bs)) /\ bs <> data.
Proof.
  exists w0, (zs "a"), (zs "new"). do 2 eexists. exists [fine 0; fine 3; fine 0], [fine 0; fine 0; fine 2; fine 0]. eexists. split; [apply w0_wf|].
  split; [vm_compute; reflexivity|]. split; [vm_compute; reflexivity|]. split; [vm_compute; reflexivity|discriminate].
Qed.
Print Assumptions C65_read_refuted.
(** So is "other files are unchanged": another name of the same file changes too. *)
Theorem C65_others_refuted : exists w p q data w1 chs, wf w /\ p <> q /\ run w (Write p data) chs = (w1, Done (Ok tt)) /\
  named w p <> None /\ named w q <> None /\ contents w1 q <> contents w q.
Proof.
  exists w0, (zs "a"), (zs "b"), (zs "new"). eexists. exists [fine 0; fine 3; fine 0]. split; [apply w0_wf|]. split; [discriminate|].
  split; [vm_compute; reflexivity|]. vm_compute. repeat split; discriminate.
Qed.
Print Assumptions C65_others_refuted.
(** What reading back gives for every behaviour of the system: an error, or the first n
    bytes of what was written (at least one of them if there are any) and then zeros, as
    many bytes in all as were written. *)
Theorem C65_read_characterised : forall w p data chs1 w1 chs2 w2 r R, wf w ->
  run w (Write p data) chs1 = (w1, Done (Ok tt)) -> R = Read p \/ R = ReadToString p ->
  run w1 R chs2 = (w2, Done r) ->
  (exists e, r = Err e) \/
  exists n, r = Ok (firstn n data ++ repeat 0 (length data - n)) /\ (n <= length data)%nat /\ (data <> [] -> 1 <= n)%nat.
Proof.
  intros w p data chs1 w1 chs2 w2 r R WF H RD H2.
  destruct (reader_run _ _ _ _ _ _ RD H2) as [_ X]. destruct r as [bs|e]; [right|left; eauto].
  destruct (Write_run _ _ _ _ _ _ WF H) as [(_ & [[_ D]|[e D]])|(i & x & y & D & ST & OK)]; try discriminate. rewrite (OK eq_refl), app_nil_r in D. subst x.
  destruct X as (j & L & X). rewrite (st_path _ _ _ _ _ ST) in L. injection L as <-. rewrite (st_bytes _ _ _ _ _ ST) in X.
  destruct X as (n & -> & X). exists n. auto.
Qed.
Print Assumptions C65_read_characterised.
(** The strongest true form: when Write returns Ok, the file holds the data; a read that
    is given all bytes at once returns them; a path that does not lead to that file leads
    where it led before, with the same contents. *)
Theorem C65_round_trip_partial : forall w p data chs w1, wf w -> run w (Write p data) chs = (w1, Done (Ok tt)) ->
  contents w1 p = Some data /\
  (forall R n1 n2 n3 n4, R = Read p \/ R = ReadToString p -> (length data <= n3)%nat ->
     exists w2, run w1 R [fine n1; fine n2; fine n3; fine n4] = (w2, Done (Ok data))) /\
  (forall q, leads_to w1 q <> leads_to w1 p -> leads_to w1 q = leads_to w q /\ contents w1 q = contents w q).
Proof.
  intros w p data chs w1 WF H.
  destruct (Write_run _ _ _ _ _ _ WF H) as [(_ & [[_ D]|[e D]])|(i & x & y & D & ST & OK)]; try discriminate. rewrite (OK eq_refl), app_nil_r in D. subst x.
  assert (C : contents w1 p = Some data) by (unfold contents; rewrite (st_path _ _ _ _ _ ST); apply (st_bytes _ _ _ _ _ ST)).
  split; [exact C|]. split.
  - intros R n1 n2 n3 n4 RD L. destruct (reader_full w1 p R data n1 n2 n3 n4 RD C L) as (w2 & X & _). eauto.
  - intros q N. rewrite (st_path _ _ _ _ _ ST) in N. assert (L := st_paths _ _ _ _ _ ST q N). split; [exact L|].
    unfold contents. rewrite L in *. destruct (leads_to w q) as [j|]; [|reflexivity]. apply (st_others _ _ _ _ _ ST). congruence.
Qed.
Print Assumptions C65_round_trip_partial.
(** Reading changes no file. *)
Theorem C65_read_only : forall w p R chs w' P, R = Read p \/ R = ReadToString p -> run w R chs = (w', Done P) ->
  inodes w' = inodes w /\ cwd w' = cwd w.
Proof. intros w p R chs w' P RD H. exact (proj1 (reader_run _ _ _ _ _ _ RD H)). Qed.
Print Assumptions C65_read_only.
(** Write succeeds whenever the system does not refuse: the path leads to a file, or to a
    free name in a directory. *)
Theorem C65_write_succeeds : forall w p data n1 n2 n3, wf w ->
  contents w p <> None \/ (exists d c, locate w true p = inl (PAt d c None)) -> (length data <= n2)%nat ->
  exists w', run w (Write p data) [fine n1; fine n2; fine n3] = (w', Done (Ok tt)).
Proof. intros w p data n1 n2 n3. apply Write_succeeds. Qed.
Print Assumptions C65_write_succeeds.
Example C65_nonvacuous :
  (exists w1, run w0 (Write (zs "s/l") (zs "hello")) [fine 0; fine 2; fine 3; fine 0] = (w1, Done (Ok tt)) /\
     contents w1 (zs "d/x") = Some (zs "hello") /\ contents w1 (zs "a") = Some (zs "old")) /\
  (exists w1, run w0 (Write (zs "d/new") (zs "hello")) [fine 0; fine 5; fine 0] = (w1, Done (Ok tt)) /\
     contents w1 (zs "/s/../d/new") = Some (zs "hello") /\ leads_to w0 (zs "d/new") = None).
Proof. split; eexists; split; [vm_compute; reflexivity| |vm_compute; reflexivity|]; vm_compute; auto. Qed.

(** *** C66: a crash during Write *)

(** The full statement is false: os.Create empties the file first. *)
Theorem C66_atomic_refuted : exists w p data chs w' P, wf w /\ run w (Write p data) chs = (w', P) /\
  contents w' p <> contents w p /\ contents w' p <> Some data.
Proof.
  exists w0, (zs "a"), (zs "new"), [fine 0]. do 2 eexists. split; [apply w0_wf|]. split; [vm_compute; reflexivity|]. vm_compute. split; discriminate.
Qed.
Print Assumptions C66_atomic_refuted.
(** Every prefix of the data can be left behind, whatever the file held before. *)
Theorem C66_any_prefix : forall w p x y, wf w ->
  contents w p <> None \/ (exists d c, locate w true p = inl (PAt d c None)) ->
  exists chs w' P, run w (Write p (x ++ y)) chs = (w', P) /\ contents w' p = Some x.
Proof. intros w p x y. apply Write_prefix. Qed.
Print Assumptions C66_any_prefix.
(** And nothing else: at every moment, whatever happens, the file holds its old contents
    (or is still missing), or a prefix of the data, and all of the data once Write has
    returned Ok; no path that leads elsewhere is affected. *)
Theorem C66_crash_characterised : forall w p data chs w' P, wf w -> run w (Write p data) chs = (w', P) ->
  (contents w' p = contents w p \/ exists x, prefix x data /\ contents w' p = Some x) /\
  (P = Done (Ok tt) -> contents w' p = Some data) /\
  (forall q, leads_to w' q <> leads_to w' p -> leads_to w' q = leads_to w q /\ contents w' q = contents w q) /\
  wf w'.
Proof.
  intros w p data chs w' P WF H. assert (WF' := run_keeps _ _ _ _ _ WF H).
  destruct (Write_run _ _ _ _ _ _ WF H) as [(-> & D)|(i & x & y & D & ST & OK)].
  - split; [auto|]. split; [|auto]. intros ->. destruct D as [[_ D]|[e D]]; discriminate.
  - assert (C : contents w' p = Some x) by (unfold contents; rewrite (st_path _ _ _ _ _ ST); apply (st_bytes _ _ _ _ _ ST)).
    split; [right; exists x; split; [exists y; exact D|exact C]|]. split; [intros E; rewrite (OK E), app_nil_r in D; congruence|]. split; [|exact WF'].
    intros q N. rewrite (st_path _ _ _ _ _ ST) in N. assert (L := st_paths _ _ _ _ _ ST q N). split; [exact L|].
    unfold contents. rewrite L in *. destruct (leads_to w q) as [j|]; [|reflexivity]. apply (st_others _ _ _ _ _ ST). congruence.
Qed.
Print Assumptions C66_crash_characterised.
(** The strongest true form: a crash before the first system call leaves the old
    contents; data of at most one byte is never seen torn in another way than empty. *)
Theorem C66_short_partial : forall w p b chs w' P, wf w -> run w (Write p [b]) chs = (w', P) ->
  contents w' p = contents w p \/ contents w' p = Some [b] \/ contents w' p = Some [].
Proof.
  intros w p b chs w' P WF H. destruct (C66_crash_characterised _ _ _ _ _ _ WF H) as ([E|(x & (y & X) & E)] & _); [auto|].
  destruct x as [|b' x]; [auto|]. injection X as <- X. destruct x; [auto|discriminate].
Qed.
Print Assumptions C66_short_partial.
Example C66_nonvacuous :
  (exists w' P, run w0 (Write (zs "a") (zs "new")) [fine 0; fine 2] = (w', P) /\ contents w' (zs "a") = Some (zs "ne") /\ contents w' (zs "x") = Some (zs "top")) /\
  (exists w', run w0 (Write (zs "a") (zs "new")) [fine 0; fine 2; mkChoice (Some (EOther 28)) 0; fine 0] = (w', Done (Err (EOther 28))) /\ contents w' (zs "a") = Some (zs "ne")).
Proof. split; [do 2 eexists|eexists]; (split; [vm_compute; reflexivity|vm_compute; auto]). Qed.

(** *** C67: Copy *)

(** The full statement is false in all three parts.  An existing target is not
    overwritten: Copy fails and changes nothing, for every state and every behaviour. *)
Theorem C67_overwrite_refuted : forall w a b i chs w' r, named w b = Some i ->
  run w (Copy a b) chs = (w', Done r) -> w' = w /\ exists e, r = Err e.
Proof. intros w a b i chs w' r. apply Copy_target. Qed.
Print Assumptions C67_overwrite_refuted.
(** The copy is not independent: whatever is written to one name later, up to any moment
    of that Write, is read through the other, both ways. *)
Theorem C67_independent_refuted : forall w a b data chs w1 from to new chs2 w2 P, wf w -> contents w a = Some data ->
  named w a = leads_to w a -> run w (Copy a b) chs = (w1, Done (Ok tt)) ->
  (from = a /\ to = b) \/ (from = b /\ to = a) ->
  run w1 (Write from new) chs2 = (w2, P) -> contents w2 to = contents w2 from.
Proof.
  intros w a b data chs w1 from to new chs2 w2 P WF CA NL H FT H2.
  destruct (Copy_run _ _ _ _ _ _ WF H) as [(e & E & _)|(_ & i & d & c & NA & LB & LK & NA' & NB')]; [discriminate|].
  assert (BI : bytes w i = Some data) by (unfold contents in CA; rewrite <- NL, NA in CA; exact CA).
  assert (BI' : bytes w1 i = Some data) by (rewrite (ln_bytes _ _ _ _ _ LK); exact BI).
  assert (LA := named_leads w1 a i NA' (file_not_link _ _ _ BI')). assert (LB' := named_leads w1 b i NB' (file_not_link _ _ _ BI')).
  assert (LF : leads_to w1 from = Some i) by (destruct FT as [[-> ->]|[-> ->]]; assumption). assert (LT : leads_to w1 to = Some i) by (destruct FT as [[-> ->]|[-> ->]]; assumption).
  assert (WF1 : wf w1) by (eapply run_keeps; [exact WF|exact H]).
  destruct (Write_run _ _ _ _ _ _ WF1 H2) as [(-> & _)|(j & x & y & D & ST & _)].
  - unfold contents. rewrite LF, LT. reflexivity.
  - assert (j = i). { destruct (st_before _ _ _ _ _ ST) as [X|[X _]]; congruence. } subst j.
    unfold contents. rewrite (st_path _ _ _ _ _ ST), (st_links _ _ _ _ _ ST _ LT). reflexivity.
Qed.
Print Assumptions C67_independent_refuted.
(** And the copy of a symbolic link can have other contents than what was copied. *)
Theorem C67_contents_refuted : exists w a b chs w', wf w /\ run w (Copy a b) chs = (w', Done (Ok tt)) /\
  contents w a <> None /\ contents w' b <> contents w a.
Proof.
  exists w0, (zs "d/l"), (zs "copy"), [fine 0]. eexists. split; [apply w0_wf|]. split; [vm_compute; reflexivity|]. vm_compute. split; discriminate.
Qed.
Print Assumptions C67_contents_refuted.
(** What Copy does: it gives the thing called a the second name b; nothing else changes. *)
Theorem C67_copy_characterised : forall w a b chs w' r, wf w -> run w (Copy a b) chs = (w', Done r) ->
  (exists e, r = Err e /\ w' = w) \/
  (r = Ok tt /\ exists i d c, named w a = Some i /\ locate w false b = inl (PAt d c None) /\ named w' a = Some i /\ named w' b = Some i /\
     (forall j, bytes w' j = bytes w j /\ sort_of w' j = sort_of w j) /\
     (forall d' c', entry w' d' c' = if (d' =? d)%nat && beq c' c then Some i else entry w d' c')).
Proof.
  intros w a b chs w' r WF H. destruct (Copy_run _ _ _ _ _ _ WF H) as [F|(OK & i & d & c & NA & LB & LK & NA' & NB')]; [auto|].
  right. split; [exact OK|]. exists i, d, c. repeat (split; [assumption|]). split.
  - intros j. split; [apply (ln_bytes _ _ _ _ _ LK)|apply (ln_sort _ _ _ _ _ LK)].
  - apply (ln_entry _ _ _ _ _ LK).
Qed.
Print Assumptions C67_copy_characterised.
(** The strongest true form: right after Copy(a,b) has succeeded for a regular file a,
    both names have a's contents, and no other path leads to other contents than before. *)
Theorem C67_contents_partial : forall w a b data chs w', wf w -> contents w a = Some data -> named w a = leads_to w a ->
  run w (Copy a b) chs = (w', Done (Ok tt)) ->
  named w b = None /\ contents w' b = Some data /\ contents w' a = Some data /\
  (forall q, contents w q <> None -> contents w' q = contents w q).
Proof.
  intros w a b data chs w1 WF CA NL H.
  destruct (Copy_run _ _ _ _ _ _ WF H) as [(e & E & _)|(_ & i & d & c & NA & LB & LK & NA' & NB')]; [discriminate|].
  assert (BI : bytes w i = Some data) by (unfold contents in CA; rewrite <- NL, NA in CA; exact CA).
  assert (BI' : bytes w1 i = Some data) by (rewrite (ln_bytes _ _ _ _ _ LK); exact BI).
  assert (LA := named_leads w1 a i NA' (file_not_link _ _ _ BI')). assert (LB' := named_leads w1 b i NB' (file_not_link _ _ _ BI')).
  split; [unfold named; rewrite LB; reflexivity|]. unfold contents. rewrite LA, LB'. split; [exact BI'|]. split; [exact BI'|].
  intros q NQ. assert (V := locate_linked w w1 true d c i q LK). unfold leads_to in *.
  destruct (locate w true q) as [[e|e x [j|]]|e]; try (exfalso; apply NQ; reflexivity); cbn [link_view] in V; rewrite V; apply (ln_bytes _ _ _ _ _ LK).
Qed.
Print Assumptions C67_contents_partial.
(** Copy succeeds when a is not a directory and b is a free name, if the system lets it. *)
Theorem C67_copy_succeeds : forall w a b i d c n, named w a = Some i -> (forall p, sort_of w i <> Some (ADir p)) ->
  locate w false b = inl (PAt d c None) -> exists w', run w (Copy a b) [fine n] = (w', Done (Ok tt)).
Proof.
  intros w a b i d c n NA ND LB. unfold Copy. cbn [run step fails fine]. unfold os_Link. unfold named in NA. assert (P := locate_place w false a).
  destruct (locate w false a) as [[e|e x [j|]]|e]; try discriminate; injection NA as ->.
  - destruct P as (q & P). destruct (ND _ P).
  - specialize (ND). rewrite sort_of_nth in ND. destruct (nth_error (inodes w) i) as [[y|q es|t]|]; try (rewrite LB; eexists; reflexivity).
    destruct (ND q). reflexivity.
Qed.
Print Assumptions C67_copy_succeeds.
Example C67_nonvacuous : exists w1 w2, run w0 (Copy (zs "s/x") (zs "copy")) [fine 0] = (w1, Done (Ok tt)) /\
  contents w1 (zs "copy") = Some (zs "in d") /\
  run w1 (Write (zs "copy") (zs "mine")) [fine 0; fine 4; fine 0] = (w2, Done (Ok tt)) /\ contents w2 (zs "d/x") = Some (zs "mine").
Proof. do 2 eexists. split; [vm_compute; reflexivity|]. split; [vm_compute; reflexivity|]. split; [vm_compute; reflexivity|vm_compute; reflexivity]. Qed.

(** *** C68: ReadDir *)

(** What ReadDir returns: as many blank entries as there are names, then one entry per
    name in the order of the names, each of them called a file. *)
Theorem C68_readdir_characterised : forall w p chs w' r, run w (ReadDir p) chs = (w', Done r) -> w' = w /\
  match r with
  | Err _ => True
  | Ok l => exists d q names, leads_to w p = Some d /\ sort_of w d = Some (ADir q) /\ listing w d names /\
      l = repeat (mkEntry [] [] []) (length names) ++ map (fun c => mkEntry c (filepath_Join p c) (zs "file")) names
  end.
Proof. intros w p chs w' r. apply ReadDir_run. Qed.
Print Assumptions C68_readdir_characterised.
(** So the full statement fails for every directory that is not empty: too many entries,
    and some with an empty name. *)
Theorem C68_count_refuted : forall w p chs w' l d, run w (ReadDir p) chs = (w', Done (Ok l)) -> leads_to w p = Some d ->
  length l = (2 * length (entries w d))%nat /\ (entries w d <> [] -> In (mkEntry [] [] []) l).
Proof.
  intros w p chs w' l d H L. destruct (ReadDir_run _ _ _ _ _ H) as (_ & d' & q & names & L' & S & (PM & _) & ->).
  rewrite L in L'. injection L' as <-. apply Permutation_length in PM. rewrite map_length in PM. rewrite app_length, repeat_length, map_length. split; [lia|].
  intros N. apply in_or_app. left. destruct names; [destruct (entries w d); [contradiction|discriminate]|]. left. reflexivity.
Qed.
Print Assumptions C68_count_refuted.
(** No entry is ever reported as a directory or a symbolic link. *)
Theorem C68_type_refuted : forall w p chs w' l e, run w (ReadDir p) chs = (w', Done (Ok l)) -> In e l ->
  IsDir (FileType e) = false /\ IsSymlink (FileType e) = false.
Proof.
  intros w p chs w' l e H I. destruct (ReadDir_run _ _ _ _ _ H) as (_ & d' & q & names & L' & S & (PM & _) & ->).
  apply in_app_or in I. destruct I as [I|I]; [apply repeat_spec in I; subst e; split; reflexivity|].
  apply in_map_iff in I. destruct I as (c & <- & _). split; reflexivity.
Qed.
Print Assumptions C68_type_refuted.
(** The blank entries are of no type; the others all report to be files. *)
Theorem C68_type_characterised : forall w p chs w' l, run w (ReadDir p) chs = (w', Done (Ok l)) ->
  exists blank listed, l = blank ++ listed /\ length blank = length listed /\
    (forall e, In e blank -> IsDir (FileType e) = false /\ IsFile (FileType e) = false /\ IsSymlink (FileType e) = false) /\
    (forall e, In e listed -> IsDir (FileType e) = false /\ IsFile (FileType e) = true /\ IsSymlink (FileType e) = false).
Proof.
  intros w p chs w' l H. destruct (ReadDir_run _ _ _ _ _ H) as (_ & d' & q & names & L' & S & (PM & _) & ->).
  do 2 eexists. split; [reflexivity|]. split; [rewrite repeat_length, map_length; reflexivity|]. split; intros e I.
  - apply repeat_spec in I. subst e. repeat split; reflexivity.
  - apply in_map_iff in I. destruct I as (c & <- & _). repeat split; reflexivity.
Qed.
Print Assumptions C68_type_characterised.
(** With ".." in the path the returned path can name something else. *)
Theorem C68_path_refuted : exists w p l e d, wf w /\ run w (ReadDir p) [fine 0] = (w, Done (Ok l)) /\ In e l /\ leads_to w p = Some d /\
  entry w d (FileName e) <> None /\ named w (Path e) <> entry w d (FileName e).
Proof.
  exists (mkWorld [IDir 0 [(zs "d", 1%nat); (zs "s", 2%nat)]; IDir 0 [(zs "e", 3%nat); (zs "x", 4%nat)]; ISymlink (zs "d/e"); IDir 1 []; IFile []] 0 []), (zs "s/..").
  eexists. exists (mkEntry (zs "x") (zs "x") (zs "file")), 1%nat. split.
  - constructor.
    + reflexivity.
    + exists 0%nat. reflexivity.
    + intros d p H. do 5 (destruct d as [|d]; [cbn in H; try discriminate; injection H as <-; eexists; reflexivity|]). destruct d; discriminate.
    + intros d. do 5 (destruct d as [|d]; [cbn; repeat constructor; cbn; intuition discriminate|]). destruct d; constructor.
    + intros d c i H. assert (G : forall c, dot c = false -> dotdot c = false -> existsb (Z.eqb 47) c = false -> good_name c).
      { intros x A B C. split; [exact A|]. split; [exact B|]. intros I. assert (X : existsb (Z.eqb 47) x = true) by (apply existsb_exists; exists 47; split; [exact I|reflexivity]). congruence. }
      do 5 (destruct d as [|d]; [cbn in H; repeat (destruct H as [H|H]; [injection H as <- <-; split; [apply G; reflexivity|cbn; lia]|]); destruct H|]). destruct d; destruct H.
    + intros i off [].
  - split; [vm_compute; reflexivity|]. split; [vm_compute; auto|]. split; [vm_compute; reflexivity|]. split; vm_compute; discriminate.
Qed.
Print Assumptions C68_path_refuted.
(** The strongest true form: behind the blank entries there is exactly one entry for each
    name, in order, and (for a path without "..") its Path names what the name stands for. *)
Theorem C68_entries_partial : forall w p chs w' l, wf w -> run w (ReadDir p) chs = (w', Done (Ok l)) ->
  exists d k listed, leads_to w p = Some d /\ l = repeat (mkEntry [] [] []) k ++ listed /\ k = length (entries w d) /\
    listing w d (map FileName listed) /\
    (no_dotdot p -> forall e, In e listed -> named w (Path e) = entry w d (FileName e) /\ entry w d (FileName e) <> None).
Proof.
  intros w p chs w' l WF H. destruct (ReadDir_run _ _ _ _ _ H) as (_ & d & q & names & L & S & LS & ->).
  exists d, (length names), (map (fun c => mkEntry c (filepath_Join p c) t_file) names).
  split; [exact L|]. split; [reflexivity|]. destruct LS as [PM SO]. split; [rewrite (Permutation_length PM), map_length; reflexivity|].
  split; [rewrite map_map; cbn [FileName]; rewrite map_id; split; assumption|].
  intros ND e I. apply in_map_iff in I. destruct I as (c & <- & I). cbn [Path FileName].
  apply (Permutation_in _ PM) in I. apply in_map_iff in I. destruct I as ((c' & i) & E & I). cbn [fst] in E. subst c'.
  destruct (wf_entry _ WF _ _ _ I) as [GN _]. unfold named. rewrite (join_names w p d q c L S ND GN). rewrite entry_assoc.
  destruct (assoc c (entries w d)) as [j|] eqn:A; [split; [reflexivity|discriminate]|]. exfalso.
  rewrite (in_assoc _ _ _ (wf_names _ WF d) I) in A. discriminate.
Qed.
Print Assumptions C68_entries_partial.
(** ReadDir succeeds on every directory, if the system lets it. *)
Theorem C68_readdir_succeeds : forall w p d q n, leads_to w p = Some d -> sort_of w d = Some (ADir q) ->
  exists l, run w (ReadDir p) [fine n] = (w, Done (Ok l)).
Proof. intros w p d q n. apply ReadDir_succeeds. Qed.
Print Assumptions C68_readdir_succeeds.
Example C68_nonvacuous : run w0 (ReadDir (zs "./s//")) [fine 0] = (w0, Done (Ok
  (repeat (mkEntry [] [] []) 3 ++ [mkEntry (zs "e") (zs "s/e") (zs "file"); mkEntry (zs "l") (zs "s/l") (zs "file"); mkEntry (zs "x") (zs "s/x") (zs "file")]))).
Proof. vm_compute. reflexivity. Qed.

(** *** C75: Rename *)

(** The full statement is false: two names of one file are left as they are. *)
Theorem C75_rename_refuted : exists w from to w', wf w /\ run w (Rename from to) [fine 0] = (w', Done (Ok tt)) /\
  from <> to /\ named w' from <> None.
Proof.
  exists w0, (zs "a"), (zs "b"). eexists. split; [apply w0_wf|]. split; [vm_compute; reflexivity|]. split; [discriminate|vm_compute; discriminate].
Qed.
Print Assumptions C75_rename_refuted.
(** It is false as well when the path [to] leads through what is moved: s is a symbolic
    link to the directory d, and after Rename(s, s/y) there is no s for s/y to go through. *)
Theorem C75_path_refuted : exists w from to w', wf w /\ run w (Rename from to) [fine 0] = (w', Done (Ok tt)) /\
  named w from <> named w to /\ named w' to <> named w from.
Proof.
  exists w0, (zs "s"), (zs "s/y"). eexists. split; [apply w0_wf|]. split; [vm_compute; reflexivity|]. split; vm_compute; discriminate.
Qed.
Print Assumptions C75_path_refuted.
(** What Rename does: it fails and changes nothing; or the two are names of one file, and
    nothing changes; or the name [from] disappears, the name [to] stands for what [from]
    stood for, all other names stand for what they stood for, no file's contents change
    and only a moved directory has a new parent. *)
Theorem C75_rename_characterised : forall w from to chs w' r, run w (Rename from to) chs = (w', Done r) ->
  (exists e, r = Err e /\ w' = w) \/
  (r = Ok tt /\ exists i d1 c1 d2 c2 t, locate w false (strip from) = inl (PAt d1 c1 (Some i)) /\ locate w false (strip to) = inl (PAt d2 c2 t) /\
     ((t = Some i /\ w' = w) \/
      (t <> Some i /\
       (forall d c, entry w' d c = if (d =? d2)%nat && beq c c2 then Some i else if (d =? d1)%nat && beq c c1 then None else entry w d c) /\
       (forall j, bytes w' j = bytes w j) /\
       (forall j, sort_of w' j = if (j =? i)%nat && is_dir w i then Some (ADir d2) else sort_of w j)))).
Proof.
  intros w from to chs w' r H. destruct (Rename_run _ _ _ _ _ _ H) as [F|(OK & i & d1 & c1 & d2 & c2 & t & L1 & L2 & M)]; [auto|].
  right. split; [exact OK|]. exists i, d1, c1, d2, c2, t. split; [exact L1|]. split; [exact L2|].
  destruct t as [j|]; [destruct (j =? i)%nat eqn:J|].
  - left. apply Nat.eqb_eq in J. subst. auto.
  - right. split; [intros E; injection E as ->; rewrite Nat.eqb_refl in J; discriminate|]. split; [apply (mv_entry _ _ _ _ _ _ _ M)|]. split; [apply (mv_bytes _ _ _ _ _ _ _ M)|apply (mv_sort _ _ _ _ _ _ _ M)].
  - right. split; [discriminate|]. split; [apply (mv_entry _ _ _ _ _ _ _ M)|]. split; [apply (mv_bytes _ _ _ _ _ _ _ M)|apply (mv_sort _ _ _ _ _ _ _ M)].
Qed.
Print Assumptions C75_rename_characterised.
(** The strongest true form, for two names in the current directory that are not names of
    one thing: [to] names what [from] named, [from] names nothing, other names and all
    contents are as before. *)
Theorem C75_rename_partial : forall w from to chs w', wf w -> good_name from -> good_name to -> from <> to ->
  named w from <> named w to -> run w (Rename from to) chs = (w', Done (Ok tt)) ->
  named w from <> None /\ named w' to = named w from /\ named w' from = None /\
  (forall c, good_name c -> c <> from -> c <> to -> named w' c = named w c) /\ (forall j, bytes w' j = bytes w j).
Proof.
  intros w from to chs w' WF G1 G2 NE NN H.
  assert (ST : forall c, good_name c -> strip c = c).
  { intros c (A & B & C). unfold strip. assert (X : drop_slashes (rev c) = rev c).
    { destruct (rev c) as [|b r] eqn:R; [reflexivity|]. assert (I : In b c) by (apply in_rev; rewrite R; left; reflexivity).
      assert (N : b <> 47) by (intros ->; apply C; exact I). cbn [drop_slashes]. repeat match goal with |- context [match ?x with _ => _ end] => destruct x; try reflexivity; try (exfalso; apply N; reflexivity) end. }
    rewrite X, rev_involutive. destruct c; [discriminate|reflexivity]. }
  assert (LOC : forall v c, (exists q, sort_of v (cwd v) = Some (ADir q)) -> good_name c -> locate v false c = inl (PAt (cwd v) c (entry v (cwd v) c))).
  { intros v c (q & S) (A & B & C). unfold locate. destruct c as [|b c]; [discriminate|]. remember (b :: c) as x eqn:EX.
    assert (R : rooted x = false). { subst x. unfold rooted. apply Z.eqb_neq. intros ->. apply C. left. reflexivity. }
    assert (CX : components x = [x]). { assert (J := join_components [] x (fun _ f => match f with end) C). cbn [app join_slash] in J. exact J. }
    destruct x as [|b' x']; [discriminate|]. rewrite R, CX. rewrite walk_eq, S, A, B. destruct (entry v (cwd v) (b' :: x')) as [i|]; [|reflexivity].
    destruct (sort_of v i) as [[]|]; reflexivity. }
  assert (WF' := run_keeps _ _ _ _ _ WF H).
  destruct (Rename_run _ _ _ _ _ _ H) as [(e & E & _)|(_ & i & d1 & c1 & d2 & c2 & t & L1 & L2 & M)]; [discriminate|].
  rewrite (ST _ G1), (LOC w _ (wf_cwd _ WF) G1) in L1. rewrite (ST _ G2), (LOC w _ (wf_cwd _ WF) G2) in L2.
  injection L1 as <- <- EF. injection L2 as <- <- ET.
  assert (NM : forall v c, wf v -> good_name c -> named v c = entry v (cwd v) c).
  { intros v c V G. unfold named. rewrite (LOC v c (wf_cwd _ V) G). destruct (entry v (cwd v) c); reflexivity. }
  rewrite (NM w from WF G1), (NM w to WF G2), EF, ET in NN.
  destruct (match t with Some j => (j =? i)%nat | None => false end) eqn:T.
  { exfalso. destruct t as [j|]; [|discriminate]. apply Nat.eqb_eq in T. subst. apply NN. reflexivity. }
  rewrite (NM w from WF G1), (NM w' to WF' G2), (NM w' from WF' G1), EF, (mv_cwd _ _ _ _ _ _ _ M), !(mv_entry _ _ _ _ _ _ _ M).
  rewrite !here_refl. assert (HF : here (cwd w) (cwd w) to from = false).
  { destruct (here (cwd w) (cwd w) to from) eqn:X; [|reflexivity]. apply here_eq in X. destruct X as [_ X]. congruence. }
  rewrite HF. split; [discriminate|]. split; [reflexivity|]. split; [reflexivity|]. split; [|apply (mv_bytes _ _ _ _ _ _ _ M)].
  intros c G N1 N2. rewrite (NM w' c WF' G), (NM w c WF G), (mv_cwd _ _ _ _ _ _ _ M), (mv_entry _ _ _ _ _ _ _ M).
  destruct (here (cwd w) (cwd w) to c) eqn:X1; [apply here_eq in X1; tauto|]. destruct (here (cwd w) (cwd w) from c) eqn:X2; [apply here_eq in X2; tauto|]. reflexivity.
Qed.
Print Assumptions C75_rename_partial.
Example C75_nonvacuous : exists w', run w0 (Rename (zs "d/x") (zs "a")) [fine 0] = (w', Done (Ok tt)) /\
  contents w' (zs "a") = Some (zs "in d") /\ named w' (zs "d/x") = None /\ contents w' (zs "b") = Some (zs "old") /\
  exists w2, run w' (Rename (zs "d") (zs "moved")) [fine 0] = (w2, Done (Ok tt)) /\ leads_to w2 (zs "moved/e/..") = Some 2%nat /\
  snd (run w2 (Rename (zs "moved") (zs "moved/e/in")) [fine 0]) = Done (Err EINVAL).
Proof. eexists. split; [vm_compute; reflexivity|]. split; [vm_compute; reflexivity|]. split; [vm_compute; reflexivity|]. split; [vm_compute; reflexivity|]. eexists. split; [vm_compute; reflexivity|]. split; vm_compute; reflexivity. Qed.

(** *** C76: RemoveFile and RemoveDir *)

(** The full statement is false: each removes what the other is for. *)
Theorem C76_kind_refuted : exists w p q w1 w2, wf w /\
  run w (RemoveFile p) [fine 0] = (w1, Done (Ok tt)) /\ (exists i d, named w p = Some i /\ sort_of w i = Some (ADir d)) /\
  run w (RemoveDir q) [fine 0] = (w2, Done (Ok tt)) /\ (exists i, named w q = Some i /\ sort_of w i = Some AFile).
Proof.
  exists w0, (zs "d/e"), (zs "x"). do 2 eexists. split; [apply w0_wf|]. split; [vm_compute; reflexivity|]. split; [do 2 eexists; split; vm_compute; reflexivity|].
  split; [vm_compute; reflexivity|]. eexists. split; vm_compute; reflexivity.
Qed.
Print Assumptions C76_kind_refuted.
(** What both do: they fail and change nothing; or exactly one name is gone, that of a
    file, of a symbolic link (not what it leads to) or of an empty directory.  All other
    names and all contents stay. *)
Theorem C76_remove_characterised : forall w p chs w' r P, P = RemoveFile p \/ P = RemoveDir p -> run w P chs = (w', Done r) ->
  (exists e, r = Err e /\ w' = w) \/
  (r = Ok tt /\ exists i d c, locate w false (strip p) = inl (PAt d c (Some i)) /\
     (sort_of w i = Some AFile \/ (exists t, sort_of w i = Some (ALink t)) \/ ((exists q, sort_of w i = Some (ADir q)) /\ entries w i = []) \/ sort_of w i = None) /\
     named w' (strip p) = None /\
     (forall d' c', entry w' d' c' = if (d' =? d)%nat && beq c' c then None else entry w d' c') /\
     (forall j, bytes w' j = bytes w j /\ sort_of w' j = sort_of w j)).
Proof.
  intros w p chs w' r P EP H. assert (H' : run w (RemoveFile p) chs = (w', Done r)) by (destruct EP as [-> | ->]; exact H).
  destruct (Remove_run _ _ _ _ _ H') as [F|(OK & i & d & c & L & U & NN & K)]; [auto|]. right. split; [exact OK|]. exists i, d, c.
  split; [exact L|]. split; [|split; [exact NN|split; [apply (un_entry _ _ _ _ U)|intros j; split; [apply (un_bytes _ _ _ _ U)|apply (un_sort _ _ _ _ U)]]]].
  destruct (sort_of w i) as [[|q|t]|] eqn:S; eauto. right. right. left. split; [eauto|]. destruct K as [K|K]; [destruct (K q); reflexivity|exact K].
Qed.
Print Assumptions C76_remove_characterised.
(** The strongest true form: neither ever removes a directory that is not empty, nor
    anything from it. *)
Theorem C76_nonempty_partial : forall w p chs w' P r i, P = RemoveFile p \/ P = RemoveDir p -> named w (strip p) = Some i -> entries w i <> [] ->
  run w P chs = (w', Done r) -> w' = w /\ exists e, r = Err e.
Proof.
  intros w p chs w' P r i EP N E H. destruct (C76_remove_characterised _ _ _ _ _ _ EP H) as [(e & -> & ->)|(_ & j & d & c & L & K & _)]; [eauto|].
  exfalso. unfold named in N. rewrite L in N. injection N as ->. apply E. unfold sort_of, entries in *. destruct (nth_error (inodes w) i) as [[x|q es|t]|]; try reflexivity.
  destruct K as [K|[(t & K)|[(_ & K)|K]]]; try discriminate. exact K.
Qed.
Print Assumptions C76_nonempty_partial.
(** A removed file is still there under its other names. *)
Example C76_nonvacuous :
  (exists w', run w0 (RemoveFile (zs "a")) [fine 0] = (w', Done (Ok tt)) /\ contents w' (zs "a") = None /\ contents w' (zs "b") = Some (zs "old")) /\
  (exists w', run w0 (RemoveFile (zs "s")) [fine 0] = (w', Done (Ok tt)) /\ named w' (zs "s") = None /\ contents w' (zs "d/x") = Some (zs "in d")) /\
  run w0 (RemoveDir (zs "d")) [fine 0] = (w0, Done (Err ENOTEMPTY)).
Proof. split; [|split]; [eexists; split; [vm_compute; reflexivity|vm_compute; auto]|eexists; split; [vm_compute; reflexivity|vm_compute; auto]|vm_compute; reflexivity]. Qed.

(** *** C77: CreateDir *)

(** CreateDir either fails and changes nothing, or the path named nothing, now names a
    new empty directory, whatever had a path before has the same path, and all contents
    are as before. *)
Theorem C77_create_dir : forall w p chs w' r, wf w -> run w (CreateDir p) chs = (w', Done r) ->
  (exists e, r = Err e /\ w' = w) \/
  (r = Ok tt /\ named w (strip p) = None /\
   exists new d, named w' (strip p) = Some new /\ sort_of w new = None /\ sort_of w' new = Some (ADir d) /\ entries w' new = [] /\
     (forall q i, named w q = Some i -> named w' q = Some i) /\ (forall q i, leads_to w q = Some i -> leads_to w' q = Some i) /\
     (forall j, bytes w' j = bytes w j) /\ (forall j, j <> new -> sort_of w' j = sort_of w j)).
Proof.
  intros w p chs w' r WF H. destruct (CreateDir_run _ _ _ _ _ WF H) as [F|(OK & d & c & new & L & G & N & E & B)]; [auto|].
  right. split; [exact OK|]. split; [unfold named; rewrite L; reflexivity|]. exists new, d. split; [exact N|]. split; [apply (gr_fresh _ _ _ _ _ _ G)|].
  split; [rewrite (gr_sort _ _ _ _ _ _ G), Nat.eqb_refl; reflexivity|]. split; [exact E|].
  assert (X : forall follow q i, match locate w follow q with inl (PDir i) | inl (PAt _ _ (Some i)) => Some i | _ => None end = Some i ->
                                 match locate w' follow q with inl (PDir i) | inl (PAt _ _ (Some i)) => Some i | _ => None end = Some i).
  { intros follow q i X. assert (V := locate_grown w w' d c new _ follow q WF G). destruct (locate w follow q) as [[e|e x [j|]]|e]; try discriminate; cbn [before_after] in V; rewrite V; exact X. }
  split; [exact (X false)|]. split; [exact (X true)|]. split; [exact B|].
  intros j J. rewrite (gr_sort _ _ _ _ _ _ G). apply Nat.eqb_neq in J. rewrite J. reflexivity.
Qed.
Print Assumptions C77_create_dir.
(** It never succeeds when the path names something already, and it succeeds when the path
    is a free name in a directory and the system does not refuse. *)
Theorem C77_exists : forall w p i chs w' r, wf w -> named w (strip p) = Some i -> run w (CreateDir p) chs = (w', Done r) -> exists e, r = Err e.
Proof.
  intros w p i chs w' r WF N H. destruct (CreateDir_run _ _ _ _ _ WF H) as [(e & -> & _)|(_ & d & c & new & L & _)]; [eauto|].
  unfold named in N. rewrite L in N. discriminate.
Qed.
Print Assumptions C77_exists.
Theorem C77_succeeds : forall w p d c n, locate w false (strip p) = inl (PAt d c None) -> exists w', run w (CreateDir p) [fine n] = (w', Done (Ok tt)).
Proof. intros w p d c n L. unfold CreateDir. cbn [run step fails fine]. unfold os_Mkdir. rewrite L. cbn [new_inode]. eexists. reflexivity. Qed.
Print Assumptions C77_succeeds.
Example C77_nonvacuous : exists w', run w0 (CreateDir (zs "s/e/new/")) [fine 0] = (w', Done (Ok tt)) /\ leads_to w' (zs "d/e/new/..") = Some 6%nat /\
  run w' (CreateDir (zs "d/e/new")) [fine 0] = (w', Done (Err EEXIST)) /\ run w0 (CreateDir (zs "no/new")) [fine 0] = (w0, Done (Err ENOENT)).
Proof. eexists. split; [vm_compute; reflexivity|]. split; [vm_compute; reflexivity|]. split; vm_compute; reflexivity. Qed.

(** [strip] takes off all slashes at the end, of a path that is more than slashes: with any
    number of them CreateDir does the same.  The root always exists, however it is written. *)
Lemma drop_slashes_repeat n r : drop_slashes (repeat 47 n ++ r) = drop_slashes r.
Proof. induction n as [|n IH]; [reflexivity|]. cbn [repeat app drop_slashes]. exact IH. Qed.
Lemma drop_slashes_other b r : b <> 47 -> drop_slashes (b :: r) = b :: r.
Proof.
  intros N. cbn [drop_slashes]. repeat match goal with |- context [match ?x with _ => _ end] => destruct x; try reflexivity; try (exfalso; apply N; reflexivity) end.
Qed.
Lemma rev_repeat_z (b : Z) n : rev (repeat b n) = repeat b n.
Proof. induction n as [|n IH]; [reflexivity|]. cbn [repeat rev]. rewrite IH. symmetry. apply repeat_cons. Qed.
Theorem C77_strip : forall q b n, b <> 47 ->
  strip (q ++ b :: repeat 47 n) = q ++ [b] /\ strip (repeat 47 n) = repeat 47 n.
Proof.
  intros q b n N. split; unfold strip.
  - rewrite rev_app_distr. cbn [rev]. rewrite rev_repeat_z, <- app_assoc, drop_slashes_repeat. cbn [app].
    rewrite drop_slashes_other by exact N. cbn [rev]. rewrite rev_involutive. now destruct q.
  - rewrite rev_repeat_z. rewrite <- (app_nil_r (repeat 47 n)) at 1. rewrite drop_slashes_repeat. reflexivity.
Qed.
Print Assumptions C77_strip.
Theorem C77_trailing_slashes : forall w q b n ch chs, b <> 47 ->
  run w (CreateDir (q ++ b :: repeat 47 n)) (ch :: chs) = run w (CreateDir (q ++ [b])) (ch :: chs).
Proof.
  intros w q b n ch chs N. assert (E0 := proj1 (C77_strip q b 0 N)). cbn [repeat] in E0. unfold CreateDir. cbn [run step].
  destruct (fails ch); [reflexivity|]. unfold os_Mkdir.
  rewrite (proj1 (C77_strip q b n N)), E0. reflexivity.
Qed.
Print Assumptions C77_trailing_slashes.
Theorem C77_root : forall w parent es n k, nth_error (inodes w) 0 = Some (IDir parent es) ->
  run w (CreateDir (repeat 47 (S n))) [fine k] = (w, Done (Err EEXIST)).
Proof.
  intros w parent es n k R. unfold CreateDir. cbn [run step fails fine]. unfold os_Mkdir.
  rewrite (proj2 (C77_strip [] 0 (S n) ltac:(discriminate))).
  assert (L : locate w false (repeat 47 (S n)) = inl (PDir 0)).
  { assert (CC : components (repeat 47 (S n)) = repeat [] (S (S n))).
    { induction n as [|n IH]; [reflexivity|]. change (repeat 47 (S (S n))) with (47 :: repeat 47 (S n)). cbn [components]. rewrite IH. reflexivity. }
    unfold locate. change (repeat 47 (S n)) with (47 :: repeat 47 n) at 1. cbn iota. rewrite CC. cbn [repeat rooted]. 
    change ([] :: [] :: repeat [] n) with (repeat (@nil Z) (S (S n))). generalize (S (S n)). intros j. 
    change (if 47 =? 47 then 0%nat else cwd w) with 0%nat.
    generalize 40%nat. intros g. induction j as [|j IH]; destruct g; cbn [repeat walk]; rewrite R; try reflexivity; cbn [dot]; apply IH. }
  rewrite L. reflexivity.
Qed.
Print Assumptions C77_root.
Example C77_slashes_nonvacuous :
  (exists w', run w0 (CreateDir (zs "new///")) [fine 0] = (w', Done (Ok tt)) /\ leads_to w' (zs "new") = Some 8%nat) /\
  run w0 (CreateDir (zs "//")) [fine 0] = (w0, Done (Err EEXIST)).
Proof. split; [eexists; split; vm_compute; reflexivity|vm_compute; reflexivity]. Qed.

(** *** C78: several calls at the same time *)

(** The full statement is false for two writers to one file: what they leave can be what
    neither of them wrote. *)
Theorem C78_same_file_refuted : exists w p x y sched w' a b, wf w /\
  run_pool w [Write p x; Write p y] sched = (w', [Done (Ok a); Done (Ok b)]) /\
  contents w' p <> Some x /\ contents w' p <> Some y.
Proof.
  exists w0, (zs "a"), (zs "hello"), (zs "HI").
  exists [(0%nat, fine 0); (1%nat, fine 0); (0%nat, fine 9); (1%nat, fine 9); (0%nat, fine 0); (1%nat, fine 0)]. eexists. exists tt, tt.
  split; [apply w0_wf|]. split; [vm_compute; reflexivity|]. vm_compute. split; discriminate.
Qed.
Print Assumptions C78_same_file_refuted.
(** Any number of writers to different existing files, any interleaving of their system
    calls, any failures, stopped at any moment: each file whose Write has returned Ok has
    exactly the data, each other one its old contents or a prefix of its data, and all
    other files and all paths are as before. *)
Theorem C78_writers_partial : forall w (jobs : list (list Z * list Z)) targets sched w' ps,
  Forall2 (fun job i => leads_to w (fst job) = Some i /\ bytes w i <> None) jobs targets -> NoDup targets ->
  run_pool w (map (fun job => Write (fst job) (snd job)) jobs) sched = (w', ps) ->
  length ps = length jobs /\
  (forall q, leads_to w' q = leads_to w q) /\ (forall j, ~ In j targets -> bytes w' j = bytes w j) /\
  (forall k p data q, nth_error jobs k = Some (p, data) -> nth_error ps k = Some q ->
     (q = Done (Ok tt) -> contents w' p = Some data) /\
     (contents w' p = contents w p \/ exists x, prefix x data /\ contents w' p = Some x)).
Proof. intros w jobs targets sched w' ps F ND H. apply (pool_writes w jobs targets sched w' ps (conj F ND) H). Qed.
Print Assumptions C78_writers_partial.
Example C78_nonvacuous : exists w', run_pool w0 [Write (zs "a") (zs "hello"); Write (zs "s/l") (zs "HI"); Write (zs "x") (zs "there")]
  [(0%nat, fine 0); (1%nat, fine 0); (0%nat, fine 2); (2%nat, fine 0); (1%nat, fine 9); (0%nat, fine 9); (2%nat, fine 9); (1%nat, fine 0); (2%nat, fine 0); (0%nat, fine 0)]
  = (w', [Done (Ok tt); Done (Ok tt); Done (Ok tt)]) /\
  contents w' (zs "b") = Some (zs "hello") /\ contents w' (zs "d/x") = Some (zs "HI") /\ contents w' (zs "x") = Some (zs "there") /\
  Forall2 (fun job i => leads_to w0 (fst job) = Some i /\ bytes w0 i <> None) [(zs "a", zs "hello"); (zs "s/l", zs "HI"); (zs "x", zs "there")] [1%nat; 4%nat; 7%nat].
Proof.
  eexists. split; [vm_compute; reflexivity|]. split; [vm_compute; reflexivity|]. split; [vm_compute; reflexivity|]. split; [vm_compute; reflexivity|].
  repeat (constructor; [vm_compute; split; [reflexivity|discriminate]|]). constructor.
Qed.
(** The same when some of the files do not exist yet, or cannot be written at all: any
    paths that do not have one target in common (a target is an existing file or a free
    name in a directory).  What existed keeps its paths, files that are nobody's target keep their
    contents, and no names appear but those of the new files. *)
Theorem C78_creating_writers_partial : forall w (jobs : list (list Z * list Z)) sched w' ps, wf w ->
  ForallOrdPairs (fun a b => target_of w (fst a) = None \/ target_of w (fst a) <> target_of w (fst b)) jobs ->
  run_pool w (map (fun job => Write (fst job) (snd job)) jobs) sched = (w', ps) ->
  length ps = length jobs /\
  (forall q i, leads_to w q = Some i -> leads_to w' q = Some i) /\
  (forall j, (j < length (inodes w))%nat -> (forall p data, In (p, data) jobs -> target_of w p <> Some (OldFile j)) -> bytes w' j = bytes w j) /\
  (forall d c, entry w' d c = entry w d c \/ exists p data, In (p, data) jobs /\ target_of w p = Some (NewName d c)) /\
  (forall k p data q, nth_error jobs k = Some (p, data) -> nth_error ps k = Some q ->
     (q = Done (Ok tt) -> contents w' p = Some data) /\
     (contents w' p = contents w p \/ exists x, prefix x data /\ contents w' p = Some x)).
Proof. exact pool_new. Qed.
Print Assumptions C78_creating_writers_partial.
Example C78_creating_nonvacuous : exists w' e,
  run_pool w0 [Write (zs "a") (zs "hello"); Write (zs "d/new") (zs "HI"); Write (zs "new") (zs "there"); Write (zs "d") (zs "no")]
    [(0%nat, fine 0); (1%nat, fine 0); (0%nat, fine 2); (2%nat, fine 0); (3%nat, fine 0); (1%nat, fine 9); (0%nat, fine 9); (2%nat, fine 9); (1%nat, fine 0); (2%nat, fine 0); (0%nat, fine 0)]
  = (w', [Done (Ok tt); Done (Ok tt); Done (Ok tt); Done (Err e)]) /\
  contents w' (zs "b") = Some (zs "hello") /\ contents w' (zs "s/new") = Some (zs "HI") /\ contents w' (zs "new") = Some (zs "there") /\
  map (target_of w0) [zs "a"; zs "d/new"; zs "new"; zs "d"] = [Some (OldFile 1); Some (NewName 2 (zs "new")); Some (NewName 0 (zs "new")); None].
Proof. do 2 eexists. split; [vm_compute; reflexivity|]. repeat split; vm_compute; reflexivity. Qed.

(** *** C79: a call that returns an error has changed nothing *)

(** False for Write, which can fail after having emptied the file. *)
Theorem C79_write_refuted : exists w p data chs w' e, wf w /\ run w (Write p data) chs = (w', Done (Err e)) /\ contents w' p <> contents w p.
Proof.
  exists w0, (zs "a"), (zs "new"), [fine 0; mkChoice (Some (EOther 28)) 0; fine 0]. do 2 eexists. split; [apply w0_wf|]. split; [vm_compute; reflexivity|vm_compute; discriminate].
Qed.
Print Assumptions C79_write_refuted.
(** What a failed Write can leave: everything as it was, or a prefix of the data. *)
Theorem C79_write_characterised : forall w p data chs w' e, wf w -> run w (Write p data) chs = (w', Done (Err e)) ->
  w' = w \/ exists x, prefix x data /\ contents w' p = Some x.
Proof.
  intros w p data chs w' e WF H. destruct (Write_run _ _ _ _ _ _ WF H) as [(-> & _)|(i & x & y & D & ST & _)]; [auto|].
  right. exists x. split; [exists y; exact D|]. unfold contents. rewrite (st_path _ _ _ _ _ ST). apply (st_bytes _ _ _ _ _ ST).
Qed.
Print Assumptions C79_write_characterised.
(** True for all the others. *)
Theorem C79_failed_partial : forall w p q chs w' e P, wf w ->
  In P [CreateDir p; RemoveDir p; RemoveFile p; Rename p q; Copy p q] -> run w P chs = (w', Done (Err e)) -> w' = w.
Proof.
  intros w p q chs w' e P WF I H. cbn [In] in I. destruct I as [<- |[<- |[<- |[<- |[<- |[]]]]]].
  - destruct (CreateDir_run _ _ _ _ _ WF H) as [(x & _ & E)|[E _]]; [exact E|discriminate].
  - destruct (Remove_run _ _ _ _ _ H) as [(x & _ & E)|[E _]]; [exact E|discriminate].
  - destruct (Remove_run _ _ _ _ _ H) as [(x & _ & E)|[E _]]; [exact E|discriminate].
  - destruct (Rename_run _ _ _ _ _ _ H) as [(x & _ & E)|[E _]]; [exact E|discriminate].
  - destruct (Copy_run _ _ _ _ _ _ WF H) as [(x & _ & E)|[E _]]; [exact E|discriminate].
Qed.
Print Assumptions C79_failed_partial.
(** Every call leaves a file system behind in which all of the above holds again. *)
Theorem C79_stays_sound : forall R (P : prog R) w chs w' P', wf w -> run w P chs = (w', P') -> wf w'.
Proof. intros R P w chs w' P' WF H. eapply run_keeps; eauto. Qed.
Print Assumptions C79_stays_sound.
Example C79_nonvacuous : run w0 (Copy (zs "a") (zs "x")) [fine 0] = (w0, Done (Err EEXIST)) /\ run w0 (Rename (zs "a") (zs "d")) [fine 0] = (w0, Done (Err EEXIST)) /\
  run w0 (CreateDir (zs "d")) [mkChoice (Some EPERM) 0] = (w0, Done (Err EPERM)).
Proof. split; [|split]; vm_compute; reflexivity. Qed.
