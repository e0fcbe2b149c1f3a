(** FsWriteProofs.v -- Write, Read and Copy. *)
From Verif Require Import Base BaseLemmas OsModel FsModel FsSpec FsProofs.
Open Scope Z_scope.

Lemma cast_id l : forall acc, fold_left (fun casted b => casted ++ [byte_of b]) l acc = acc ++ l.
Proof.
  induction l as [|b l IH]; intros acc; cbn [fold_left]; [symmetry; apply app_nil_r|]. rewrite IH, <- app_assoc. reflexivity.
Qed.
Definition kW (fd : nat) : option errno -> prog (Result unit) := fun err => Close fd (Done (finish err tt)).

Lemma write_at_end a bs : write_at a (length a) bs = a ++ bs.
Proof.
  unfold write_at. rewrite firstn_all, Nat.sub_diag. cbn [repeat app]. rewrite skipn_all2 by lia. rewrite app_nil_r. reflexivity.
Qed.
Lemma list_set_twice {A} (l : list A) i x y : list_set (list_set l i x) i y = list_set l i y.
Proof. revert i. induction l as [|z l IH]; intros [|i]; cbn [list_set]; try reflexivity. rewrite IH. reflexivity. Qed.
Lemma list_set_id {A} (l : list A) i x : nth_error l i = Some x -> list_set l i x = l.
Proof. revert i. induction l as [|z l IH]; intros [|i] H; cbn [list_set nth_error] in *; try discriminate; [congruence|]. rewrite IH by exact H. reflexivity. Qed.

Definition ended fd (p : prog (Result unit)) (r : Result unit) : Prop := p = Close fd (Done r) \/ p = Done r.
Lemma run_ended fd r chs : forall (w w' : world) p0 p', ended fd p0 r -> run w p0 chs = (w', p') -> w' = w /\ ended fd p' r.
Proof.
  induction chs as [|ch chs IH]; intros w w' p0 p' E H; cbn [run] in H; [injection H as <- <-; auto|].
  destruct E as [-> | ->]; cbn [step] in H; (eapply IH; [right; reflexivity|exact H]).
Qed.
Lemma write_run chs : forall w fd i a rest w' p',
  nth_error (files w) fd = Some (i, length a) -> nth_error (inodes w) i = Some (IFile a) ->
  run w (FileWrite fd rest (kW fd)) chs = (w', p') ->
  exists x y, rest = x ++ y /\ inodes w' = list_set (inodes w) i (IFile (a ++ x)) /\ cwd w' = cwd w /\
    (p' = FileWrite fd y (kW fd) \/ (ended fd p' (Ok tt) /\ y = []) \/ exists e, ended fd p' (Err e)).
Proof.
  induction chs as [|ch chs IH]; intros w fd i a rest w' p' F N H; cbn [run] in H.
  - injection H as <- <-. exists [], rest. rewrite app_nil_r, (list_set_id _ _ _ N). auto.
  - cbn [step] in H. destruct (fails ch) as [e|].
    { unfold kW in H at 1. cbn [finish] in H. destruct (run_ended fd (Err e) chs w w' _ _ (or_introl eq_refl) H) as (-> & E).
      exists [], rest. rewrite app_nil_r, (list_set_id _ _ _ N). eauto 10. }
    set (n := Nat.min (count ch) (length rest)) in *. set (bs := firstn n rest) in *.
    unfold os_write in H. rewrite F, N, write_at_end in H.
    set (w1 := set_file (set_inode w i (IFile (a ++ bs))) fd (i, (length a + length bs)%nat)) in *.
    assert (I1 : inodes w1 = list_set (inodes w) i (IFile (a ++ bs))) by reflexivity.
    assert (C1 : cwd w1 = cwd w) by reflexivity.
    assert (SPLIT : rest = bs ++ skipn n rest) by (symmetry; apply firstn_skipn).
    destruct (skipn n rest) as [|b rs] eqn:SK.
    + unfold kW in H at 1. cbn [finish] in H. destruct (run_ended fd (Ok tt) chs w1 w' _ _ (or_introl eq_refl) H) as (-> & E).
      exists bs, []. rewrite I1, C1. auto 10.
    + destruct (n =? 0)%nat eqn:Z0.
      * unfold kW in H at 1. cbn [finish] in H. destruct (run_ended fd (Err EEOF) chs w1 w' _ _ (or_introl eq_refl) H) as (-> & E).
        exists bs, (b :: rs). rewrite I1, C1. eauto 10.
      * edestruct (IH w1 fd i (a ++ bs) (b :: rs) w' p') as (x & y & E & IN & C & P).
        -- unfold w1. cbn [set_file files set_inode]. rewrite nth_list_set by (eapply nth_lt; exact F). rewrite Nat.eqb_refl, app_length. reflexivity.
        -- rewrite I1. rewrite nth_list_set by (eapply nth_lt; exact N). rewrite Nat.eqb_refl. reflexivity.
        -- exact H.
        -- exists (bs ++ x), y. rewrite IN, I1, list_set_twice, <- !app_assoc, <- E, C, C1. auto.
Qed.

(** After a write of x to the file i that p leads to. *)
Record stored (w w' : world) (p : list Z) (i : nat) (x : list Z) : Prop := {
  st_path : leads_to w' p = Some i;
  st_bytes : bytes w' i = Some x;
  st_before : leads_to w p = Some i \/ (leads_to w p = None /\ sort_of w i = None);
  st_paths : forall q, leads_to w' q <> Some i -> leads_to w' q = leads_to w q;
  st_links : forall q, leads_to w q = Some i -> leads_to w' q = Some i;
  st_others : forall j, j <> i -> bytes w' j = bytes w j }.
Definition at_ w p := locate w true p.
Lemma leads_same w w' q : same_tree w w' -> leads_to w' q = leads_to w q.
Proof. intros H. unfold leads_to. rewrite (locate_same _ _ _ _ H). reflexivity. Qed.

Lemma same_inodes w w' i x a : inodes w' = list_set (inodes w) i (IFile x) -> cwd w' = cwd w -> nth_error (inodes w) i = Some (IFile a) ->
  same_tree w w' /\ (forall j, bytes w' j = if (j =? i)%nat then Some x else bytes w j) /\ (forall d, entries w' d = entries w d).
Proof.
  intros E C N. destruct (same_set_file w i (IFile x) a N) as ((_ & S & EN) & ES); [discriminate|].
  assert (I1 : inodes w' = inodes (set_inode w i (IFile x))) by exact E.
  split; [split; [exact C|split]|split].
  - intros j. rewrite <- S. rewrite !sort_of_nth, I1. reflexivity.
  - intros d c. rewrite <- EN. rewrite !entry_nth, I1. reflexivity.
  - intros j. rewrite <- (bytes_set w i a x j N). rewrite !bytes_nth, I1. reflexivity.
  - intros d. rewrite <- ES. rewrite !entries_nth, I1. reflexivity.
Qed.
Lemma create_stored w p w1 fd w' x : wf w -> os_Create w p = (w1, inl fd) ->
  exists i, nth_error (files w1) fd = Some (i, 0%nat) /\ nth_error (inodes w1) i = Some (IFile []) /\
    (inodes w' = list_set (inodes w1) i (IFile x) -> cwd w' = cwd w1 -> stored w w' p i x).
Proof.
  intros WF H. unfold os_Create in H. assert (P := locate_place w true p). destruct (locate w true p) as [[d|d c [i|]]|e] eqn:L; try discriminate.
  - destruct (nth_error (inodes w) i) as [[old| |]|] eqn:N; try discriminate. cbn [open_file] in H. injection H as <- <-.
    exists i. cbn [files inodes set_inode cwd]. split; [rewrite nth_error_app2 by lia; rewrite Nat.sub_diag; reflexivity|].
    split; [rewrite nth_list_set by (eapply nth_lt; exact N); rewrite Nat.eqb_refl; reflexivity|].
    rewrite list_set_twice. intros E C. destruct (same_inodes _ _ _ _ _ E C N) as (ST & B & _).
    constructor.
    + rewrite (leads_same _ _ _ ST). unfold leads_to. rewrite L. reflexivity.
    + rewrite B, Nat.eqb_refl. reflexivity.
    + left. unfold leads_to. rewrite L. reflexivity.
    + intros q _. apply leads_same. exact ST.
    + intros q Q. rewrite (leads_same _ _ _ ST). exact Q.
    + intros j J. rewrite B. apply Nat.eqb_neq in J. rewrite J. reflexivity.
  - destruct P as ((q0 & S) & EN & GN & _).
    assert (PL : change_dir (fst (new_inode w (IFile []))) d (link_name c (length (inodes w))) = plant w (IFile []) d c) by reflexivity.
    cbn [new_inode open_file] in H. cbn [new_inode fst] in PL. rewrite PL in H. injection H as <- <-. clear PL.
    assert (G := plant_grown w (IFile []) d c q0 WF S EN (or_introl eq_refl)). cbn [sort_i] in G.
    set (new := length (inodes w)) in *. assert (SN : sort_of (plant w (IFile []) d c) new = Some AFile) by (rewrite (gr_sort _ _ _ _ _ _ G), Nat.eqb_refl; reflexivity).
    assert (BN : bytes (plant w (IFile []) d c) new = Some []) by (rewrite (plant_bytes _ _ _ _ _ _ S); fold new; rewrite Nat.eqb_refl; reflexivity).
    assert (N : nth_error (inodes (plant w (IFile []) d c)) new = Some (IFile [])).
    { rewrite bytes_nth in BN. destruct (nth_error _ new) as [[]|]; try discriminate. injection BN as ->. reflexivity. }
    exists new. cbn [files inodes cwd]. split; [rewrite nth_error_app2 by lia; rewrite Nat.sub_diag; reflexivity|]. split; [exact N|].
    intros E C. destruct (same_inodes _ _ _ _ _ E C N) as (ST & B & _).
    assert (LG := fun q => locate_grown w _ d c new AFile true q WF G).
    assert (LD : forall q, leads_to w' q = leads_to w q \/ (leads_to w' q = Some new /\ leads_to w q = None)).
    { intros q. rewrite (leads_same _ _ _ ST). unfold leads_to. assert (X := LG q). destruct (locate w true q) as [[d1|d1 c1 [j|]]|e].
      - cbn [before_after] in X. rewrite X. auto.
      - cbn [before_after] in X. rewrite X. auto.
      - cbn [before_after] in X. rewrite X. destruct ((d1 =? d)%nat && beq c1 c); auto.
      - cbn [before_after] in X. destruct X as (e' & -> & _). auto. }
    assert (NEW : forall q, leads_to w q <> Some new).
    { intros q Q. assert (SS : exists s, sort_of w new = Some s).
      { unfold leads_to in Q. assert (Z := locate_place w true q). destruct (locate w true q) as [[d1|d1 c1 [j|]]|e]; try discriminate; injection Q as Q.
        - subst. destruct Z as (p1 & Z). eauto.
        - subst. destruct Z as (_ & Z & _). destruct (gr_target _ _ _ _ _ _ G _ _ Z). }
      destruct SS as (s & SS). rewrite (gr_fresh _ _ _ _ _ _ G) in SS. discriminate. }
    constructor.
    + rewrite (leads_same _ _ _ ST). unfold leads_to. assert (X := LG p). rewrite L in X. cbn [before_after] in X. rewrite X, Nat.eqb_refl, beq_refl. reflexivity.
    + rewrite B, Nat.eqb_refl. reflexivity.
    + right. split; [unfold leads_to; rewrite L; reflexivity|apply (gr_fresh _ _ _ _ _ _ G)].
    + intros q Q. destruct (LD q) as [X|[X _]]; [exact X|contradiction].
    + intros q Q. destruct (NEW _ Q).
    + intros j J. rewrite B. apply Nat.eqb_neq in J. rewrite J. rewrite (plant_bytes _ _ _ _ _ _ S). fold new. rewrite J. reflexivity.
Qed.
Lemma create_failed w p w1 e : os_Create w p = (w1, inr e) -> w1 = w.
Proof.
  unfold os_Create. destruct (locate w true p) as [[d|d c [i|]]|e']; intros H; try (injection H as <- _; reflexivity); [|discriminate].
  destruct (nth_error (inodes w) i) as [[]|]; try discriminate; injection H as <- _; reflexivity.
Qed.
(** Everything that Write can do up to any moment. *)
Theorem Write_run chs w p data w' p' : wf w -> run w (Write p data) chs = (w', p') ->
  (w' = w /\ ((chs = [] /\ p' = Write p data) \/ exists e, p' = Done (Err e))) \/
  exists i x y, data = x ++ y /\ stored w w' p i x /\ (p' = Done (Ok tt) -> y = []).
Proof.
  intros WF H. destruct chs as [|ch chs]; cbn [run] in H; [injection H as <- <-; auto|]. unfold Write in H at 1. cbn [step] in H.
  assert (DONE : forall chs (w w' : world) (r : Result unit) p', run w (Done r) chs = (w', p') -> w' = w /\ p' = Done r).
  { induction chs0 as [|ch0 chs0 IH]; intros v v' r q Q; cbn [run step] in Q; [injection Q as <- <-; auto|]. apply IH. exact Q. }
  destruct (fails ch) as [e|]. { apply DONE in H. destruct H as [-> ->]. eauto 10. }
  destruct (os_Create w p) as [w1 [fd|e]] eqn:CR.
  - destruct (create_stored w p w1 fd w' [] WF CR) as (i & F & N & _). cbv zeta in H. rewrite cast_id in H. cbn [app] in H.
    destruct (write_run chs w1 fd i [] data w' p' F N H) as (x & y & E & IN & C & P). right. exists i, x, y. split; [exact E|].
    destruct (create_stored w p w1 fd w' x WF CR) as (i' & F' & _ & ST). assert (i' = i) by congruence. subst i'. split; [apply ST; assumption|].
    intros ->. destruct P as [P|[[_ P]|(e & [P|P])]]; try discriminate. exact P.
  - apply create_failed in CR. subst. apply DONE in H. destruct H as [-> ->]. eauto 10.
Qed.

(** *** Read *)
Lemma run_done {R} chs : forall (w w' : world) (r : R) p', run w (Done r) chs = (w', p') -> w' = w /\ p' = Done r.
Proof.
  induction chs as [|ch0 chs0 IH]; intros v v' r q Q; cbn [run step] in Q; [injection Q as <- <-; auto|]. apply IH. exact Q.
Qed.
(** The world a reader leaves behind differs in the open files only. *)
Definition only_files (w w' : world) : Prop := inodes w' = inodes w /\ cwd w' = cwd w.
Lemma only_refl w : only_files w w.
Proof. split; reflexivity. Qed.
Lemma open_leads w p w1 fd : os_Open w p = (w1, inl fd) ->
  exists i, leads_to w p = Some i /\ nth_error (files w1) fd = Some (i, 0%nat) /\ only_files w w1.
Proof.
  unfold os_Open, leads_to. destruct (locate w true p) as [[d|d c [i|]]|e]; try discriminate; cbn [open_file]; intros H; injection H as <- <-.
  - exists d. cbn [files]. rewrite nth_error_app2 by lia. rewrite Nat.sub_diag. split; [reflexivity|]. split; [reflexivity|]. split; reflexivity.
  - exists i. cbn [files]. rewrite nth_error_app2 by lia. rewrite Nat.sub_diag. split; [reflexivity|]. split; [reflexivity|]. split; reflexivity.
Qed.
Lemma open_failed w p w1 e : os_Open w p = (w1, inr e) -> w1 = w.
Proof.
  unfold os_Open. destruct (locate w true p) as [[d|d c [i|]]|e']; cbn [open_file]; intros H; try discriminate; injection H as <- _; reflexivity.
Qed.
(** What a reading function returns, for every behaviour of the system: an error, or
    the first bytes of the file, at least one if there are any, filled up with zeros. *)
Definition read_result (w : world) (p : list Z) (r : Result (list Z)) : Prop :=
  match r with
  | Err _ => True
  | Ok bs => exists i, leads_to w p = Some i /\
      match bytes w i with
      | Some data => exists n, bs = firstn n data ++ repeat 0 (length data - n) /\ (n <= length data)%nat /\ (data <> [] -> 1 <= n)%nat
      | None => bs = []
      end
  end.
Definition reader (p : list Z) (R : prog (Result (list Z))) : Prop := R = Read p \/ R = ReadToString p.
Definition kR (fd size : nat) (how : list Z -> list Z) : list Z + errno -> prog (Result (list Z)) := fun r =>
  Close fd (Done match r with inr err => Err err | inl bs => Ok (how (filled size bs)) end).
Lemma reader_run w p R chs w' r : reader p R -> run w R chs = (w', Done r) -> only_files w w' /\ read_result w p r.
Proof.
  intros RD H.
  assert (HOW : exists how, (forall l, how l = l) /\ R = Open p (fun r => match r with inr err => Done (Err err) | inl file =>
      FileSize file (fun r => match r with inr err => Close file (Done (Err err)) | inl size => FileRead file size (kR file size how) end) end)).
  { destruct RD as [-> | ->].
    - exists (fun l => fold_left (fun casted b => casted ++ [byte_of b]) l []). split; [intros l; rewrite cast_id; reflexivity|reflexivity].
    - exists (fun l => l). split; reflexivity. }
  destruct HOW as (how & HID & ->). clear RD.
  destruct chs as [|ch chs]; cbn [run step] in H; [discriminate|].
  destruct (fails ch) as [e|]. { apply run_done in H. destruct H as [-> H]. injection H as ->. split; [apply only_refl|exact I]. }
  destruct (os_Open w p) as [w1 [fd|e]] eqn:OP.
  2:{ apply open_failed in OP. subst. apply run_done in H. destruct H as [-> H]. injection H as ->. split; [apply only_refl|exact I]. }
  destruct (open_leads _ _ _ _ OP) as (i & LD & F & O1).
  assert (CLOSE : forall chs w2 (r0 : Result (list Z)) w' r, run w2 (Close fd (Done r0)) chs = (w', Done r) -> w' = w2 /\ r = r0).
  { intros [|c0 chs0] w2 r0 v' q Q; cbn [run step] in Q; [discriminate|]. apply run_done in Q. destruct Q as [-> Q]. injection Q as ->. auto. }
  destruct chs as [|ch2 chs]; cbn [run step] in H; [discriminate|].
  destruct (fails ch2) as [e|]. { apply CLOSE in H. destruct H as [-> ->]. split; [exact O1|exact I]. }
  unfold os_size in H. rewrite F in H.
  destruct chs as [|ch3 chs]; [destruct (nth_error (inodes w1) i) as [[]|]; discriminate|].
  assert (SZ : exists size, run w1 (FileRead fd size (kR fd size how)) (ch3 :: chs) = (w', Done r) /\
     (forall data, nth_error (inodes w1) i = Some (IFile data) -> size = length data)).
  { destruct (nth_error (inodes w1) i) as [[data| |]|]; eexists; (split; [exact H|]); intros data' E; congruence. }
  clear H. destruct SZ as (size & H & SZ). cbn [run step] in H.
  destruct (fails ch3) as [e|]. { apply CLOSE in H. destruct H as [-> ->]. split; [exact O1|exact I]. }
  destruct (size =? 0)%nat eqn:Z0.
  { apply CLOSE in H. destruct H as [-> ->]. split; [exact O1|]. exists i. split; [exact LD|]. apply Nat.eqb_eq in Z0. subst size.
    rewrite HID. cbn [filled app length Nat.sub repeat]. rewrite bytes_nth. destruct O1 as [<- _]. destruct (nth_error (inodes w1) i) as [[data| |]|]; cbn [bytes_i]; try reflexivity.
    assert (L := SZ _ eq_refl). destruct data; [|discriminate]. exists 0%nat. split; [reflexivity|]. split; [lia|congruence]. }
  unfold os_read in H. rewrite F in H. destruct O1 as [O1 O2]. destruct (nth_error (inodes w1) i) as [[data| |]|] eqn:N.
  - assert (L := SZ _ eq_refl). subst size. cbn [skipn] in H. set (m := Nat.min (length data) (Nat.max 1 (count ch3))) in *.
    destruct (firstn m data) as [|b bs] eqn:FN.
    + apply CLOSE in H. destruct H as [-> ->]. split; [split; assumption|exact I].
    + apply CLOSE in H. destruct H as [-> ->]. split; [split; assumption|]. exists i. split; [exact LD|].
      rewrite bytes_nth, <- O1, N. cbn [bytes_i]. exists m. rewrite HID. unfold filled. rewrite <- FN, firstn_length_le by (unfold m; lia).
      split; [reflexivity|]. split; [unfold m; lia|]. intros _. apply Nat.eqb_neq in Z0. unfold m. lia.
  - apply CLOSE in H. destruct H as [-> ->]. split; [split; assumption|exact I].
  - apply CLOSE in H. destruct H as [-> ->]. split; [split; assumption|exact I].
  - apply CLOSE in H. destruct H as [-> ->]. split; [split; assumption|exact I].
Qed.
(** If nothing fails and the read is not cut short: the file. *)
Lemma reader_full w p R data n1 n2 n3 n4 : reader p R -> contents w p = Some data -> (length data <= n3)%nat ->
  exists w', run w R [fine n1; fine n2; fine n3; fine n4] = (w', Done (Ok data)) /\ only_files w w'.
Proof.
  intros RD C L.
  assert (HOW : exists how, (forall l, how l = l) /\ R = Open p (fun r => match r with inr err => Done (Err err) | inl file =>
      FileSize file (fun r => match r with inr err => Close file (Done (Err err)) | inl size => FileRead file size (kR file size how) end) end)).
  { destruct RD as [-> | ->].
    - exists (fun l => fold_left (fun casted b => casted ++ [byte_of b]) l []). split; [intros l; rewrite cast_id; reflexivity|reflexivity].
    - exists (fun l => l). split; reflexivity. }
  destruct HOW as (how & HID & ->). clear RD.
  unfold contents in C. destruct (leads_to w p) as [i|] eqn:LD; [|discriminate].
  assert (OP : exists w1 fd, os_Open w p = (w1, inl fd)).
  { unfold leads_to in LD. unfold os_Open. destruct (locate w true p) as [[d|d c [j|]]|e]; try discriminate; cbn [open_file]; eauto. }
  destruct OP as (w1 & fd & OP). destruct (open_leads _ _ _ _ OP) as (i' & LD' & F & O1). assert (i' = i) by congruence. subst i'.
  rewrite bytes_nth in C. destruct O1 as [O1 O2]. rewrite <- O1 in C.
  destruct (nth_error (inodes w1) i) as [[data'| |]|] eqn:N; try discriminate. injection C as ->.
  cbn [run step fine fails]. rewrite OP. cbn [run step fine fails]. unfold os_size. rewrite F, N. cbn [run step fine fails].
  destruct (length data =? 0)%nat eqn:Z0.
  - cbn [run step kR]. apply Nat.eqb_eq in Z0. destruct data; [|discriminate]. rewrite HID. exists w1. split; [reflexivity|split; assumption].
  - unfold os_read. rewrite F, N. cbn [skipn count fine]. apply Nat.eqb_neq in Z0. rewrite Nat.min_l by lia. rewrite firstn_all.
    destruct data as [|b data]; [cbn [length] in Z0; lia|]. cbn [run step kR]. rewrite HID. unfold filled. rewrite Nat.sub_diag, app_nil_r.
    eexists. split; [reflexivity|]. split; assumption.
Qed.
