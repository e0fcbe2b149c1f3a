(** FsDirProofs.v -- ReadDir, the paths it returns, and writes that succeed. *)
From Coq Require Import Permutation Sorted.
From Verif Require Import Base BaseLemmas OsModel FsModel FsSpec FsProofs FsWriteProofs FsTreeProofs.
Open Scope Z_scope.

(** *** Sorting *)
Lemma bytes_leb_total a : forall b, bytes_leb a b = true \/ bytes_leb b a = true.
Proof.
  induction a as [|x a IH]; intros [|y b]; cbn [bytes_leb]; auto. rewrite !orb_true_iff, !andb_true_iff, !Z.ltb_lt, !Z.eqb_eq.
  destruct (Z.lt_trichotomy x y) as [L|[E|G]]; [tauto| |tauto]. destruct (IH b); [left|right]; right; auto.
Qed.
Lemma bytes_leb_trans a : forall b c, bytes_leb a b = true -> bytes_leb b c = true -> bytes_leb a c = true.
Proof.
  induction a as [|x a IH]; intros [|y b] [|z c]; cbn [bytes_leb]; auto; try discriminate. rewrite !orb_true_iff, !andb_true_iff, !Z.ltb_lt, !Z.eqb_eq.
  intros [L|[-> L]] [M|[-> M]]; try (left; lia). right. split; [reflexivity|]. eapply IH; eassumption.
Qed.
Definition name_le (a b : list Z * Z) : Prop := bytes_leb (fst a) (fst b) = true.
Lemma insert_perm e l : Permutation (insert_entry e l) (e :: l).
Proof.
  induction l as [|f l IH]; cbn [insert_entry]; [reflexivity|]. destruct (bytes_leb (fst e) (fst f)); [reflexivity|].
  rewrite IH. apply perm_swap.
Qed.
Lemma sort_perm l : Permutation (sort_entries l) l.
Proof. induction l as [|e l IH]; cbn [sort_entries fold_right]; [reflexivity|]. rewrite insert_perm. constructor. exact IH. Qed.
Lemma insert_sorted e l : StronglySorted name_le l -> StronglySorted name_le (insert_entry e l).
Proof.
  induction 1 as [|f l S IH F]; cbn [insert_entry]; [repeat constructor|]. destruct (bytes_leb (fst e) (fst f)) eqn:L.
  - constructor; [constructor; auto|]. constructor; [exact L|]. rewrite Forall_forall in *. intros x X. eapply bytes_leb_trans; [exact L|]. apply F. exact X.
  - constructor; [exact IH|]. apply Forall_forall. intros x X. apply (Permutation_in _ (insert_perm e l)) in X. destruct X as [<- |X].
    + destruct (bytes_leb_total (fst e) (fst f)) as [Y|Y]; [congruence|exact Y].
    + rewrite Forall_forall in F. apply F. exact X.
Qed.
Lemma sort_sorted l : StronglySorted name_le (sort_entries l).
Proof. induction l as [|e l IH]; cbn [sort_entries fold_right]; [constructor|]. apply insert_sorted. exact IH. Qed.

Lemma perm_regular m : mode_IsDir (mode_Perm m) = false /\ mode_IsRegular (mode_Perm m) = true.
Proof.
  unfold mode_IsDir, mode_IsRegular, mode_Perm.
  assert (A : Z.land ModePerm ModeDir = 0) by reflexivity. assert (B : Z.land ModePerm ModeType = 0) by reflexivity.
  rewrite <- !Z.land_assoc, A, B, Z.land_0_r. auto.
Qed.
(** What ReadDir makes of the listing. *)
Lemma readdir_fold p es : forall vec,
  fold_left (fun vec entry =>
          let m := mode_Perm (snd entry) in
          let fileType :=
            if mode_IsDir m then t_dir
            else if mode_IsRegular m then t_file
            else if negb (Z.land m ModeSymlink =? 0) then t_symlink
            else [] in
          vec ++ [mkEntry (fst entry) (filepath_Join p (fst entry)) fileType]) es vec
  = vec ++ map (fun c => mkEntry c (filepath_Join p c) t_file) (map fst es).
Proof.
  induction es as [|[c m] es IH]; intros vec; cbn [fold_left map fst snd]; [rewrite app_nil_r; reflexivity|].
  rewrite IH. destruct (perm_regular m) as [-> ->]. rewrite <- app_assoc. reflexivity.
Qed.
Theorem ReadDir_run w p chs w' r : run w (ReadDir p) chs = (w', Done r) -> w' = w /\
  match r with
  | Err _ => True
  | Ok l => exists d q names, leads_to w p = Some d /\ sort_of w d = Some (ADir q) /\ listing w d names /\
      l = repeat zero_entry (length names) ++ map (fun c => mkEntry c (filepath_Join p c) t_file) names
  end.
Proof.
  intros H. destruct chs as [|ch chs]; cbn [run] in H; [discriminate|]. unfold ReadDir in H. cbn [step] in H.
  destruct (fails ch) as [e|].
  - apply run_done in H. destruct H as [-> H]. injection H as ->. auto.
  - destruct (os_ReadDir w p) as [es|e] eqn:E; apply run_done in H; destruct H as [-> H]; [|injection H as ->; auto].
    injection H as ->. split; [reflexivity|]. rewrite readdir_fold. unfold os_ReadDir in E. unfold leads_to.
    assert (X : forall i, match nth_error (inodes w) i with
      | Some (IDir _ es) => inl (sort_entries (map (fun e => (fst e, entry_Type w (snd e))) es))
      | _ => inr ENOTDIR end = inl es -> exists d q names, Some i = Some d /\ sort_of w d = Some (ADir q) /\ listing w d names /\
        repeat zero_entry (length es) ++ map (fun c => mkEntry c (filepath_Join p c) t_file) (map fst es) =
        repeat zero_entry (length names) ++ map (fun c => mkEntry c (filepath_Join p c) t_file) names).
    { intros i Q. unfold listing, sort_of, entries. destruct (nth_error (inodes w) i) as [[x|q es0|t]|] eqn:N; try discriminate. injection Q as <-.
      exists i, q, (map fst (sort_entries (map (fun e => (fst e, entry_Type w (snd e))) es0))). split; [reflexivity|]. rewrite N. split; [reflexivity|]. split; [split|].
      - rewrite sort_perm, map_map. cbn [fst]. reflexivity.
      - generalize (sort_sorted (map (fun e => (fst e, entry_Type w (snd e))) es0)). generalize (sort_entries (map (fun e => (fst e, entry_Type w (snd e))) es0)). clear. induction 1 as [|e l S IH F]; cbn [map]; constructor; auto.
        rewrite Forall_forall in *. intros c C. apply in_map_iff in C. destruct C as (y & <- & Y). apply F. exact Y.
      - rewrite map_length. reflexivity. }
    destruct (locate w true p) as [[i|d c [i|]]|e]; try discriminate; apply X in E; exact E.
Qed.
(** It succeeds on every directory. *)
Lemma ReadDir_succeeds w p d q n : leads_to w p = Some d -> sort_of w d = Some (ADir q) -> exists l, run w (ReadDir p) [fine n] = (w, Done (Ok l)).
Proof.
  intros L S. unfold ReadDir. cbn [run step fails fine]. unfold os_ReadDir. unfold leads_to in L. rewrite sort_of_nth in S.
  destruct (locate w true p) as [[i|d' c [i|]]|e]; try discriminate; injection L as ->; destruct (nth_error (inodes w) d) as [[]|]; try discriminate; eauto.
Qed.

(** *** The returned paths *)
Lemma components_cons p : exists c cs, components p = c :: cs.
Proof. induction p as [|b p (c & cs & IH)]; cbn [components]; [eauto|]. rewrite IH. destruct (b =? 47); eauto. Qed.
Lemma components_app p c : ~ In 47 c -> components (p ++ 47 :: c) = components p ++ [c].
Proof.
  intros NS. assert (C : components c = [c]).
  { induction c as [|b c IH]; [reflexivity|]. cbn [components]. rewrite IH by (intros X; apply NS; right; exact X).
    assert (B : b <> 47) by (intros ->; apply NS; left; reflexivity). apply Z.eqb_neq in B. rewrite B. reflexivity. }
  induction p as [|b p IH]; cbn [app components].
  - rewrite C. reflexivity.
  - rewrite IH. destruct (components_cons p) as (x & xs & ->). cbn [app]. destruct (b =? 47); reflexivity.
Qed.
Lemma clean_nodd root cs : (forall c, In c cs -> dotdot c = false) -> forall acc, clean_go root cs acc = rev acc ++ filter (fun c => negb (dot c)) cs.
Proof.
  induction cs as [|c cs IH]; intros H acc; cbn [clean_go filter]; [rewrite app_nil_r; reflexivity|].
  assert (T : forall x, In x cs -> dotdot x = false) by (intros x X; apply H; right; exact X).
  destruct (dot c); cbn [negb]; [apply IH; exact T|]. rewrite (H c (or_introl eq_refl)). rewrite (IH T). cbn [rev]. rewrite <- app_assoc. reflexivity.
Qed.
Lemma join_components cs c : (forall x, In x cs -> ~ In 47 x) -> ~ In 47 c -> components (join_slash (cs ++ [c])) = cs ++ [c].
Proof.
  intros H NS. revert c NS. induction cs as [|x cs IH] using rev_ind; intros c NS.
  - cbn [app join_slash]. change c with c at 1. rewrite <- (app_nil_l [c]). assert (X := components_app [] c NS). cbn [app components] in X.
    destruct (components_cons c) as (y & ys & E). rewrite E in X. rewrite Z.eqb_refl in X. injection X as -> ->. rewrite E. reflexivity.
  - assert (J : join_slash ((cs ++ [x]) ++ [c]) = join_slash (cs ++ [x]) ++ 47 :: c).
    { clear. induction cs as [|y cs IH]; [reflexivity|]. cbn [app]. destruct cs as [|z cs]; cbn [app join_slash] in *.
      - rewrite <- app_assoc. reflexivity.
      - rewrite IH. rewrite <- app_assoc. reflexivity. }
    rewrite J, (components_app _ _ NS). rewrite IH; [reflexivity| |].
    + intros y Y. apply H. apply in_or_app. auto.
    + apply H. apply in_or_app. right. left. reflexivity.
Qed.
(** "." and empty parts in the middle of a path do not matter. *)
Lemma walk_dots w follow c : good_name c -> forall links d cs,
  walk w follow links d (filter (fun c => negb (dot c)) cs ++ [c]) = walk w follow links d (cs ++ [c]).
Proof.
  intros GN. apply (walk_ind (fun links d cs => walk w follow links d (filter (fun c => negb (dot c)) cs ++ [c]) = walk w follow links d (cs ++ [c]))).
  intros links d cs H1 H2. destruct cs as [|c0 cs]; [reflexivity|]. cbn [filter].
  assert (IH : forall d', walk w follow links d' (filter (fun c => negb (dot c)) cs ++ [c]) = walk w follow links d' (cs ++ [c])) by (intros d'; apply H1; cbn [length]; lia).
  assert (ND : forall (A : Type) (r : list (list Z)) (x y : A), match r ++ [c] with [] => x | _ => y end = y) by (intros A [] x y; reflexivity).
  destruct (dot c0) eqn:D; cbn [negb app].
  - rewrite (IH d), (walk_eq w follow links d (c0 :: _)). destruct (sort_of w d) as [[|p|t]|] eqn:S; try (rewrite walk_eq, S; reflexivity). rewrite D. reflexivity.
  - rewrite (walk_eq w follow links d (c0 :: cs ++ [c])), (walk_eq w follow links d (c0 :: _ ++ [c])).
    destruct (sort_of w d) as [[|p|t]|]; try reflexivity. rewrite D. destruct (dotdot c0); [apply IH|].
    destruct (entry w d c0) as [i|]; [|rewrite !ND; reflexivity].
    destruct (sort_of w i) as [[|q|t]|]; rewrite !ND; try apply IH.
    destruct links as [|links']; [reflexivity|].
    rewrite !app_assoc, <- (H2 links' _ (components t ++ filter _ cs)), <- (H2 links' _ (components t ++ cs)) by reflexivity.
    f_equal. f_equal. rewrite !filter_app. f_equal. clear. induction cs as [|x cs IH]; [reflexivity|]. cbn [filter]. destruct (dot x) eqn:E; cbn [negb]; [exact IH|].
    cbn [filter]. rewrite E. cbn [negb]. rewrite IH. reflexivity.
Qed.
(** Walking on from where a path leads. *)
Lemma walk_on w c : good_name c -> forall links d cs d' q,
  match walk w true links d cs with inl (PDir i) | inl (PAt _ _ (Some i)) => Some i | _ => None end = Some d' ->
  sort_of w d' = Some (ADir q) -> walk w false links d (cs ++ [c]) = inl (PAt d' c (entry w d' c)).
Proof.
  intros (G1 & G2 & G3). apply (walk_ind (fun links d cs => forall d' q,
    match walk w true links d cs with inl (PDir i) | inl (PAt _ _ (Some i)) => Some i | _ => None end = Some d' ->
    sort_of w d' = Some (ADir q) -> walk w false links d (cs ++ [c]) = inl (PAt d' c (entry w d' c)))).
  intros links d cs H1 H2 d' q L S.
  assert (LAST : forall links d q, sort_of w d = Some (ADir q) -> walk w false links d [c] = inl (PAt d c (entry w d c))).
  { intros ls e q' E. rewrite walk_eq, E, G1, G2. destruct (entry w e c) as [i|]; [|reflexivity]. destruct (sort_of w i) as [[]|]; reflexivity. }
  rewrite walk_eq in L. destruct (sort_of w d) as [[|p|t]|] eqn:SD; try discriminate. destruct cs as [|c0 r].
  - injection L as ->. cbn [app]. eapply LAST. exact S.
  - assert (ND : forall (A : Type) (r : list (list Z)) (x y : A), match r ++ [c] with [] => x | _ => y end = y) by (intros A [] x y; reflexivity).
    cbn [app]. rewrite walk_eq, SD. destruct (dot c0); [eapply H1; eauto; cbn [length]; lia|]. destruct (dotdot c0); [eapply H1; eauto; cbn [length]; lia|].
    destruct (entry w d c0) as [i|] eqn:EN; [|destruct r; discriminate].
    assert (X : match (match r with [] => inl (PAt d c0 (Some i)) | _ => walk w true links i r end) with inl (PDir i) | inl (PAt _ _ (Some i)) => Some i | _ => None end = Some d' ->
                walk w false links i (r ++ [c]) = inl (PAt d' c (entry w d' c))).
    { intros Y. destruct r as [|c1 r]; [injection Y as ->; eapply LAST; exact S|]. eapply H1; eauto; cbn [length]; lia. }
    destruct (sort_of w i) as [[|q'|t]|] eqn:SI; rewrite ?ND; try (apply X; exact L).
    assert (Y : (if match r with [] => negb true | _ => false end then inl (PAt d c0 (Some i)) else match links with O => inr ELOOP | Datatypes.S links' => walk w true links' (if rooted t then 0%nat else d) (components t ++ r) end)
       = (match links with O => inr ELOOP | Datatypes.S links' => walk w true links' (if rooted t then 0%nat else d) (components t ++ r) end) :> place + errno) by (destruct r; reflexivity).
    rewrite Y in L. clear Y. destruct links as [|links']; [discriminate|]. rewrite app_assoc. eapply H2; eauto.
Qed.
Lemma no_slash p c : In c (components p) -> ~ In 47 c.
Proof. intros H. eapply components_noslash. exact H. Qed.
Theorem join_names w p d q c : leads_to w p = Some d -> sort_of w d = Some (ADir q) -> no_dotdot p -> good_name c ->
  locate w false (filepath_Join p c) = inl (PAt d c (entry w d c)).
Proof.
  intros L S NDD GN. assert (GN' := GN). destruct GN' as (G1 & G2 & G3). unfold leads_to, locate in L. destruct p as [|b p]; [discriminate|].
  remember (b :: p) as P eqn:EP. assert (NE : P <> []) by (subst; discriminate).
  assert (L' : match walk w true 40 (if rooted P then 0%nat else cwd w) (components P) with inl (PDir i) | inl (PAt _ _ (Some i)) => Some i | _ => None end = Some d) by (subst P; exact L).
  assert (WO := walk_on w c GN _ _ _ _ _ L' S). clear L L'.
  assert (J : filepath_Join P c = filepath_Clean (P ++ 47 :: c)) by (subst P; reflexivity). rewrite J. clear J.
  assert (RO : rooted (P ++ 47 :: c) = rooted P) by (subst P; reflexivity). unfold filepath_Clean. rewrite RO, (components_app _ _ G3).
  rewrite clean_nodd by (intros x X; apply in_app_or in X; destruct X as [X|[<- |[]]]; [apply NDD; exact X|exact G2]). cbn [rev app].
  rewrite filter_app. cbn [filter]. rewrite G1. cbn [negb].
  set (cs := filter (fun c => negb (dot c)) (components P)).
  assert (NS : forall x, In x cs -> ~ In 47 x) by (intros x X; apply filter_In in X; destruct X as [X _]; eapply no_slash; exact X).
  assert (JC := join_components cs c NS G3).
  assert (NIL : cs ++ [c] <> []) by (destruct cs; discriminate). destruct (cs ++ [c]) as [|y ys] eqn:EC; [contradiction|]. rewrite <- EC in *. clear NIL.
  assert (WD := walk_dots w false c GN 40 (if rooted P then 0%nat else cwd w) (components P)). fold cs in WD.
  destruct (rooted P) eqn:R.
  - unfold locate. cbn [rooted components]. change (47 =? 47) with true. rewrite JC. destruct (cs ++ [c]) as [|z zs] eqn:EC2; [discriminate|]. rewrite <- EC2 in *.
    rewrite EC2. cbn iota. rewrite <- EC2. rewrite walk_eq. rewrite <- WO, <- WD.
    destruct (sort_of w 0) as [[|pp|t]|] eqn:S0; try (rewrite walk_eq, S0; reflexivity).
  - assert (HD : exists b r, join_slash (cs ++ [c]) = b :: r /\ (b =? 47) = false).
    { destruct (join_slash (cs ++ [c])) as [|b0 r0] eqn:JS.
      - exfalso. cbn [components] in JC. destruct cs as [|x cs']; [|destruct cs'; discriminate]. cbn [app] in JC. injection JC as <-. discriminate.
      - exists b0, r0. split; [reflexivity|]. destruct (b0 =? 47) eqn:B; [|reflexivity]. exfalso. apply Z.eqb_eq in B. subst b0. cbn [components] in JC.
        destruct (components_cons r0) as (z & zs & EZ). rewrite EZ in JC. change (47 =? 47) with true in JC. cbn iota in JC.
        destruct cs as [|x cs'] eqn:ECS; cbn [app] in JC; injection JC as JC _; [subst c; discriminate|].
        assert (X : In x (filter (fun c => negb (dot c)) (components P))) by (fold cs; rewrite ECS; left; reflexivity).
        apply filter_In in X. destruct X as [_ X]. subst x. discriminate. }
    destruct HD as (b0 & r0 & JS & B). unfold locate. rewrite JS. unfold rooted. rewrite B. rewrite <- JS, JC, WD. exact WO.
Qed.

(** *** Write succeeds when the system lets it *)
Lemma Write_succeeds w p data n1 n2 n3 : wf w ->
  (contents w p <> None \/ exists d c, locate w true p = inl (PAt d c None)) -> (length data <= n2)%nat ->
  exists w', run w (Write p data) [fine n1; fine n2; fine n3] = (w', Done (Ok tt)).
Proof.
  intros WF H N. unfold Write. cbn [run step fails fine].
  assert (X : exists w1 fd, os_Create w p = (w1, inl fd)).
  { unfold os_Create. destruct H as [H|(d & c & ->)]; [|cbn [new_inode open_file]; eauto].
    unfold contents, leads_to, bytes in H. destruct (locate w true p) as [[d|d c [i|]]|e] eqn:L; try (exfalso; apply H; reflexivity).
    - exfalso. assert (P := locate_place w true p). rewrite L in P. destruct P as (q & P). apply H. rewrite sort_of_nth in P. destruct (nth_error (inodes w) d) as [[]|]; try discriminate; reflexivity.
    - destruct (nth_error (inodes w) i) as [[]|]; try (exfalso; apply H; reflexivity). cbn [open_file]. eauto. }
  destruct X as (w1 & fd & CR). rewrite CR. destruct (create_stored w p w1 fd w1 [] WF CR) as (i & F & I & _).
  rewrite cast_id. cbn [app step fails fine count]. rewrite Nat.min_r by lia. rewrite firstn_all. unfold os_write. rewrite F, I. rewrite skipn_all. cbn [step]. eauto.
Qed.
(** Every prefix can be all that a crashed Write has written. *)
Lemma Write_prefix w p x y : wf w -> (contents w p <> None \/ exists d c, locate w true p = inl (PAt d c None)) ->
  exists chs w' P, run w (Write p (x ++ y)) chs = (w', P) /\ contents w' p = Some x.
Proof.
  intros WF H.
  assert (X : exists w1 fd, os_Create w p = (w1, inl fd)).
  { destruct (Write_succeeds w p [] 0 0 0 WF H (le_n _)) as (w' & X). unfold Write in X. cbn [run step fails fine] in X.
    destruct (os_Create w p) as [w1 [fd|e]]; [eauto|discriminate]. }
  destruct X as (w1 & fd & CR). destruct x as [|b x].
  - destruct (create_stored w p w1 fd w1 [] WF CR) as (i & F & I & S).
    assert (S' : stored w w1 p i []) by (apply S; [symmetry; apply list_set_id; exact I|reflexivity]).
    exists [fine 0]. do 2 eexists. unfold Write. cbn [run step fails fine]. rewrite CR. split; [reflexivity|].
    unfold contents. rewrite (st_path _ _ _ _ _ S'). apply (st_bytes _ _ _ _ _ S').
  - remember (b :: x) as z eqn:EZ. assert (LZ : (0 < length z)%nat) by (subst z; cbn [length]; lia). clear EZ.
    destruct (create_stored w p w1 fd w1 [] WF CR) as (i & F & I & _).
    set (w2 := set_file (set_inode w1 i (IFile z)) fd (i, length z)).
    destruct (create_stored w p w1 fd w2 z WF CR) as (i' & F' & I' & S). assert (i' = i) by congruence. subst i'. specialize (S eq_refl eq_refl).
    assert (C : contents w2 p = Some z) by (unfold contents; rewrite (st_path _ _ _ _ _ S); apply (st_bytes _ _ _ _ _ S)).
    exists [fine 0; fine (length z)], w2. unfold Write. cbn [run step fails fine]. rewrite CR, cast_id. cbn [app step fails fine count].
    assert (M : Nat.min (length z) (length (z ++ y)) = length z) by (rewrite app_length; lia). rewrite M, firstn_app, firstn_all, Nat.sub_diag.
    cbn [firstn]. rewrite app_nil_r. unfold os_write. rewrite F, I. assert (WA := write_at_end [] z). cbn [length app] in WA. rewrite WA. cbn [Nat.add].
    fold w2. rewrite skipn_app, skipn_all, Nat.sub_diag. cbn [skipn app]. destruct (length z =? 0)%nat eqn:Z0; [apply Nat.eqb_eq in Z0; lia|].
    destruct y; eexists; (split; [reflexivity|exact C]).
Qed.
Lemma run_keeps {R} (w : world) (P : prog R) chs w' P' : wf w -> run w P chs = (w', P') -> wf w'.
Proof. intros WF H. assert (X := run_wf chs w P WF). rewrite H in X. exact X. Qed.
