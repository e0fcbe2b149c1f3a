(** FsProofs.v -- path resolution and the file functions. *)
From Verif Require Import Base BaseLemmas OsModel FsModel FsSpec.
Open Scope Z_scope.

Lemma beq_eq a : forall b, beq a b = true <-> a = b.
Proof.
  induction a as [|x a IH]; intros [|y b]; cbn [beq]; try (split; congruence).
  rewrite andb_true_iff, Z.eqb_eq, IH. split; [intros [-> ->]; reflexivity|intros E; injection E; auto].
Qed.
Lemma beq_refl a : beq a a = true.
Proof. apply beq_eq. reflexivity. Qed.
Lemma beq_sym a b : beq a b = beq b a.
Proof.
  destruct (beq a b) eqn:E, (beq b a) eqn:F; try reflexivity.
  - apply beq_eq in E. subst. rewrite beq_refl in F. discriminate.
  - apply beq_eq in F. subst. rewrite beq_refl in E. discriminate.
Qed.

(** *** Resolution in terms of the tree *)
Lemma walk_eq w follow links d cs : walk w follow links d cs =
  match sort_of w d with
  | Some (ADir parent) =>
      match cs with
      | [] => inl (PDir d)
      | c :: r =>
          if dot c then walk w follow links d r
          else if dotdot c then walk w follow links parent r
          else match entry w d c with
               | None => match r with [] => inl (PAt d c None) | _ => inr ENOENT end
               | Some i =>
                   match sort_of w i with
                   | Some (ALink t) =>
                       if match r with [] => negb follow | _ => false end then inl (PAt d c (Some i))
                       else match links with
                            | O => inr ELOOP
                            | S links' => walk w follow links' (if rooted t then 0%nat else d) (components t ++ r)
                            end
                   | _ => match r with [] => inl (PAt d c (Some i)) | _ => walk w follow links i r end
                   end
               end
      end
  | _ => inr ENOTDIR
  end.
Proof.
  unfold sort_of, entry. destruct links; destruct cs as [|c r]; cbn [walk]; destruct (nth_error (inodes w) d) as [[]|] eqn:D; try reflexivity;
    destruct (dot c) eqn:DO; try reflexivity; destruct (dotdot c) eqn:DD; try reflexivity;
    destruct (assoc c entries) as [i|]; try reflexivity; destruct (nth_error (inodes w) i) as [[]|]; reflexivity.
Qed.

(** Induction over a resolution: on the links left, then on the parts left. *)
Lemma walk_ind (P : nat -> nat -> list (list Z) -> Prop) :
  (forall links d cs,
     (forall d' r, (length r < length cs)%nat -> P links d' r) ->
     (forall links' d' cs', links = S links' -> P links' d' cs') -> P links d cs) ->
  forall links d cs, P links d cs.
Proof.
  intros H. induction links as [|links IHL]; intros d cs; revert d;
    induction cs as [cs IHC] using (induction_ltof1 _ (@length (list Z))); unfold ltof in IHC; intros d; apply H.
  - intros d' r L. apply IHC. exact L.
  - discriminate.
  - intros d' r L. apply IHC. exact L.
  - intros links' d' cs' E. injection E as <-. apply IHL.
Qed.

(** Same tree, same resolution. *)
Definition same_tree (w w' : world) : Prop :=
  cwd w' = cwd w /\ (forall i, sort_of w' i = sort_of w i) /\ (forall d c, entry w' d c = entry w d c).
Lemma walk_same w w' follow : same_tree w w' -> forall links d cs, walk w' follow links d cs = walk w follow links d cs.
Proof.
  intros (_ & S & E). apply (walk_ind (fun links d cs => walk w' follow links d cs = walk w follow links d cs)). intros links d cs H1 H2.
  rewrite (walk_eq w'), (walk_eq w), S. destruct (sort_of w d) as [[]|]; try reflexivity. destruct cs as [|c r]; [reflexivity|].
  rewrite !H1 by (cbn [length]; lia). destruct (dot c); [reflexivity|]. destruct (dotdot c); [reflexivity|].
  rewrite E. destruct (entry w d c) as [i|]; [|reflexivity]. rewrite S.
  destruct (sort_of w i) as [[]|]; try (rewrite H1 by (cbn [length]; lia)); try reflexivity.
  destruct links as [|links']; [reflexivity|]. destruct (match r with [] => _ | _ => _ end); [reflexivity|]. apply H2. reflexivity.
Qed.
Lemma locate_same w w' follow p : same_tree w w' -> locate w' follow p = locate w follow p.
Proof.
  intros H. unfold locate. destruct p as [|b p]; [reflexivity|]. destruct (H) as (C & _). rewrite C. apply walk_same. exact H.
Qed.

(** A new thing under a new name: [fresh] is a file or an empty directory. *)
Record grown (w w' : world) (d : nat) (c : list Z) (new : nat) (s : sort) : Prop := {
  gr_cwd : cwd w' = cwd w;
  gr_sort : forall i, sort_of w' i = if (i =? new)%nat then Some s else sort_of w i;
  gr_entry : forall d' c', entry w' d' c' = if (d' =? d)%nat && beq c' c then Some new else entry w d' c';
  gr_fresh : sort_of w new = None;
  gr_free : entry w d c = None;
  gr_kind : s = AFile \/ s = ADir d;
  gr_target : forall i e, entry w i e <> Some new;
  gr_parent : forall i, sort_of w i <> Some (ADir new) }.
Definition before_after (d : nat) (c : list Z) (new : nat) (s : sort) (r r' : place + errno) : Prop :=
  match r with
  | inl (PAt d' c' None) => r' = if (d' =? d)%nat && beq c' c then inl (PAt d c (Some new)) else r
  | inl _ => r' = r
  | inr e => match s with
             | ADir _ => r' = r \/ e = ENOENT
             | _ => exists e', r' = inr e' /\ (e' = e \/ e = ENOENT)
             end
  end.
Lemma ba_refl d c new s r : (forall d' c', r = inl (PAt d' c' None) -> (d' =? d)%nat && beq c' c = false) -> before_after d c new s r r.
Proof.
  intros H. destruct r as [[d'|d' c' [i|]]|e]; cbn; auto.
  - rewrite (H _ _ eq_refl). reflexivity.
  - destruct s; eauto.
Qed.
Lemma walk_grown w w' d c new s follow : grown w w' d c new s -> (exists p, sort_of w 0 = Some (ADir p)) -> forall links d0 cs, d0 <> new ->
  before_after d c new s (walk w follow links d0 cs) (walk w' follow links d0 cs).
Proof.
  intros G RT. assert (N0 : 0%nat <> new). { intros <-. destruct RT as (p & RT). rewrite (gr_fresh _ _ _ _ _ _ G) in RT. discriminate. }
  apply (walk_ind (fun links d0 cs => d0 <> new -> before_after d c new s (walk w follow links d0 cs) (walk w' follow links d0 cs))).
  intros links d0 cs H1 H2 ND. rewrite (walk_eq w'), (walk_eq w). rewrite (gr_sort _ _ _ _ _ _ G).
  apply Nat.eqb_neq in ND. rewrite ND. apply Nat.eqb_neq in ND.
  destruct (sort_of w d0) as [[|p|t]|] eqn:SD; try (apply ba_refl; discriminate).
  destruct cs as [|c0 r]; [apply ba_refl; discriminate|].
  destruct (dot c0); [apply H1; [cbn [length]; lia|exact ND]|].
  destruct (dotdot c0). { apply H1; [cbn [length]; lia|]. intros ->. exact (gr_parent _ _ _ _ _ _ G _ SD). }
  rewrite (gr_entry _ _ _ _ _ _ G). destruct ((d0 =? d)%nat && beq c0 c) eqn:HERE.
  - assert (HR := HERE). apply andb_prop in HERE. destruct HERE as [E1 E2]. apply Nat.eqb_eq in E1. apply beq_eq in E2. subst d0 c0.
    rewrite (gr_free _ _ _ _ _ _ G). rewrite (gr_sort _ _ _ _ _ _ G), Nat.eqb_refl.
    destruct r as [|c1 r].
    + destruct (gr_kind _ _ _ _ _ _ G) as [-> | ->]; cbn [before_after]; rewrite HR; reflexivity.
    + destruct (gr_kind _ _ _ _ _ _ G) as [-> | ->]; cbn [before_after]; [|right; reflexivity].
      rewrite walk_eq, (gr_sort _ _ _ _ _ _ G), Nat.eqb_refl. eauto.
  - destruct (entry w d0 c0) as [i|] eqn:EN.
    + assert (NI : i <> new). { intros ->. exact (gr_target _ _ _ _ _ _ G _ _ EN). } rewrite (gr_sort _ _ _ _ _ _ G). apply Nat.eqb_neq in NI. rewrite NI. apply Nat.eqb_neq in NI.
      assert (X : before_after d c new s (match r with [] => inl (PAt d0 c0 (Some i)) | _ => walk w follow links i r end)
                                         (match r with [] => inl (PAt d0 c0 (Some i)) | _ => walk w' follow links i r end)).
      { destruct r; [apply ba_refl; discriminate|]. apply H1; [cbn [length]; lia|exact NI]. }
      destruct (sort_of w i) as [[|q|t]|]; try exact X.
      destruct (match r with [] => negb follow | _ => false end); [apply ba_refl; discriminate|].
      destruct links as [|links']; [apply ba_refl; discriminate|]. apply H2; [reflexivity|]. destruct (rooted t); assumption.
    + apply ba_refl. intros d' c' E. destruct r; [|discriminate]. injection E as <- <-. exact HERE.
Qed.
Lemma locate_grown w w' d c new s follow p : wf w -> grown w w' d c new s ->
  before_after d c new s (locate w follow p) (locate w' follow p).
Proof.
  intros WF G. unfold locate. destruct p as [|b p]; [apply ba_refl; discriminate|]. rewrite (gr_cwd _ _ _ _ _ _ G).
  apply walk_grown; [exact G|exists 0%nat; apply WF|]. assert (F := gr_fresh _ _ _ _ _ _ G).
  destruct (rooted (b :: p)); intros E; rewrite <- E in F.
  - rewrite (wf_root w WF) in F. discriminate.
  - destruct (wf_cwd w WF) as (q & C). congruence.
Qed.

(** *** What a resolution finds *)
Lemma components_noslash p : forall c, In c (components p) -> ~ In 47 c.
Proof.
  induction p as [|b p IH]; cbn [components]; intros c H; [destruct H as [<-|[]]; auto|].
  destruct (components p) as [|c0 cs]; [destruct H|]. destruct (b =? 47) eqn:B.
  - destruct H as [<-|H]; [auto|]. apply IH. exact H.
  - apply Z.eqb_neq in B. destruct H as [<-|H]; [|apply IH; right; exact H]. intros [E|E]; [congruence|]. eapply IH; [left; reflexivity|exact E].
Qed.
Lemma walk_place w follow : forall links d0 cs, (forall c, In c cs -> ~ In 47 c) ->
  match walk w follow links d0 cs with
  | inl (PDir d) => exists p, sort_of w d = Some (ADir p)
  | inl (PAt d c o) => (exists p, sort_of w d = Some (ADir p)) /\ entry w d c = o /\ good_name c /\
      (follow = true -> forall i t, o = Some i -> sort_of w i <> Some (ALink t))
  | inr _ => True
  end.
Proof.
  apply (walk_ind (fun links d0 cs => (forall c, In c cs -> ~ In 47 c) -> match walk w follow links d0 cs with
    | inl (PDir d) => exists p, sort_of w d = Some (ADir p)
    | inl (PAt d c o) => (exists p, sort_of w d = Some (ADir p)) /\ entry w d c = o /\ good_name c /\
        (follow = true -> forall i t, o = Some i -> sort_of w i <> Some (ALink t))
    | inr _ => True end)).
  intros links d0 cs H1 H2 NS. rewrite walk_eq. destruct (sort_of w d0) as [[|p|t]|] eqn:SD; try exact I.
  destruct cs as [|c r]; [exists p; exact SD|].
  assert (NR : forall c, In c r -> ~ In 47 c) by (intros; apply NS; right; assumption).
  destruct (dot c) eqn:D1; [apply H1; [cbn [length]; lia|exact NR]|].
  destruct (dotdot c) eqn:D2; [apply H1; [cbn [length]; lia|exact NR]|].
  assert (GN : good_name c) by (split; [exact D1|split; [exact D2|apply NS; left; reflexivity]]).
  destruct (entry w d0 c) as [i|] eqn:EN.
  - assert (X : (follow = true -> forall t, sort_of w i <> Some (ALink t)) ->
      match (match r with [] => inl (PAt d0 c (Some i)) | _ => walk w follow links i r end) with
      | inl (PDir d) => exists p, sort_of w d = Some (ADir p)
      | inl (PAt d c o) => (exists p, sort_of w d = Some (ADir p)) /\ entry w d c = o /\ good_name c /\
        (follow = true -> forall i t, o = Some i -> sort_of w i <> Some (ALink t))
      | inr _ => True end).
    { intros NL. destruct r; [|apply H1; [cbn [length]; lia|exact NR]]. repeat (split; [eauto|]). intros F j t E. injection E as <-. apply NL. exact F. }
    destruct (sort_of w i) as [[|q|t]|] eqn:SI; try (apply X; congruence).
    destruct (match r with [] => negb follow | _ => false end) eqn:LAST.
    + destruct r; [|discriminate]. repeat (split; [eauto|]). intros F. rewrite F in LAST. discriminate.
    + destruct links as [|links']; [exact I|]. apply H2; [reflexivity|]. intros c' IC. apply in_app_or in IC. destruct IC as [IC|IC]; [|auto].
      eapply components_noslash. exact IC.
  - destruct r; [|exact I]. repeat (split; [eauto|]). discriminate.
Qed.
Lemma locate_place w follow p : match locate w follow p with
  | inl (PDir d) => exists p, sort_of w d = Some (ADir p)
  | inl (PAt d c o) => (exists p, sort_of w d = Some (ADir p)) /\ entry w d c = o /\ good_name c /\
      (follow = true -> forall i t, o = Some i -> sort_of w i <> Some (ALink t))
  | inr _ => True
  end.
Proof. unfold locate. destruct p as [|b p]; [exact I|]. apply walk_place. intros c. apply components_noslash. Qed.

(** *** Effects on the tree *)
Definition sort_i (x : inode) : sort := match x with IFile _ => AFile | IDir p _ => ADir p | ISymlink t => ALink t end.
Definition entry_i (x : inode) (c : list Z) : option nat := match x with IDir _ es => assoc c es | _ => None end.
Definition bytes_i (x : inode) : option (list Z) := match x with IFile d => Some d | _ => None end.
Definition entries_i (x : inode) : list (list Z * nat) := match x with IDir _ es => es | _ => [] end.
Lemma sort_of_nth w i : sort_of w i = match nth_error (inodes w) i with Some x => Some (sort_i x) | None => None end.
Proof. unfold sort_of. destruct (nth_error (inodes w) i) as [[]|]; reflexivity. Qed.
Lemma entry_nth w i c : entry w i c = match nth_error (inodes w) i with Some x => entry_i x c | None => None end.
Proof. unfold entry. destruct (nth_error (inodes w) i) as [[]|]; reflexivity. Qed.
Lemma bytes_nth w i : bytes w i = match nth_error (inodes w) i with Some x => bytes_i x | None => None end.
Proof. unfold bytes. destruct (nth_error (inodes w) i) as [[]|]; reflexivity. Qed.
Lemma entries_nth w i : entries w i = match nth_error (inodes w) i with Some x => entries_i x | None => [] end.
Proof. unfold entries. destruct (nth_error (inodes w) i) as [[]|]; reflexivity. Qed.
Lemma nth_list_set {A} (l : list A) i x j : (i < length l)%nat -> nth_error (list_set l i x) j = if (j =? i)%nat then Some x else nth_error l j.
Proof.
  intros L. destruct (j =? i)%nat eqn:E.
  - apply Nat.eqb_eq in E. subst. revert i L. induction l as [|y l IH]; intros [|i] L; cbn [length] in L; try lia; cbn [list_set nth_error]; auto. apply IH. lia.
  - apply Nat.eqb_neq in E. revert i j L E. induction l as [|y l IH]; intros [|i] [|j] L E; cbn [length] in L; try lia; cbn [list_set nth_error]; auto. apply IH; lia.
Qed.
Lemma list_set_len {A} (l : list A) i x : length (list_set l i x) = length l.
Proof. revert i. induction l as [|y l IH]; intros [|i]; cbn [list_set length]; auto. Qed.
Lemma nth_lt {A} (l : list A) i x : nth_error l i = Some x -> (i < length l)%nat.
Proof. intros H. apply nth_error_Some. congruence. Qed.
Lemma sort_lt w i s : sort_of w i = Some s -> (i < length (inodes w))%nat.
Proof. rewrite sort_of_nth. destruct (nth_error (inodes w) i) eqn:E; [|discriminate]. intros _. eapply nth_lt. exact E. Qed.
Lemma sort_nth w i s : sort_of w i = Some s -> exists x, nth_error (inodes w) i = Some x /\ sort_i x = s.
Proof. rewrite sort_of_nth. destruct (nth_error (inodes w) i) as [x|]; [|discriminate]. intros E. injection E as <-. eauto. Qed.
Lemma sort_dir w i p : sort_of w i = Some (ADir p) -> nth_error (inodes w) i = Some (IDir p (entries w i)).
Proof. intros H. destruct (sort_nth _ _ _ H) as (x & N & S). rewrite entries_nth, N. destruct x; try discriminate. injection S as ->. reflexivity. Qed.
Lemma entry_assoc w d c : entry w d c = assoc c (entries w d).
Proof. rewrite entry_nth, entries_nth. destruct (nth_error (inodes w) d) as [[]|]; reflexivity. Qed.

Lemma assoc_in c es i : assoc c es = Some i -> In (c, i) es.
Proof.
  induction es as [|[c' j] es IH]; cbn [assoc]; [discriminate|]. destruct (beq c' c) eqn:E; [|right; auto].
  apply beq_eq in E. intros H. injection H as ->. subst. left. reflexivity.
Qed.
Lemma assoc_none c es : assoc c es = None <-> ~ In c (map fst es).
Proof.
  induction es as [|[c' j] es IH]; cbn [assoc map fst]; [split; auto|]. destruct (beq c' c) eqn:E.
  - apply beq_eq in E. split; [discriminate|]. intros H. exfalso. apply H. left. exact E.
  - rewrite IH. split; intros H.
    + intros [B|B]; [|auto]. subst. rewrite beq_refl in E. discriminate.
    + intros B. apply H. right. exact B.
Qed.
Lemma in_assoc c es i : NoDup (map fst es) -> In (c, i) es -> assoc c es = Some i.
Proof.
  induction es as [|[c' j] es IH]; cbn [assoc map fst]; intros ND H; [destruct H|]. inversion ND as [|? ? NI ND']; subst.
  destruct H as [E|H]; [injection E as -> ->; rewrite beq_refl; reflexivity|]. destruct (beq c' c) eqn:E; [|auto].
  apply beq_eq in E. subst. exfalso. apply NI. apply (in_map fst) in H. exact H.
Qed.
Lemma assoc_app c a b : assoc c (a ++ b) = match assoc c a with Some i => Some i | None => assoc c b end.
Proof. induction a as [|[c' j] a IH]; cbn [app assoc]; [reflexivity|]. destruct (beq c' c); auto. Qed.
Lemma assoc_unlink c c' es : assoc c' (unlink_name c es) = if beq c' c then None else assoc c' es.
Proof.
  induction es as [|[x j] es IH]; [cbn; destruct (beq c' c); reflexivity|]. cbn [unlink_name filter fst]. fold (unlink_name c es).
  destruct (beq x c) eqn:E; cbn [negb assoc].
  - rewrite IH. apply beq_eq in E. subst x. rewrite (beq_sym c c'). destruct (beq c' c); reflexivity.
  - rewrite IH. destruct (beq x c') eqn:F; [|reflexivity]. apply beq_eq in F. subst x. rewrite E. reflexivity.
Qed.
Lemma assoc_link c c' i es : assoc c' (link_name c i es) = if beq c' c then Some i else assoc c' es.
Proof.
  unfold link_name. rewrite assoc_app, assoc_unlink. cbn [assoc]. rewrite (beq_sym c c'). destruct (beq c' c); [reflexivity|].
  destruct (assoc c' es); reflexivity.
Qed.
Lemma unlink_names c es : NoDup (map fst es) -> NoDup (map fst (unlink_name c es)).
Proof.
  induction es as [|[x j] es IH]; intros ND; [constructor|]. cbn [unlink_name filter fst]. fold (unlink_name c es).
  cbn [map fst] in ND. inversion ND as [|? ? NI ND']; subst. destruct (negb (beq x c)); [|auto]. cbn [map fst]. constructor; [|auto].
  intros H. apply NI. apply in_map_iff in H. destruct H as (e & E & H). apply filter_In in H. destruct H as [H _].
  apply in_map_iff. exists e. auto.
Qed.
Lemma unlink_in c es e : In e (unlink_name c es) <-> In e es /\ fst e <> c.
Proof.
  unfold unlink_name. rewrite filter_In. destruct (beq (fst e) c) eqn:E; cbn [negb].
  - apply beq_eq in E. split; [intros [_ B]; discriminate|intros [_ B]; contradiction].
  - split; intros [A B]; (split; [exact A|]); [|reflexivity]. intros F. rewrite F, beq_refl in E. discriminate.
Qed.
Lemma link_names c i es : NoDup (map fst es) -> NoDup (map fst (link_name c i es)).
Proof.
  intros ND. unfold link_name. rewrite map_app. apply NoDup_app_remove_l with (l := []) || idtac.
  assert (ND' := unlink_names c _ ND). revert ND'. assert (NI : ~ In c (map fst (unlink_name c es))).
  { intros H. apply in_map_iff in H. destruct H as (e & E & H). apply unlink_in in H. tauto. }
  revert NI. generalize (map fst (unlink_name c es)). cbn [map fst]. induction l as [|x l IH]; intros NI ND'; cbn [app]; [constructor; auto; constructor|].
  inversion ND' as [|? ? NX NL]; subst. constructor; [|apply IH; [intros B; apply NI; right; exact B|exact NL]].
  intros H. apply in_app_or in H. destruct H as [H|[H|[]]]; [auto|]. subst. apply NI. left. reflexivity.
Qed.

(** Changing the entries of a directory. *)
Lemma nth_change w d f p j : sort_of w d = Some (ADir p) ->
  nth_error (inodes (change_dir w d f)) j = if (j =? d)%nat then Some (IDir p (f (entries w d))) else nth_error (inodes w) j.
Proof.
  intros S. unfold change_dir. rewrite (sort_dir _ _ _ S). unfold set_inode. cbn [inodes]. apply nth_list_set. eapply sort_lt. exact S.
Qed.
Lemma len_change w d f : length (inodes (change_dir w d f)) = length (inodes w).
Proof. unfold change_dir. destruct (nth_error (inodes w) d) as [[]|]; try reflexivity. apply list_set_len. Qed.
Lemma cwd_change w d f : cwd (change_dir w d f) = cwd w.
Proof. unfold change_dir. destruct (nth_error (inodes w) d) as [[]|]; reflexivity. Qed.
Lemma files_change w d f : files (change_dir w d f) = files w.
Proof. unfold change_dir. destruct (nth_error (inodes w) d) as [[]|]; reflexivity. Qed.
Lemma sort_change w d f i : sort_of (change_dir w d f) i = sort_of w i.
Proof.
  unfold change_dir. destruct (nth_error (inodes w) d) as [[x|p es|t]|] eqn:N; try reflexivity.
  rewrite !sort_of_nth. unfold set_inode. cbn [inodes]. rewrite nth_list_set by (eapply nth_lt; exact N).
  destruct (i =? d)%nat eqn:E; [|reflexivity]. apply Nat.eqb_eq in E. subst. rewrite N. reflexivity.
Qed.
Lemma bytes_change w d f i : bytes (change_dir w d f) i = bytes w i.
Proof.
  unfold change_dir. destruct (nth_error (inodes w) d) as [[x|p es|t]|] eqn:N; try reflexivity.
  rewrite !bytes_nth. unfold set_inode. cbn [inodes]. rewrite nth_list_set by (eapply nth_lt; exact N).
  destruct (i =? d)%nat eqn:E; [|reflexivity]. apply Nat.eqb_eq in E. subst. rewrite N. reflexivity.
Qed.
Lemma entries_change w d f p i : sort_of w d = Some (ADir p) -> entries (change_dir w d f) i = if (i =? d)%nat then f (entries w d) else entries w i.
Proof.
  intros S. rewrite entries_nth, (nth_change _ _ _ _ _ S). destruct (i =? d)%nat; [reflexivity|]. rewrite entries_nth. reflexivity.
Qed.

(** *** The file system stays a file system *)
Lemma wf_fields w w' : wf w ->
  cwd w' = cwd w -> length (inodes w') = length (inodes w) ->
  (forall i, sort_of w' i = sort_of w i) ->
  (forall d, entries w' d = entries w d) ->
  (forall i off, In (i, off) (files w') -> (i < length (inodes w))%nat) -> wf w'.
Proof.
  intros WF C L S E F. constructor.
  - rewrite S. apply WF.
  - rewrite C, S. apply WF.
  - intros d p. rewrite S. intros H. destruct (wf_parent w WF _ _ H) as (q & Q). exists q. rewrite S. exact Q.
  - intros d. rewrite E. apply WF.
  - intros d c i. rewrite E, L. apply WF.
  - intros i off. rewrite L. apply F.
Qed.
Lemma wf_change w d f p : wf w -> sort_of w d = Some (ADir p) ->
  NoDup (map fst (f (entries w d))) ->
  (forall c i, In (c, i) (f (entries w d)) -> good_name c /\ (0 < i < length (inodes w))%nat) -> wf (change_dir w d f).
Proof.
  intros WF S ND G. constructor.
  - rewrite sort_change. apply WF.
  - rewrite cwd_change, sort_change. apply WF.
  - intros i q. rewrite sort_change. intros H. destruct (wf_parent w WF _ _ H) as (r & Q). exists r. rewrite sort_change. exact Q.
  - intros i. rewrite (entries_change _ _ _ _ _ S). destruct (i =? d)%nat; [exact ND|apply WF].
  - intros i c j. rewrite (entries_change _ _ _ _ _ S), len_change. destruct (i =? d)%nat; [apply G|apply WF].
  - intros i off. rewrite files_change, len_change. apply WF.
Qed.
Lemma wf_unlink w d c p : wf w -> sort_of w d = Some (ADir p) -> wf (change_dir w d (unlink_name c)).
Proof.
  intros WF S. eapply wf_change; eauto.
  - apply unlink_names. apply WF.
  - intros c' i H. apply unlink_in in H. eapply (wf_entry w WF d). tauto.
Qed.
Lemma wf_link w d c i p : wf w -> sort_of w d = Some (ADir p) -> good_name c -> (0 < i < length (inodes w))%nat -> wf (change_dir w d (link_name c i)).
Proof.
  intros WF S GN L. eapply wf_change; eauto.
  - apply link_names. apply WF.
  - intros c' j H. apply in_app_or in H. destruct H as [H|[H|[]]].
    + apply unlink_in in H. eapply (wf_entry w WF d). tauto.
    + injection H as <- <-. auto.
Qed.
Lemma sort_new w x i : sort_of (fst (new_inode w x)) i = if (i =? length (inodes w))%nat then Some (sort_i x) else sort_of w i.
Proof.
  rewrite !sort_of_nth. unfold new_inode. cbn [fst inodes]. destruct (Nat.lt_trichotomy i (length (inodes w))) as [L|[L|L]].
  - rewrite nth_error_app1 by exact L. assert (E : (i =? length (inodes w))%nat = false) by (apply Nat.eqb_neq; lia). rewrite E. reflexivity.
  - subst. rewrite nth_error_app2 by lia. rewrite Nat.sub_diag, Nat.eqb_refl. reflexivity.
  - assert (E : (i =? length (inodes w))%nat = false) by (apply Nat.eqb_neq; lia). rewrite E.
    assert (N1 : nth_error (inodes w ++ [x]) i = None) by (apply nth_error_None; rewrite app_length; cbn [length]; lia).
    assert (N2 : nth_error (inodes w) i = None) by (apply nth_error_None; lia). rewrite N1, N2. reflexivity.
Qed.
Lemma nth_new w x i : nth_error (inodes (fst (new_inode w x))) i = if (i =? length (inodes w))%nat then Some x else nth_error (inodes w) i.
Proof.
  unfold new_inode. cbn [fst inodes]. destruct (Nat.lt_trichotomy i (length (inodes w))) as [L|[L|L]].
  - rewrite nth_error_app1 by exact L. assert (E : (i =? length (inodes w))%nat = false) by (apply Nat.eqb_neq; lia). rewrite E. reflexivity.
  - subst. rewrite nth_error_app2 by lia. rewrite Nat.sub_diag, Nat.eqb_refl. reflexivity.
  - assert (E : (i =? length (inodes w))%nat = false) by (apply Nat.eqb_neq; lia). rewrite E.
    assert (N1 : nth_error (inodes w ++ [x]) i = None) by (apply nth_error_None; rewrite app_length; cbn [length]; lia).
    assert (N2 : nth_error (inodes w) i = None) by (apply nth_error_None; lia). rewrite N1, N2. reflexivity.
Qed.
Lemma wf_new w x : wf w -> (forall q, sort_i x = ADir q -> exists r, sort_of w q = Some (ADir r)) -> entries_i x = [] -> wf (fst (new_inode w x)).
Proof.
  intros WF P E. assert (S : forall i s, sort_of w i = Some s -> sort_of (fst (new_inode w x)) i = Some s).
  { intros i s H. rewrite sort_new. assert (L := sort_lt _ _ _ H). assert (N : (i =? length (inodes w))%nat = false) by (apply Nat.eqb_neq; lia). rewrite N. exact H. }
  assert (EN : forall d, entries (fst (new_inode w x)) d = entries w d).
  { intros d. rewrite !entries_nth, nth_new. destruct (d =? length (inodes w))%nat eqn:D; [|reflexivity]. rewrite E. apply Nat.eqb_eq in D. subst.
    assert (N : nth_error (inodes w) (length (inodes w)) = None) by (apply nth_error_None; lia). rewrite N. reflexivity. }
  assert (LN : length (inodes (fst (new_inode w x))) = Datatypes.S (length (inodes w))) by (cbn [new_inode fst inodes]; rewrite app_length; cbn [length]; lia).
  constructor.
  - apply S. apply WF.
  - destruct (wf_cwd w WF) as (p & C). exists p. apply S. exact C.
  - intros d p. rewrite sort_new. destruct (d =? length (inodes w))%nat.
    + intros H. injection H as H. destruct (P _ H) as (r & R). exists r. apply S. exact R.
    + intros H. destruct (wf_parent w WF _ _ H) as (q & Q). exists q. apply S. exact Q.
  - intros d. rewrite EN. apply WF.
  - intros d c i. rewrite EN, LN. intros H. destruct (wf_entry w WF _ _ _ H). split; [assumption|lia].
  - intros i off H. rewrite LN. assert (X := wf_files w WF i off H). lia.
Qed.
Lemma same_set_file w i x data : nth_error (inodes w) i = Some (IFile data) -> bytes_i x <> None ->
  same_tree w (set_inode w i x) /\ (forall d, entries (set_inode w i x) d = entries w d).
Proof.
  intros N B. assert (L := nth_lt _ _ _ N). destruct x as [data'| |]; try (exfalso; apply B; reflexivity).
  split; [split; [reflexivity|split]|]; [intros j|intros j c|intros j]; rewrite ?sort_of_nth, ?entry_nth, ?entries_nth;
    unfold set_inode; cbn [inodes]; rewrite (nth_list_set _ _ _ _ L); destruct (j =? i)%nat eqn:E; try reflexivity;
    apply Nat.eqb_eq in E; subst; rewrite N; reflexivity.
Qed.
Lemma bytes_set w i data data' j : nth_error (inodes w) i = Some (IFile data) ->
  bytes (set_inode w i (IFile data')) j = if (j =? i)%nat then Some data' else bytes w j.
Proof.
  intros N. rewrite !bytes_nth. unfold set_inode. cbn [inodes]. rewrite nth_list_set by (eapply nth_lt; exact N). destruct (j =? i)%nat; reflexivity.
Qed.

(** Putting a new thing under a free name. *)
Definition plant (w : world) (x : inode) (d : nat) (c : list Z) : world :=
  change_dir (fst (new_inode w x)) d (link_name c (length (inodes w))).
Lemma new_old w (x : inode) i : (i < length (inodes w))%nat -> (i =? length (inodes w))%nat = false.
Proof. intros L. apply Nat.eqb_neq. lia. Qed.
Lemma plant_wf w x d c p : wf w -> sort_of w d = Some (ADir p) -> good_name c -> x = IFile [] \/ x = IDir d [] -> wf (plant w x d c).
Proof.
  intros WF S GN X. assert (L := sort_lt _ _ _ S). assert (W1 : wf (fst (new_inode w x))).
  { apply wf_new; [exact WF| |destruct X as [-> | ->]; reflexivity]. intros q E. destruct X as [-> | ->]; [discriminate|]. injection E as <-. eauto. }
  apply (wf_link _ _ _ _ p); [exact W1|rewrite sort_new, (new_old w x _ L); exact S|exact GN|].
  cbn [new_inode fst inodes]. rewrite app_length. cbn [length]. lia.
Qed.
Lemma plant_grown w x d c p : wf w -> sort_of w d = Some (ADir p) -> entry w d c = None -> x = IFile [] \/ x = IDir d [] ->
  grown w (plant w x d c) d c (length (inodes w)) (sort_i x).
Proof.
  intros WF S EN X. assert (L := sort_lt _ _ _ S). assert (S1 : sort_of (fst (new_inode w x)) d = Some (ADir p)) by (rewrite sort_new, (new_old w x _ L); exact S).
  constructor.
  - unfold plant. rewrite cwd_change. reflexivity.
  - intros i. unfold plant. rewrite sort_change. apply sort_new.
  - intros d' c'. unfold plant. rewrite entry_assoc, (entries_change _ _ _ _ _ S1). destruct (d' =? d)%nat eqn:D; cbn [andb].
    + rewrite assoc_link. apply Nat.eqb_eq in D. subst d'. destruct (beq c' c); [reflexivity|].
      rewrite <- entry_assoc, !entry_nth, nth_new, (new_old w x _ L). reflexivity.
    + rewrite <- entry_assoc, !entry_nth, nth_new. destruct (d' =? length (inodes w))%nat eqn:N; [|reflexivity].
      apply Nat.eqb_eq in N. subst d'. assert (M : nth_error (inodes w) (length (inodes w)) = None) by (apply nth_error_None; lia). rewrite M.
      destruct X as [-> | ->]; reflexivity.
  - rewrite sort_of_nth. assert (M : nth_error (inodes w) (length (inodes w)) = None) by (apply nth_error_None; lia). rewrite M. reflexivity.
  - exact EN.
  - destruct X as [-> | ->]; [left|right]; reflexivity.
  - intros i e H. rewrite entry_assoc in H. apply assoc_in in H. apply (wf_entry w WF) in H. lia.
  - intros i H. destruct (wf_parent w WF _ _ H) as (q & Q). apply sort_lt in Q. lia.
Qed.
Lemma plant_bytes w x d c j p : sort_of w d = Some (ADir p) -> bytes (plant w x d c) j = if (j =? length (inodes w))%nat then bytes_i x else bytes w j.
Proof.
  intros S. unfold plant. rewrite bytes_change, !bytes_nth, nth_new. destruct (j =? length (inodes w))%nat; reflexivity.
Qed.

Lemma wf_open w i : wf w -> (i < length (inodes w))%nat -> wf (fst (open_file w i)).
Proof.
  intros WF L. apply (wf_fields w); auto. intros j off H. apply in_app_or in H. destruct H as [H|[H|[]]]; [eapply wf_files; eauto|].
  injection H as <- <-. exact L.
Qed.
Lemma wf_set_file_data w i data data' : wf w -> nth_error (inodes w) i = Some (IFile data) -> wf (set_inode w i (IFile data')).
Proof.
  intros WF N. destruct (same_set_file w i (IFile data') data N) as ((C & S & _) & E); [discriminate|].
  apply (wf_fields w); auto; [apply list_set_len|]. intros j off. apply WF.
Qed.
Lemma in_list_set {A} (l : list A) i x y : In y (list_set l i x) -> y = x \/ In y l.
Proof.
  revert i. induction l as [|z l IH]; intros [|i] H; cbn [list_set] in H; auto.
  - destruct H as [<-|H]; [left; reflexivity|right; right; exact H].
  - destruct H as [<-|H]; [right; left; reflexivity|]. destruct (IH _ H); [auto|right; right; assumption].
Qed.
Lemma wf_set_offset w fd i off n : wf w -> nth_error (files w) fd = Some (i, off) -> wf (set_file w fd (i, n)).
Proof.
  intros WF N. apply nth_error_In in N. apply (wf_fields w); auto. cbn [set_file files]. intros j off' H. apply in_list_set in H.
  destruct H as [H|H]; [|eapply wf_files; eauto]. injection H as <- <-. eapply wf_files; eauto.
Qed.
Lemma entry_lt w d c i : wf w -> entry w d c = Some i -> (0 < i < length (inodes w))%nat.
Proof. intros WF H. rewrite entry_assoc in H. apply assoc_in in H. apply (wf_entry w WF) in H. tauto. Qed.

Lemma mkdir_wf w p : wf w -> wf (fst (os_Mkdir w p)).
Proof.
  intros WF. unfold os_Mkdir. assert (P := locate_place w false (strip p)). destruct (locate w false (strip p)) as [[d|d c [i|]]|e]; try exact WF.
  destruct P as ((q & S) & EN & GN & _). apply (plant_wf w (IDir d []) d c q); auto.
Qed.
Lemma remove_wf w p : wf w -> wf (fst (os_Remove w p)).
Proof.
  intros WF. unfold os_Remove. assert (P := locate_place w false (strip p)). destruct (locate w false (strip p)) as [[d|d c [i|]]|e]; try exact WF.
  destruct P as ((q & S) & EN & GN & _).
  destruct (nth_error (inodes w) i) as [[x|q' [|e es]|t]|]; try exact WF; try (eapply wf_unlink; eauto); destruct (slash_at_end p); try exact WF; eapply wf_unlink; eauto.
Qed.
Lemma create_wf w p : wf w -> wf (fst (os_Create w p)).
Proof.
  intros WF. unfold os_Create. assert (P := locate_place w true p). destruct (locate w true p) as [[d|d c [i|]]|e]; try exact WF.
  - destruct (nth_error (inodes w) i) as [[x| |]|] eqn:N; try exact WF. apply wf_open; [eapply wf_set_file_data; eauto|].
    cbn [set_inode inodes]. rewrite list_set_len. eapply nth_lt. exact N.
  - destruct P as ((q & S) & EN & GN & _). apply wf_open; [apply (plant_wf w (IFile []) d c q); auto|].
    unfold new_inode. rewrite len_change. cbn [inodes]. rewrite app_length. cbn [length]. lia.
Qed.
Lemma open_wf w p : wf w -> wf (fst (os_Open w p)).
Proof.
  intros WF. unfold os_Open. assert (P := locate_place w true p). destruct (locate w true p) as [[d|d c [i|]]|e]; try exact WF.
  - apply wf_open; [exact WF|]. destruct P as (q & S). eapply sort_lt. exact S.
  - apply wf_open; [exact WF|]. destruct P as (_ & EN & _). eapply entry_lt; eauto.
Qed.
Lemma write_wf w fd bs : wf w -> wf (fst (os_write w fd bs)).
Proof.
  intros WF. unfold os_write. destruct (nth_error (files w) fd) as [[i off]|] eqn:F; [|exact WF].
  destruct (nth_error (inodes w) i) as [[x| |]|] eqn:N; try exact WF. eapply wf_set_offset; [eapply wf_set_file_data; eauto|exact F].
Qed.
Lemma read_wf w fd n : wf w -> wf (fst (os_read w fd n)).
Proof.
  intros WF. unfold os_read. destruct (nth_error (files w) fd) as [[i off]|] eqn:F; [|exact WF].
  destruct (nth_error (inodes w) i) as [[x| |]|] eqn:N; try exact WF. eapply wf_set_offset; [exact WF|exact F].
Qed.
Lemma link_wf w p q : wf w -> wf (fst (os_Link w p q)).
Proof.
  intros WF. unfold os_Link. assert (P := locate_place w false p). destruct (locate w false p) as [[d|d c [i|]]|e]; try exact WF.
  destruct P as (_ & EN & _). assert (L := entry_lt _ _ _ _ WF EN).
  assert (Q := locate_place w false q). destruct (nth_error (inodes w) i) as [[| |]|]; try exact WF;
    destruct (locate w false q) as [[d'|d' c' [i'|]]|e]; try exact WF; destruct Q as ((r & S) & _ & GN & _); eapply wf_link; eauto.
Qed.
Lemma wf_set_parent w i d p : wf w -> i <> 0%nat -> sort_of w d = Some (ADir p) -> wf (set_parent w i d).
Proof.
  intros WF N0 S. unfold set_parent. destruct (nth_error (inodes w) i) as [[x|q es|t]|] eqn:N; try exact WF.
  assert (L := nth_lt _ _ _ N). set (w' := set_inode w i (IDir d es)).
  assert (SO : forall j, sort_of w' j = if (j =? i)%nat then Some (ADir d) else sort_of w j).
  { intros j. rewrite !sort_of_nth. cbn [w' set_inode inodes]. rewrite (nth_list_set _ _ _ _ L). destruct (j =? i)%nat; reflexivity. }
  assert (EN : forall j, entries w' j = entries w j).
  { intros j. rewrite !entries_nth. cbn [w' set_inode inodes]. rewrite (nth_list_set _ _ _ _ L). destruct (j =? i)%nat eqn:E; [|reflexivity].
    apply Nat.eqb_eq in E. subst. rewrite N. reflexivity. }
  assert (DIR : forall j q', sort_of w j = Some (ADir q') -> exists q'', sort_of w' j = Some (ADir q'')).
  { intros j q' H. rewrite SO. destruct (j =? i)%nat; eauto. }
  assert (LN : length (inodes w') = length (inodes w)) by apply list_set_len.
  constructor.
  - rewrite SO. assert (E : (0 =? i)%nat = false) by (apply Nat.eqb_neq; lia). rewrite E. apply WF.
  - destruct (wf_cwd w WF) as (r & C). eapply DIR. exact C.
  - intros j q'. rewrite SO. destruct (j =? i)%nat.
    + intros E. injection E as <-. eapply DIR. exact S.
    + intros E. destruct (wf_parent w WF _ _ E) as (r & R). eapply DIR. exact R.
  - intros j. rewrite EN. apply WF.
  - intros j c k. rewrite EN, LN. apply WF.
  - intros j off. rewrite LN. apply WF.
Qed.
Lemma sort_set_parent w i d j : sort_of (set_parent w i d) j = if (j =? i)%nat && is_dir w i then Some (ADir d) else sort_of w j.
Proof.
  unfold set_parent, is_dir. destruct (nth_error (inodes w) i) as [[x|q es|t]|] eqn:N; rewrite ?andb_false_r; try reflexivity.
  rewrite andb_true_r, !sort_of_nth. cbn [set_inode inodes]. rewrite (nth_list_set _ _ _ _ (nth_lt _ _ _ N)). destruct (j =? i)%nat; reflexivity.
Qed.
Lemma entries_set_parent w i d j : entries (set_parent w i d) j = entries w j.
Proof.
  unfold set_parent. destruct (nth_error (inodes w) i) as [[x|q es|t]|] eqn:N; try reflexivity.
  rewrite !entries_nth. cbn [set_inode inodes]. rewrite (nth_list_set _ _ _ _ (nth_lt _ _ _ N)). destruct (j =? i)%nat eqn:E; [|reflexivity].
  apply Nat.eqb_eq in E. subst. rewrite N. reflexivity.
Qed.
Lemma bytes_set_parent w i d j : bytes (set_parent w i d) j = bytes w j.
Proof.
  unfold set_parent. destruct (nth_error (inodes w) i) as [[x|q es|t]|] eqn:N; try reflexivity.
  rewrite !bytes_nth. cbn [set_inode inodes]. rewrite (nth_list_set _ _ _ _ (nth_lt _ _ _ N)). destruct (j =? i)%nat eqn:E; [|reflexivity].
  apply Nat.eqb_eq in E. subst. rewrite N. reflexivity.
Qed.
Lemma sys_rename_wf w p q : wf w -> wf (fst (sys_rename w p q)).
Proof.
  intros WF. unfold sys_rename. assert (P := locate_place w false (strip p)). assert (Q := locate_place w false (strip q)).
  destruct (locate w false (strip p)) as [[d|d c [i|]]|e]; try exact WF.
  destruct (locate w false (strip q)) as [[d'|d' c' t]|e]; try exact WF.
  destruct P as ((r1 & S1) & EN1 & GN1 & _). destruct Q as ((r2 & S2) & EN2 & GN2 & _).
  destruct (negb (is_dir w i) && (slash_at_end p || slash_at_end q)); [exact WF|].
  destruct (match t with Some j => (j =? i)%nat | None => false end); [exact WF|].
  destruct (is_dir w i && beneath w (length (inodes w)) d' i); [exact WF|].
  destruct (match t with Some j => xorb (is_dir w i) (is_dir w j) | None => false end); [exact WF|].
  cbn [fst]. assert (L := entry_lt _ _ _ _ WF EN1).
  eapply wf_set_parent; [|lia|rewrite !sort_change; exact S2].
  eapply wf_link; [eapply wf_unlink; eauto|rewrite sort_change; exact S2|exact GN2|rewrite len_change; exact L].
Qed.
Lemma rename_wf w p q : wf w -> wf (fst (os_Rename w p q)).
Proof.
  intros WF. assert (S := sys_rename_wf w p q WF). unfold os_Rename.
  destruct (locate w false q) as [[d'|d' c' [j|]]|e]; try exact S.
  - destruct (is_dir w d'); [|exact S]. destruct (locate w false p) as [[d|d c [i|]]|e]; try exact WF; destruct (beq q p || negb _); try exact WF; exact S.
  - destruct (is_dir w j); [|exact S]. destruct (locate w false p) as [[d|d c [i|]]|e]; try exact WF; destruct (beq q p || negb _); try exact WF; exact S.
Qed.
Lemma step_wf {R} w (p : prog R) ch : wf w -> wf (fst (step w p ch)).
Proof.
  intros WF. assert (X : forall A (f : world * A) (k : A -> prog R), wf (fst f) -> wf (fst (let (w1, r) := f in (w1, k r)))) by (intros A [w1 r] k H; exact H).
  destruct p; cbn [step]; try exact WF; try (destruct (fails ch); [exact WF|]); try exact WF.
  - apply X. apply mkdir_wf. exact WF.
  - apply X. apply remove_wf. exact WF.
  - apply X. apply create_wf. exact WF.
  - apply X. apply open_wf. exact WF.
  - assert (W := write_wf w fd (firstn (Nat.min (count ch) (length bs)) bs) WF). destruct (os_write w fd _) as [w1 [e|]]; [exact W|].
    destruct (skipn _ bs); [exact W|]. destruct (_ =? 0)%nat; exact W.
  - destruct (n =? 0)%nat; [exact WF|]. assert (W := read_wf w fd (Nat.min n (Nat.max 1 (count ch))) WF). destruct (os_read w fd _) as [w1 [[|b bs]|e]]; exact W.
  - apply X. apply rename_wf. exact WF.
  - apply X. apply link_wf. exact WF.
Qed.
Lemma run_wf {R} chs : forall w (p : prog R), wf w -> wf (fst (run w p chs)).
Proof.
  induction chs as [|ch chs IH]; intros w p WF; [exact WF|]. cbn [run]. assert (W := step_wf w p ch WF). destruct (step w p ch) as [w1 p1]. apply IH. exact W.
Qed.
