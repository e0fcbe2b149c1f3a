(** HashSetProofs.v -- proofs about HashSet and the iterators of both containers. *)
From Coq Require Import Permutation.
From Verif Require Import Base BaseLemmas Effect StringModel DequeSpec HashModel HashSpec HashHistory HashProofs.
Local Open Scope Z_scope.

Section Sets.
  Context {K : Type}.
  Variable keqb : K -> K -> bool.
  Variable HE : equivalence keqb.
  Implicit Types (s t : HashSet K) (p q : K -> Prop).
  Notation wf := (wf (V := unit) keqb).
  Notation Contains := (Contains keqb).

  Definition shows s p : Prop := wf s /\ forall x, Contains s x = true <-> p x.

  Lemma contains_keys s x : wf s -> (Contains s x = true <-> exists x', In x' (map fst s) /\ keqb x' x = true).
  Proof.
    intros Hw. unfold HashModel.Contains, ContainsKey. pose proof (proj2 (lookup_lists keqb HE s Hw) x tt) as H.
    split.
    - destruct (lookup keqb s x) as [[]|] eqn:E; [intros _|discriminate].
      destruct (proj1 H eq_refl) as (k & Hin & Hk). exists k. split; [apply in_map_iff; exists (k, tt); auto|exact Hk].
    - intros (x' & Hin & Hk). apply in_map_iff in Hin. destruct Hin as ([k []] & <- & Hin). cbn [fst] in Hk.
      rewrite (proj2 H); [reflexivity|]. exists k. auto.
  Qed.
  Lemma contains_same s x y : keqb x y = true -> Contains s x = Contains s y.
  Proof. intros H. unfold HashModel.Contains, ContainsKey. now rewrite (lookup_same keqb HE s x y H). Qed.
  Lemma elements_eq ord s : elements ord s = map fst (ord s).
  Proof. unfold elements, sIntoIter, cursor_of. cbn [vec]. now rewrite push_all. Qed.
  Lemma elements_in ord s x : fair ord -> (In x (elements ord s) <-> In x (map fst s)).
  Proof.
    intros Ho. rewrite elements_eq. split; intros H; (eapply Permutation_in; [|exact H]).
    - apply Permutation_map, Ho.
    - apply Permutation_map, Permutation_sym, Ho.
  Qed.
  Lemma elements_list ord s p : fair ord -> shows s p -> set_lists keqb p (map fst (ord s)).
  Proof.
    intros Ho [Hw Hp]. split.
    - eapply distinct_perm; [exact HE|apply Permutation_map, Permutation_sym, Ho|exact Hw].
    - intros x. rewrite <- Hp, (contains_keys s x Hw).
      pose proof (fun y => elements_in ord s y Ho) as HI. setoid_rewrite elements_eq in HI.
      split; intros (x' & Hin & Hk); exists x'; (split; [apply HI, Hin|exact Hk]).
  Qed.

  Lemma insert_wf s x : wf s -> wf (fst (sInsert keqb s x)).
  Proof. intros H. cbn [sInsert Insert fst]. now apply assign_wf. Qed.
  Lemma insert_contains s x y : Contains (fst (sInsert keqb s x)) y = keqb x y || Contains s y.
  Proof.
    cbn [sInsert Insert fst]. unfold HashModel.Contains, ContainsKey. rewrite (lookup_assign keqb HE). unfold with_.
    now destruct (keqb x y).
  Qed.
  Lemma insert_loop_spec f l : forall s, wf s -> wf (insert_loop keqb f l s) /\
    forall y, Contains (insert_loop keqb f l s) y = true <->
              Contains s y = true \/ exists x, In x l /\ f x = true /\ keqb x y = true.
  Proof.
    induction l as [|a r IH]; intros s Hw; unfold insert_loop; cbn [fold_left].
    - split; [exact Hw|]. intros y. split; [auto|]. intros [H|(x & [] & _)]. exact H.
    - fold (insert_loop keqb f r (if f a then fst (sInsert keqb s a) else s)).
      destruct (f a) eqn:E.
      + destruct (IH _ (insert_wf s a Hw)) as [H1 H2]. split; [exact H1|]. intros y. rewrite H2, insert_contains, orb_true_iff.
        split.
        * intros [[H|H]|(x & Hin & Hf & Hk)]; [right; exists a; split; [now left|auto]|auto|right; exists x; split; [now right|auto]].
        * intros [H|(x & [<-|Hin] & Hf & Hk)]; [auto|auto|right; exists x; auto].
      + destruct (IH _ Hw) as [H1 H2]. split; [exact H1|]. intros y. rewrite H2.
        split.
        * intros [H|(x & Hin & Hf & Hk)]; [auto|right; exists x; split; [now right|auto]].
        * intros [H|(x & [<-|Hin] & Hf & Hk)]; [auto|congruence|right; exists x; auto].
  Qed.
  Lemma empty_shows : shows HashSetNew (fun _ => False).
  Proof. split; [exact I|]. intros x. cbn. split; [discriminate|tauto]. Qed.
  Lemma forall_loop_spec (f : K -> bool) l : forall_loop f l = true <-> forall x, In x l -> f x = true.
  Proof.
    induction l as [|a r IH]; cbn [forall_loop].
    - split; [intros _ x []|reflexivity].
    - destruct (f a) eqn:E; cbn [negb].
      + rewrite IH. split; [intros H x [<-|Hin]; auto|intros H x Hin; apply H; now right].
      + split; [discriminate|]. intros H. rewrite (H a (or_introl eq_refl)) in E. discriminate.
  Qed.
  Lemma over_members ord s p (P : K -> Prop) : fair ord -> shows s p -> (forall x y, keqb x y = true -> P x -> P y) ->
    ((forall x, In x (elements ord s) -> P x) <-> forall x, p x -> P x).
  Proof.
    intros Ho [Hw Hp] HP. split.
    - intros H x Hx. apply Hp, (contains_keys s x Hw) in Hx. destruct Hx as (x' & Hin & Hk).
      apply (HP x' x Hk), H. now apply elements_in.
    - intros H x Hin. apply H, Hp, (contains_keys s x Hw). exists x. split; [now apply (elements_in ord)|now apply k_refl].
  Qed.
  Lemma some_member ord s p y (P : K -> Prop) : fair ord -> shows s p -> (forall x y, keqb x y = true -> (P x <-> P y)) ->
    ((exists x, In x (elements ord s) /\ P x /\ keqb x y = true) <-> p y /\ P y).
  Proof.
    intros Ho [Hw Hp] HP. rewrite <- Hp, (contains_keys s y Hw). split.
    - intros (x & Hin & HPx & Hk). split; [|now apply (HP x y Hk)]. exists x. split; [now apply (elements_in ord)|exact Hk].
    - intros [(x & Hin & Hk) HPy]. exists x. split; [now apply elements_in|]. split; [now apply (HP x y Hk)|exact Hk].
  Qed.

  Lemma subset_spec ord s t p q : fair ord -> shows s p -> shows t q ->
    (IsSubset keqb ord s t = true <-> forall x, p x -> q x).
  Proof.
    intros Ho Hs Ht. unfold IsSubset.
    assert (forall_loop (fun x => Contains t x) (elements ord s) = true <-> forall x, p x -> q x) as HL.
    { rewrite forall_loop_spec, (over_members ord s p (fun x => Contains t x = true) Ho Hs).
      - split; intros H x Hx; apply Ht, H, Hx.
      - intros x y Hk. now rewrite (contains_same t x y Hk). }
    destruct (sLen t <? sLen s) eqn:E; [|exact HL].
    split; [discriminate|]. intros H. apply Z.ltb_lt in E. unfold sLen, Len in E.
    destruct (domain_included keqb HE s t (proj1 Hs) (proj1 Ht)) as [L _].
    - intros k Hk. assert (Contains s k = true) as Hc by (apply contains_keys; [apply Hs|]; exists k; split; [exact Hk|now apply k_refl]).
      apply Hs, H, Ht in Hc. unfold HashModel.Contains, ContainsKey in Hc. destruct (lookup keqb t k); congruence.
    - exfalso. change (HashMap K unit) with (HashSet K) in *. lia.
  Qed.
  Lemma sEq_spec ord s t p q : fair ord -> shows s p -> shows t q ->
    (sEq keqb ord s t = true <-> forall x, p x <-> q x).
  Proof.
    intros Ho Hs Ht. unfold sEq.
    assert (forall_loop (fun x => Contains t x) (map fst (ord s)) = true <-> forall x, p x -> q x) as HL.
    { rewrite <- elements_eq, forall_loop_spec, (over_members ord s p (fun x => Contains t x = true) Ho Hs).
      - split; intros H x Hx; apply Ht, H, Hx.
      - intros x y Hk. now rewrite (contains_same t x y Hk). }
    assert (forall s t p q, shows s p -> shows t q -> (forall x, p x -> q x) -> (length s <= length t)%nat /\
              ((length t <= length s)%nat -> forall x, q x -> p x)) as HD.
    { clear s t p q Hs Ht HL. intros s t p q Hs Ht H. destruct (domain_included keqb HE s t (proj1 Hs) (proj1 Ht)) as [L1 L2].
      - intros k Hk. assert (Contains s k = true) as Hc by (apply contains_keys; [apply Hs|]; exists k; split; [exact Hk|now apply k_refl]).
        apply Hs, H, Ht in Hc. unfold HashModel.Contains, ContainsKey in Hc. destruct (lookup keqb t k); congruence.
      - split; [exact L1|]. intros HLe x Hx. apply Hs. apply Ht in Hx. specialize (L2 HLe x).
        unfold HashModel.Contains, ContainsKey in *. destruct (lookup keqb t x); [|discriminate].
        destruct (lookup keqb s x); [reflexivity|]. exfalso. apply L2; congruence. }
    destruct (Len s =? Len t) eqn:E; cbn [negb].
    - apply Z.eqb_eq in E. unfold Len in E. rewrite HL. split.
      + intros H x. split; [apply H|]. destruct (HD s t p q Hs Ht H) as [_ L]. apply L. lia.
      + intros H x. apply H.
    - split; [discriminate|]. intros H. apply Z.eqb_neq in E. unfold Len in E.
      destruct (HD s t p q Hs Ht (fun x => proj1 (H x))) as [L1 _]. destruct (HD t s q p Ht Hs (fun x => proj2 (H x))) as [L2 _]. lia.
  Qed.
  Lemma disjoint_spec ord s t p q : fair ord -> shows s p -> shows t q ->
    (IsDisjoint keqb ord s t = true <-> forall x, ~ (p x /\ q x)).
  Proof.
    intros Ho Hs Ht. unfold IsDisjoint. rewrite forall_loop_spec.
    rewrite (over_members ord s p (fun x => negb (Contains t x) = true) Ho Hs).
    - split.
      + intros H x [Hp Hq]. apply H in Hp. apply Ht in Hq. rewrite Hq in Hp. discriminate.
      + intros H x Hp. destruct (Contains t x) eqn:E; [|reflexivity]. exfalso. apply (H x). split; [exact Hp|now apply Ht].
    - intros x y Hk. now rewrite (contains_same t x y Hk).
  Qed.
  Lemma intersection_spec ord s t p q : fair ord -> shows s p -> shows t q ->
    shows (Intersection keqb ord s t) (fun x => p x /\ q x).
  Proof.
    intros Ho Hs Ht. destruct (insert_loop_spec (fun x => Contains t x) (elements ord s) HashSetNew I) as [H1 H2].
    split; [exact H1|]. intros y. unfold Intersection. rewrite H2.
    rewrite (some_member ord s p y (fun x => Contains t x = true) Ho Hs).
    - rewrite (proj2 Ht y). split; [intros [H|H]; [discriminate|exact H]|auto].
    - intros x z Hk. now rewrite (contains_same t x z Hk).
  Qed.
  Lemma union_spec ord1 ord2 s t p q : fair ord1 -> fair ord2 -> shows s p -> shows t q ->
    shows (Union keqb ord1 ord2 s t) (fun x => p x \/ q x).
  Proof.
    intros Ho1 Ho2 Hs Ht. unfold Union.
    destruct (insert_loop_spec (fun _ => true) (elements ord1 s) HashSetNew I) as [H1 H2].
    destruct (insert_loop_spec (fun _ => true) (elements ord2 t) _ H1) as [H3 H4].
    split; [exact H3|]. intros y. rewrite H4, H2.
    rewrite (some_member ord1 s p y (fun _ => true = true) Ho1 Hs), (some_member ord2 t q y (fun _ => true = true) Ho2 Ht) by (intros; tauto).
    split.
    - intros [[H|[H _]]|[H _]]; [discriminate|auto|auto].
    - intros [H|H]; auto.
  Qed.
  Lemma symmetric_spec ord1 ord2 s t p q : fair ord1 -> fair ord2 -> shows s p -> shows t q ->
    shows (SymmetricDifference keqb ord1 ord2 s t) (fun x => p x /\ ~ q x \/ q x /\ ~ p x).
  Proof.
    intros Ho1 Ho2 Hs Ht. unfold SymmetricDifference.
    destruct (insert_loop_spec (fun x => negb (Contains t x)) (elements ord1 s) HashSetNew I) as [H1 H2].
    destruct (insert_loop_spec (fun x => negb (Contains s x)) (elements ord2 t) _ H1) as [H3 H4].
    split; [exact H3|]. intros y. rewrite H4, H2.
    rewrite (some_member ord1 s p y (fun x => negb (Contains t x) = true) Ho1 Hs) by
      (intros x z Hk; now rewrite (contains_same t x z Hk)).
    rewrite (some_member ord2 t q y (fun x => negb (Contains s x) = true) Ho2 Ht) by
      (intros x z Hk; now rewrite (contains_same s x z Hk)).
    rewrite !negb_true_iff, <- !not_true_iff_false, (proj2 Hs y), (proj2 Ht y).
    change (Contains HashSetNew y) with false. split.
    - intros [[H|H]|H]; [discriminate|auto|auto].
    - intros [H|H]; auto.
  Qed.
  Lemma from_slice_spec xs : shows (HashSetFromSlice keqb xs) (fun y => exists x, In x xs /\ keqb x y = true).
  Proof.
    destruct (insert_loop_spec (fun _ => true) xs HashSetNew I) as [H1 H2]. split; [exact H1|].
    intros y. change (HashSetFromSlice keqb xs) with (insert_loop keqb (fun _ => true) xs HashSetNew). rewrite H2. split.
    - intros [H|(x & Hin & _ & Hk)]; [discriminate|eauto].
    - intros (x & Hin & Hk). right. eauto.
  Qed.
  Lemma sclone_loop_spec c es : forall s, sclone_loop keqb (Some c) es s = Ret (insert_loop keqb (fun _ => true) (map (fun e => c (fst e)) es) s).
  Proof.
    induction es as [|[k []] r IH]; intros s; cbn [sclone_loop of_option bind]; [reflexivity|].
    rewrite IH. reflexivity.
  Qed.
  Lemma sclone_spec ord c s p : fair ord -> shows s p -> (forall x, keqb (c x) x = true) ->
    exists s', sClone keqb ord (Some c) s = Ret s' /\ shows s' p.
  Proof.
    intros Ho Hs Hc. unfold sClone. rewrite sclone_loop_spec. eexists. split; [reflexivity|].
    destruct (insert_loop_spec (fun _ => true) (map (fun e : K * unit => c (fst e)) (ord s)) HashSetNew I) as [H1 H2].
    split; [exact H1|]. intros y. rewrite H2. rewrite <- (proj2 Hs y), (contains_keys s y (proj1 Hs)).
    pose proof (fun y => elements_in ord s y Ho) as HI. setoid_rewrite elements_eq in HI. split.
    - intros [H|(x & Hin & _ & Hk)]; [discriminate|]. apply in_map_iff in Hin. destruct Hin as (e & <- & Hin).
      exists (fst e). split; [apply HI, in_map, Hin|]. now rewrite <- (k_left keqb HE _ _ y (Hc (fst e))).
    - intros (x & Hin & Hk). right. apply HI in Hin. apply in_map_iff in Hin. destruct Hin as (e & <- & Hin).
      exists (c (fst e)). split; [apply in_map_iff; exists e; auto|]. split; [reflexivity|].
      now rewrite (k_left keqb HE _ _ y (Hc (fst e))).
  Qed.
  Lemma sclone_missing ord s : fair ord -> sClone keqb ord None s = match s with [] => Ret [] | _ => Panic end.
  Proof.
    intros Ho. unfold sClone. pose proof (Permutation_length (Ho s)) as HL.
    destruct s as [|e s]; destruct (ord _) as [|[a v] r]; cbn [length] in HL; try lia; reflexivity.
  Qed.
  Lemma insert_spec s p x : shows s p -> shows (fst (sInsert keqb s x)) (fun y => p y \/ keqb x y = true) /\
    (snd (sInsert keqb s x) = true <-> ~ p x).
  Proof.
    intros [Hw Hp]. split; [split; [now apply insert_wf|]|].
    - intros y. rewrite insert_contains, orb_true_iff, Hp. tauto.
    - rewrite <- Hp. cbn [sInsert Insert snd]. unfold HashModel.Contains, ContainsKey.
      destruct (lookup keqb s x); split; congruence.
  Qed.
  Lemma remove_spec s p x : shows s p -> shows (fst (sRemove keqb s x)) (fun y => p y /\ keqb x y = false) /\
    (snd (sRemove keqb s x) = true <-> p x).
  Proof.
    intros [Hw Hp]. split; [split; [now apply delete_wf|]|].
    - intros y. rewrite <- Hp. cbn [sRemove Remove fst]. unfold HashModel.Contains, ContainsKey.
      rewrite (lookup_delete keqb HE) by assumption. unfold without.
      destruct (keqb x y), (lookup keqb s y); split; try tauto; try (intros []; congruence); discriminate.
    - rewrite <- Hp. cbn [sRemove Remove snd]. unfold HashModel.Contains, ContainsKey.
      destruct (lookup keqb s x); split; congruence.
  Qed.
  Lemma len_spec s p : shows s p -> size_is keqb p (sLen s).
  Proof.
    intros Hs. exists (map fst s). split; [|unfold sLen, Len; now rewrite map_length].
    exact (elements_list (fun l => l) s p (fun l => Permutation_refl l) Hs).
  Qed.
  Lemma empty_spec s p : shows s p -> (sIsEmpty s = true <-> forall x, ~ p x).
  Proof.
    intros [Hw Hp]. unfold sIsEmpty, IsEmpty, Len. destruct s as [|[k []] r].
    - split; [intros _ x Hx; apply Hp in Hx; discriminate|reflexivity].
    - split; [cbn [length]; intros H; apply Z.eqb_eq in H; lia|]. intros H. exfalso. apply (H k), Hp.
      unfold HashModel.Contains, ContainsKey. cbn [lookup]. now rewrite (k_refl keqb HE).
  Qed.

  Lemma nth_shows hs ps i : Forall2 shows hs ps -> shows (nth i hs HashSetNew) (set ps i).
  Proof.
    intros H. revert i. induction H as [|h p hs ps Hh H IH]; intros i; unfold set.
    - destruct i; apply empty_shows.
    - destruct i; cbn [nth]; [exact Hh|apply IH].
  Qed.
  Lemma put_shows hs ps i h p : Forall2 shows hs ps -> shows h p -> Forall2 shows (list_set hs i h) (list_set ps i p).
  Proof.
    intros H Hh. revert i. induction H as [|h' p' hs ps Hh' H IH]; intros i; [destruct i; constructor|].
    destruct i; cbn [list_set]; constructor; auto.
  Qed.
  Lemma app_shows hs ps h p : Forall2 shows hs ps -> shows h p -> Forall2 shows (hs ++ [h]) (ps ++ [p]).
  Proof. intros H Hh. apply Forall2_app; [exact H|]. constructor; [exact Hh|constructor]. Qed.

  Lemma sexec_step clone ord hs ps o : (forall x, keqb (clone x) x = true) -> (forall i, fair (ord i)) -> Forall2 shows hs ps ->
    exists hs' a ps', sexec keqb clone ord hs o = Ret (hs', a) /\ sstep keqb ps o ps' a /\ Forall2 shows hs' ps'.
  Proof.
    intros Hc Ho H. pose proof (fun i => nth_shows hs ps i H) as Hn.
    destruct o; cbn [sexec].
    - do 3 eexists. split; [reflexivity|]. split; [apply ss_new|]. apply app_shows; [exact H|apply empty_shows].
    - do 3 eexists. split; [reflexivity|]. split; [apply ss_slice|]. apply app_shows; [exact H|apply from_slice_spec].
    - do 3 eexists. split; [reflexivity|]. split; [apply ss_union|]. apply app_shows; [exact H|now apply union_spec].
    - do 3 eexists. split; [reflexivity|]. split; [apply ss_inter|]. apply app_shows; [exact H|now apply intersection_spec].
    - do 3 eexists. split; [reflexivity|]. split; [apply ss_sym|]. apply app_shows; [exact H|now apply symmetric_spec].
    - destruct (sclone_spec (ord 0%nat) clone _ _ (Ho 0%nat) (Hn i) Hc) as (s' & E & Hs'). rewrite E. cbn [bind].
      do 3 eexists. split; [reflexivity|]. split; [apply ss_clone|]. now apply app_shows.
    - destruct (insert_spec _ _ x (Hn i)) as [H1 H2].
      do 3 eexists. split; [reflexivity|]. split; [apply ss_insert, H2|]. now apply put_shows.
    - destruct (remove_spec _ _ x (Hn i)) as [H1 H2].
      do 3 eexists. split; [reflexivity|]. split; [apply ss_remove, H2|]. now apply put_shows.
    - do 3 eexists. split; [reflexivity|]. split; [apply ss_clear|]. apply put_shows; [exact H|apply empty_shows].
    - do 3 eexists. split; [reflexivity|]. split; [apply ss_contains, Hn|exact H].
    - do 3 eexists. split; [reflexivity|]. split; [|exact H]. pose proof (proj2 (Hn i) x) as Hx.
      unfold sGet, Get. unfold HashModel.Contains, ContainsKey in Hx.
      destruct (lookup keqb (nth i hs HashSetNew) x).
      + apply ss_get_some. tauto.
      + apply ss_get_none. intros Hp. apply Hx in Hp. discriminate.
    - do 3 eexists. split; [reflexivity|]. split; [apply ss_len, len_spec, Hn|exact H].
    - do 3 eexists. split; [reflexivity|]. split; [apply ss_empty, empty_spec, Hn|exact H].
    - do 3 eexists. split; [reflexivity|]. split; [apply ss_subset, subset_spec; auto|exact H].
    - do 3 eexists. split; [reflexivity|]. split; [apply ss_superset; unfold IsSuperset; apply subset_spec; auto|exact H].
    - do 3 eexists. split; [reflexivity|]. split; [apply ss_disjoint, disjoint_spec; auto|exact H].
    - do 3 eexists. split; [reflexivity|]. split; [apply ss_eq, sEq_spec; auto|exact H].
    - do 3 eexists. split; [reflexivity|]. split; [|exact H]. rewrite elements_eq. apply ss_elements, elements_list; auto.
    - do 3 eexists. split; [reflexivity|]. split; [|exact H]. unfold AsSlice. rewrite push_all. apply ss_asslice. cbn [app]. apply elements_list; auto.
  Qed.
  Lemma srun_history clone ords ops : (forall x, keqb (clone x) x = true) -> (forall n i, fair (ords n i)) -> forall n hs ps, Forall2 shows hs ps ->
    exists hs' rs ps', srun keqb clone ords n hs ops = Ret (hs', rs) /\ shistory keqb ps ops ps' rs /\ Forall2 shows hs' ps'.
  Proof.
    intros Hc Ho. induction ops as [|o r IH]; intros n hs ps H; cbn [srun].
    - do 3 eexists. split; [reflexivity|]. split; [constructor|exact H].
    - destruct (sexec_step clone (ords n) hs ps o Hc (Ho n) H) as (hs' & a & ps' & E & Hs & H'). rewrite E. cbn [bind fst snd].
      destruct (IH (S n) hs' ps' H') as (hs'' & rs & ps'' & E2 & Hs2 & H''). rewrite E2. cbn [bind fst snd].
      do 3 eexists. split; [reflexivity|]. split; [econstructor; eassumption|exact H''].
  Qed.
End Sets.

(** *** Iterators *)
Section Cursors.
  Context {T : Type}.
  Variable zero : T.
  Implicit Type it : cursor T.
  (** What Next has not delivered yet. *)
  Definition rest it : list T := skipn (Z.to_nat (position it)) (vec it).
  Definition valid it : Prop := 0 <= position it <= Z.of_nat (length (vec it)).

  Lemma skipn_nth (l : list T) n x : nth_error l n = Some x -> skipn n l = x :: skipn (S n) l.
  Proof.
    revert n. induction l as [|a r IH]; intros n H; [destruct n; discriminate|].
    destruct n; cbn [nth_error] in H; [injection H as ->; reflexivity|]. cbn [skipn]. now apply IH.
  Qed.
  Lemma Next_spec it : valid it ->
    match rest it with
    | [] => Next it = Ret (it, None)
    | x :: r => exists it', Next it = Ret (it', Some x) /\ valid it' /\ rest it' = r /\ vec it' = vec it /\ position it' = position it + 1
    end.
  Proof.
    intros [H0 H1]. unfold rest, Next. destruct (Z.of_nat (length (vec it)) <=? position it) eqn:E.
    - apply Z.leb_le in E. rewrite skipn_all2 by lia. reflexivity.
    - apply Z.leb_gt in E. destruct (nth_error (vec it) (Z.to_nat (position it))) as [x|] eqn:Ex.
      + rewrite (skipn_nth _ _ _ Ex). unfold idx; rewrite Ex. cbn [bind]. eexists. split; [reflexivity|].
        unfold valid, rest. cbn [position vec]. split; [lia|]. split; [|auto]. f_equal. lia.
      + apply nth_error_None in Ex. lia.
  Qed.
  Lemma cloop_spec {S A} (body : A -> T -> M S A) fuel : forall it a s, valid it -> (length (rest it) < fuel)%nat ->
    cloop fuel it body a s = (fix go (l : list T) (a : A) : M S A := match l with [] => mret a | x :: r => a' <~ body a x ;; go r a' end) (rest it) a s.
  Proof.
    induction fuel as [|k IH]; intros it a s Hv Hf; [lia|]. cbn [cloop].
    pose proof (Next_spec it Hv) as HN. destruct (rest it) as [|x r] eqn:Er.
    - rewrite HN. reflexivity.
    - destruct HN as (it' & E & Hv' & Hr & _). rewrite E. cbn [bind fst snd]. unfold mbind.
      destruct (body a x s) as [[a' s']| |]; try reflexivity. rewrite IH; [now rewrite Hr|exact Hv'|]. rewrite Hr. cbn [length] in Hf. lia.
  Qed.
  Lemma rest_length it : (length (rest it) < length (vec it) + 1)%nat.
  Proof. unfold rest. rewrite skipn_length. lia. Qed.
  Lemma c_loop_spec {S A} (body : A -> T -> M S A) it a s : valid it ->
    c_loop it body a s = (fix go (l : list T) (a : A) : M S A := match l with [] => mret a | x :: r => a' <~ body a x ;; go r a' end) (rest it) a s.
  Proof. intros H. unfold c_loop. apply cloop_spec; [exact H|apply rest_length]. Qed.

  Lemma c_Map_spec {S} it (f : T -> M S T) s : valid it ->
    c_Map it f s = (n <~ each_map f (rest it) ;; mret (cursor_of n)) s.
  Proof.
    intros Hv. unfold c_Map, mbind at 1. rewrite c_loop_spec by exact Hv.
    assert (forall l acc s, (fix go (l : list T) (a : list T) : M S (list T) :=
       match l with [] => mret a | x :: r => a' <~ (y <~ f x ;; mret (a ++ [y])) ;; go r a' end) l acc s =
       (n <~ each_map f l ;; mret (acc ++ n)) s) as G.
    { clear. induction l as [|x r IH]; intros acc s; cbn [each_map]; unfold mbind, mret in *.
      - now rewrite app_nil_r.
      - destruct (f x s) as [[y s']| |]; try reflexivity. rewrite IH.
        destruct (each_map f r s') as [[n s'']| |]; try reflexivity. now rewrite <- app_assoc. }
    rewrite G. unfold mbind. destruct (each_map f (rest it) s) as [[n s']| |]; reflexivity.
  Qed.
  Lemma c_Filter_spec {S} it (f : T -> M S bool) s : valid it ->
    c_Filter it f s = (n <~ each_filter f (rest it) ;; mret (cursor_of n)) s.
  Proof.
    intros Hv. unfold c_Filter, mbind at 1. rewrite c_loop_spec by exact Hv.
    assert (forall l acc s, (fix go (l : list T) (a : list T) : M S (list T) :=
       match l with [] => mret a | x :: r => a' <~ (b <~ f x ;; mret (if (b : bool) then a ++ [x] else a)) ;; go r a' end) l acc s =
       (n <~ each_filter f l ;; mret (acc ++ n)) s) as G.
    { clear. induction l as [|x r IH]; intros acc s; cbn [each_filter]; unfold mbind, mret in *.
      - now rewrite app_nil_r.
      - destruct (f x s) as [[y s']| |]; try reflexivity. rewrite IH.
        destruct (each_filter f r s') as [[n s'']| |]; try reflexivity.
        destruct y; [now rewrite <- app_assoc|reflexivity]. }
    rewrite G. unfold mbind. destruct (each_filter f (rest it) s) as [[n s']| |]; reflexivity.
  Qed.
  Lemma c_Fold_spec {S} it (f : T -> T -> M S T) a s : valid it -> c_Fold it a f s = each_fold f a (rest it) s.
  Proof.
    intros Hv. unfold c_Fold. rewrite c_loop_spec by exact Hv. generalize (rest it) as l. intros l. revert a s.
    induction l as [|x r IH]; intros a s; cbn [each_fold]; [reflexivity|]. unfold mbind.
    destruct (f a x s) as [[a' s']| |]; try reflexivity. apply IH.
  Qed.
  Lemma c_List_spec it : valid it -> c_CollectToLinkedList it = Ret (rest it).
  Proof.
    intros Hv. unfold c_CollectToLinkedList. rewrite c_loop_spec by exact Hv.
    assert (forall l acc, (fix go (l : list T) (a : list T) : M unit (list T) :=
       match l with [] => mret a | x :: r => a' <~ mret (a ++ [x]) ;; go r a' end) l acc tt = Ret (acc ++ l, tt)) as G.
    { clear. induction l as [|x r IH]; intros acc; unfold mbind, mret in *.
      - now rewrite app_nil_r.
      - rewrite IH, <- app_assoc. reflexivity. }
    rewrite G. reflexivity.
  Qed.
  Lemma rev_loop l : forall (front : list T) k (back : list T), length front = (k + length l)%nat ->
    (fix go (l : list T) (a : list T * Z) : M unit (list T * Z) :=
       match l with [] => mret a | x :: r => a' <~ (fun s : unit => let '(v, i) := a in
           v' <- (if i <? Z.of_nat (length v) then upd v (Z.to_nat i) x else Panic) ;; Ret ((v', pred64 i), s)) ;; go r a' end)
      l (front ++ back, pred64 (Z.of_nat (length front))) tt
    = Ret ((firstn k front ++ rev l ++ back, pred64 (Z.of_nat k)), tt).
  Proof.
    induction l as [|x r IH]; intros front k back HL; cbn [length] in HL.
    - rewrite Nat.add_0_r in HL. rewrite <- HL, firstn_all. reflexivity.
    - unfold mbind at 1.
      assert (exists fr y, front = fr ++ [y]) as (fr & y & ->).
      { destruct (exists_last (l := front)) as (fr & y & H); [destruct front; [cbn [length] in HL; lia|discriminate]|]. eauto. }
      rewrite app_length in HL. cbn [length] in HL.
      assert (pred64 (Z.of_nat (length (fr ++ [y]))) = Z.of_nat (length fr)) as Ep.
      { rewrite app_length. cbn [length]. unfold pred64. destruct (_ =? 0) eqn:E; [apply Z.eqb_eq in E|]; lia. }
      rewrite Ep. assert (Z.of_nat (length fr) <? Z.of_nat (length ((fr ++ [y]) ++ back)) = true) as ->.
      { apply Z.ltb_lt. rewrite !app_length. cbn [length]. lia. }
      rewrite Nat2Z.id, <- app_assoc. cbn [app].
      assert (upd (fr ++ y :: back) (length fr) x = Ret (fr ++ x :: back)) as ->.
      { unfold upd. assert (length fr <? length (fr ++ y :: back) = true)%nat as ->.
        { apply Nat.ltb_lt. rewrite app_length. cbn [length]. lia. }
        rewrite list_set_app2 by lia. rewrite Nat.sub_diag. reflexivity. }
      cbn [bind].
      rewrite (IH fr k (x :: back)) by lia. cbn [rev]. rewrite <- !app_assoc. cbn [app].
      rewrite firstn_app. replace (k - length fr)%nat with 0%nat by lia. rewrite firstn_O, app_nil_r. reflexivity.
  Qed.
  Lemma c_Rev_spec it : valid it ->
    c_Rev zero it = Ret (cursor_of (repeat zero (Z.to_nat (position it)) ++ rev (rest it))).
  Proof.
    intros Hv. pose proof Hv as [H0 H1]. unfold c_Rev. rewrite c_loop_spec by exact Hv.
    pose proof (rev_loop (rest it) (repeat zero (length (vec it))) (Z.to_nat (position it)) []) as HR.
    rewrite repeat_length, app_nil_r in HR. rewrite HR.
    - cbn [bind fst]. rewrite app_nil_r. do 3 f_equal.
      replace (length (vec it)) with (Z.to_nat (position it) + (length (vec it) - Z.to_nat (position it)))%nat by lia.
      rewrite repeat_app, firstn_app, repeat_length, Nat.sub_diag, firstn_O, app_nil_r.
      rewrite firstn_all2; [reflexivity|rewrite repeat_length; lia].
    - unfold rest. rewrite skipn_length. lia.
  Qed.
End Cursors.

Lemma reached_wf {K V} keqb (m : HashMap K V) : equivalence keqb -> reached keqb m -> wf keqb m.
Proof.
  intros HE (ords & ops & Ho & ->).
  destruct (run_history keqb HE ops ords 0%nat HashMapNew nothing Ho I (fun _ => eq_refl)) as (g & _ & Hw & _). exact Hw.
Qed.

Lemma nexts_spec {T} n : forall (it : cursor T), valid it ->
  exists it', nexts n it = Ret (it', map Some (firstn n (rest it)) ++ repeat None (n - length (rest it))) /\
    valid it' /\ vec it' = vec it /\ rest it' = skipn n (rest it) /\
    position it' = position it + Z.of_nat (Nat.min n (length (rest it))).
Proof.
  induction n as [|k IH]; intros it Hv; cbn [nexts].
  - exists it. cbn [firstn map repeat app skipn Nat.min Nat.sub Z.of_nat]. rewrite Z.add_0_r. auto.
  - pose proof (Next_spec it Hv) as HN. destruct (rest it) as [|x r] eqn:Er.
    + rewrite HN. cbn [bind fst snd]. destruct (IH it Hv) as (it' & E & Hv' & Hvec & Hr & Hp). rewrite E, Er in *. cbn [bind fst snd].
      exists it'. rewrite firstn_nil, Nat.sub_0_r in *. split; [reflexivity|]. rewrite skipn_nil in *. cbn [length] in *. rewrite Nat.min_0_r in *. auto.
    + destruct HN as (it1 & E1 & Hv1 & Hr1 & Hvec1 & Hp1). rewrite E1. cbn [bind fst snd].
      destruct (IH it1 Hv1) as (it' & E & Hv' & Hvec & Hr & Hp). rewrite E, Hr1 in *. cbn [bind fst snd].
      exists it'. split; [reflexivity|]. split; [exact Hv'|]. split; [congruence|]. split; [exact Hr|].
      cbn [length Nat.min]. lia.
Qed.

From Verif Require Import VecSpec.
Lemma join_comma fs : join fs = comma_separated fs.
Proof.
  induction fs as [|f r IH]; [reflexivity|]. destruct r as [|g r]; [reflexivity|].
  cbn [join comma_separated]. cbn [join comma_separated] in IH. now rewrite <- IH.
Qed.
Lemma format_entry a b : Format [123; 125; 58; 32; 123; 125] [Some a; Some b] = Ret (a ++ [58; 32] ++ b).
Proof. unfold Format. cbn. now rewrite <- ?app_assoc. Qed.
Lemma format_one a : Format [123; 125] [Some a] = Ret a.
Proof. reflexivity. Qed.
Lemma display_fields_spec {E} format (params : E -> Params) (text : E -> list Z) es :
  (forall e, Format format (params e) = Ret (text e)) -> forall acc,
  display_fields format params es acc = Ret (acc ++ map text es).
Proof.
  intros H. induction es as [|e r IH]; intros acc; cbn [display_fields map].
  - now rewrite app_nil_r.
  - rewrite H. cbn [bind]. rewrite IH, <- app_assoc. reflexivity.
Qed.
