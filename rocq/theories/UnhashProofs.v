(** UnhashProofs.v -- a map with interface keys holds hashable keys only, and does with them
    what a map of hashable keys does. *)
From Coq Require Import Permutation.
From Verif Require Import Base Effect PanicModel HashModel HashSpec HashHistory HashProofs ZeroSpec UnhashSpec UnhashModel.
Local Open Scope Z_scope.

Section Keys.
  Context {H U : Type}.
  Notation key := (interface H U).
  Variable heq : H -> H -> bool.

  Section Map.
    Context {V : Type}.
    Definition emb (m : HashMap H V) : HashMap key V := map (fun e => (Plain (fst e), snd e)) m.
    Definition back (l : list (key * V)) : list (H * V) :=
      flat_map (fun e => match fst e with Plain h => [(h, snd e)] | Unhashable _ => [] end) l.
    Lemma back_emb m : back (emb m) = m.
    Proof. induction m as [|[h v] r IH]; [reflexivity|]. cbn [emb map back flat_map fst snd app]. f_equal. exact IH. Qed.
    Lemma emb_back l : (forall e, In e l -> exists h, fst e = Plain h) -> emb (back l) = l.
    Proof.
      induction l as [|[k v] r IH]; intros A; [reflexivity|]. destruct (A (k, v) (or_introl eq_refl)) as [h E]. cbn [fst] in E. subst k.
      cbn [back flat_map fst snd app emb map]. f_equal. apply IH. intros e I. apply A. now right.
    Qed.
    Definition down (ord : order key V) : order H V := fun m => back (ord (emb m)).
    Lemma emb_plain m e : In e (emb m) -> exists h, fst e = Plain h.
    Proof. intros I. apply in_map_iff in I. destruct I as ([h v] & <- & _). eexists. reflexivity. Qed.
    Lemma down_emb (ord : order key V) m : fair ord -> emb (down ord m) = ord (emb m).
    Proof.
      intros F. apply emb_back. intros e I. apply (emb_plain m).
      apply (Permutation_in e (F (emb m))). exact I.
    Qed.
    Lemma down_fair (ord : order key V) : fair ord -> fair (down ord).
    Proof. intros F m. unfold down. rewrite <- (back_emb m) at 2. apply Permutation_flat_map, F. Qed.

    Lemma walk_emb m k : walk heq (emb m) (Plain k) = Ret (lookup heq m k).
    Proof.
      induction m as [|[h v] r IH]; [reflexivity|]. cbn [emb map walk same bind lookup fst snd].
      destruct (heq h k); [reflexivity|]. exact IH.
    Qed.
    Lemma over_emb m k v : over heq (emb m) (Plain k) v = Ret (emb (assign heq m k v)).
    Proof.
      induction m as [|[h w] r IH]; [reflexivity|]. cbn [emb map over same bind assign fst snd].
      destruct (heq h k); [reflexivity|]. change (map _ r) with (emb r). rewrite IH. reflexivity.
    Qed.
    Lemma cut_emb m k : cut heq (emb m) (Plain k) = Ret (emb (delete heq m k)).
    Proof.
      induction m as [|[h w] r IH]; [reflexivity|]. cbn [emb map cut same bind delete fst snd].
      destruct (heq h k); [reflexivity|]. change (map _ r) with (emb r). rewrite IH. reflexivity.
    Qed.
    Lemma u_Insert_emb m k v c : u_Insert heq (Plain k) v (emb m, c) = ((emb (assign heq m k v), c), Some (lookup heq m k)).
    Proof.
      unfold u_Insert, xbind, xget, xlift, xput, xret, g_lookup, g_assign. cbn [fst snd hash bind].
      rewrite walk_emb, over_emb. reflexivity.
    Qed.
    Lemma u_Remove_emb m k c : u_Remove heq (Plain k) (emb m, c) = ((emb (delete heq m k), c), Some (lookup heq m k)).
    Proof.
      unfold u_Remove, xbind, xget, xlift, xput, xret, g_lookup, g_delete. cbn [fst snd hash bind].
      rewrite walk_emb, cut_emb. reflexivity.
    Qed.
    Lemma u_Get_emb m k c : u_Get heq (Plain k) (emb m, c) = ((emb m, c), Some (lookup heq m k)).
    Proof. unfold u_Get, xbind, xget, xlift, g_lookup. cbn [fst snd hash bind]. rewrite walk_emb. reflexivity. Qed.
    Lemma u_ContainsKey_emb m k c : u_ContainsKey heq (Plain k) (emb m, c) = ((emb m, c), Some (ContainsKey heq m k)).
    Proof.
      unfold u_ContainsKey, xbind, xget, xlift, xret, g_lookup. cbn [fst snd hash bind]. rewrite walk_emb. reflexivity.
    Qed.
    Lemma Len_emb m : Len (emb m) = Len m.
    Proof. unfold Len, emb. now rewrite map_length. Qed.

    Lemma u_exec_bad (ord : order key V) m o : map_call o = None -> u_exec heq ord m o = (m, None).
    Proof. destruct o as [k v|k|k|k| | | | | |]; cbn [map_call]; try discriminate; destruct k; cbn [plain option_map]; try discriminate; intros _; reflexivity. Qed.
    Lemma u_exec_emb (ord : order key V) m o p : fair ord -> map_call o = Some p ->
      u_exec heq ord (emb m) o = (emb (fst (exec heq (down ord) m p)), Some (map_answer (snd (exec heq (down ord) m p)))).
    Proof.
      intros F. destruct o as [k v|k|k|k| | | | | |]; cbn [map_call]; try (destruct k as [h|u]; cbn [plain option_map]; try discriminate);
        intros E; injection E as <-; cbn [u_exec exec]; unfold on.
      - rewrite u_Insert_emb. reflexivity.
      - rewrite u_Remove_emb. reflexivity.
      - rewrite u_Get_emb. reflexivity.
      - rewrite u_ContainsKey_emb. reflexivity.
      - reflexivity.
      - rewrite Len_emb. reflexivity.
      - unfold IsEmpty. rewrite Len_emb. reflexivity.
      - rewrite !IntoIter_vec_eq. cbn [fst snd map_answer]. rewrite <- (down_emb ord m F). reflexivity.
      - rewrite !Keys_vec_eq. cbn [fst snd map_answer]. rewrite <- (down_emb ord m F). unfold emb at 2. rewrite !map_map. reflexivity.
      - rewrite !Values_vec_eq. cbn [fst snd map_answer]. rewrite <- (down_emb ord m F). unfold emb at 2. rewrite !map_map. reflexivity.
    Qed.
    Lemma u_run_emb ops : forall ords : nat -> order key V, (forall i, fair (ords i)) -> forall n m, exists ords', (forall i, fair (ords' i)) /\
      let r := u_run heq ords n (emb m) ops in
      let s := run heq ords' 0 m (given (map map_call ops)) in
      fst r = emb (fst s) /\ map absent (snd r) = map (fun o => absent (map_call o)) ops /\ given (snd r) = map map_answer (snd s).
    Proof.
      induction ops as [|o r IH]; intros ords F n m.
      - exists (fun i => down (ords i)). split; [intros i; apply down_fair, F|]. repeat split.
      - cbn [u_run map]. destruct (map_call o) as [p|] eqn:E; cbn [given].
        + rewrite (u_exec_emb (ords n) m o p (F n) E).
          destruct (IH ords F (S n) (fst (exec heq (down (ords n)) m p))) as (ords' & F' & I1 & I2 & I3).
          exists (fun i => match i with O => down (ords n) | S j => ords' j end).
          split; [intros [|j]; [apply down_fair, F|apply F']|].
          cbn [run]. destruct (exec heq (down (ords n)) m p) as [m' a]. cbn [fst snd] in *.
          destruct (u_run heq ords (S n) (emb m') r) as [g rs]. cbn [fst snd] in *.
          assert (Sh : forall ops k m, run heq (fun i => match i with O => down (ords n) | S j => ords' j end) (S k) m ops = run heq ords' k m ops).
          { clear. induction ops as [|o r IH]; intros k m; [reflexivity|]. cbn [run]. destruct (exec heq (ords' k) m o). now rewrite IH. }
          rewrite Sh. destruct (run heq ords' 0 m' (given (map map_call r))) as [h ss]. cbn [fst snd map absent given] in *.
          split; [exact I1|]. split; [now rewrite I2|]. now rewrite I3.
        + rewrite (u_exec_bad (ords n) (emb m) o E).
          destruct (IH ords F (S n) m) as (ords' & F' & I1 & I2 & I3). exists ords'. split; [exact F'|].
          destruct (u_run heq ords (S n) (emb m) r) as [g rs]. cbn [fst snd map absent given] in *.
          split; [exact I1|]. split; [now rewrite I2|]. exact I3.
    Qed.

    Lemma local_insert_emb m k v : local_insert heq (emb m) (Plain k) v = Ret (emb (assign heq m k v)).
    Proof. unfold local_insert. rewrite u_Insert_emb. reflexivity. Qed.
    
    Lemma u_clone_bad ck cv : forall es m, (exists e, In e es /\ plain (ck (fst e)) = None) ->
      u_clone_loop heq (Some ck) (Some cv) es (emb m) = Panic.
    Proof.
      induction es as [|[k v] r IH]; intros m (e & I & B); [destruct I|].
      cbn [u_clone_loop of_option bind]. destruct (ck k) as [h|u] eqn:E.
      - rewrite local_insert_emb. cbn [bind]. apply IH. destruct I as [<- | I]; [|eauto].
        cbn [fst] in B. rewrite E in B. discriminate.
      - reflexivity.
    Qed.
    Lemma u_clone_emb ck cv ch : (forall h, ck (Plain h) = Plain (ch h)) -> forall es m,
      u_clone_loop heq (Some ck) (Some cv) (emb es) (emb m) =
      m' <- clone_loop heq (Some ch) (Some cv) es m ;; Ret (emb m').
    Proof.
      intros C. induction es as [|[h v] r IH]; intros m; [reflexivity|].
      cbn [emb map u_clone_loop clone_loop of_option bind fst snd]. rewrite C, local_insert_emb. cbn [bind]. apply IH.
    Qed.
    Lemma u_eq_emb eq es : forall m, u_eq_loop heq eq (emb es) (emb m) = eq_loop heq eq es m.
    Proof.
      induction es as [|[h v] r IH]; intros m; [reflexivity|].
      cbn [emb map u_eq_loop eq_loop fst snd]. unfold g_lookup. cbn [hash bind]. rewrite walk_emb. cbn [bind].
      destruct (lookup heq m h) as [w|]; [|reflexivity]. destruct eq as [f|]; [|reflexivity]. cbn [of_option bind].
      destruct (negb (f v w)); [reflexivity|]. apply IH.
    Qed.
    Lemma u_Eq_emb (ord : order key V) eq m rhs : fair ord -> u_Eq heq ord eq (emb m) (emb rhs) = Eq heq (down ord) eq m rhs.
    Proof. intros F. unfold u_Eq, Eq. rewrite !Len_emb, <- (down_emb ord m F), u_eq_emb. reflexivity. Qed.
  End Map.

  (** *** Sets *)
  Variable clone : key -> key.
  Variable ch : H -> H.
  Hypothesis Hch : forall h, clone (Plain h) = Plain (ch h).

  Lemma contains_emb (s : HashMap H unit) x : contains heq (emb s) (Plain x) = Ret (Contains heq s x).
  Proof. unfold contains, us_Contains. rewrite u_ContainsKey_emb. reflexivity. Qed.
  Lemma add_emb (s : HashMap H unit) x : add heq (emb s) (Plain x) = Ret (emb (fst (sInsert heq s x))).
  Proof. unfold add. rewrite local_insert_emb. reflexivity. Qed.
  Lemma u_forall_emb p q l : (forall h, p (Plain h) = Ret (q h)) -> u_forall_loop p (map Plain l : list key) = Ret (forall_loop q l).
  Proof.
    intros E. induction l as [|h r IH]; [reflexivity|]. cbn [map u_forall_loop forall_loop]. rewrite E. cbn [bind].
    destruct (negb (q h)); [reflexivity|]. exact IH.
  Qed.
  Lemma u_insert_emb p q l : (forall h, p (Plain h) = Ret (q h)) -> forall s,
    u_insert_loop heq p (map Plain l : list key) (emb s) = Ret (emb (insert_loop heq q l s)).
  Proof.
    intros E. induction l as [|h r IH]; intros s; [reflexivity|].
    cbn [map u_insert_loop]. rewrite E. cbn [bind]. unfold insert_loop. cbn [fold_left]. fold (insert_loop heq q).
    destruct (q h); [rewrite add_emb|]; cbn [bind]; apply IH.
  Qed.
  Lemma elements_emb (ord : sorder key) s : fair ord -> elements ord (emb s) = map Plain (elements (down ord) s).
  Proof.
    intros F. unfold elements, sIntoIter, cursor_of. cbn [vec]. rewrite !push_all. cbn [app].
    rewrite <- (down_emb ord s F). unfold emb. rewrite !map_map. reflexivity.
  Qed.
  Lemma AsSlice_emb (ord : sorder key) s : fair ord -> AsSlice ord (emb s) = map Plain (AsSlice (down ord) s).
  Proof.
    intros F. unfold AsSlice. rewrite !push_all. cbn [app]. rewrite <- (down_emb ord s F). unfold emb. rewrite !map_map. reflexivity.
  Qed.
  Lemma not_emb (s : HashMap H unit) h : not_ (contains heq (emb s) (Plain h)) = Ret (negb (Contains heq s h)).
  Proof. unfold not_. rewrite contains_emb. reflexivity. Qed.

  Lemma plains_some (xs : list key) : forall hs, plains xs = Some hs -> xs = (map Plain hs : list key).
  Proof.
    induction xs as [|k r IH]; intros hs; cbn [plains]; [intros E; injection E as <-; reflexivity|].
    destruct k as [h|u]; cbn [plain]; [|discriminate]. destruct (plains r) as [gs|]; [|discriminate].
    intros E. injection E as <-. cbn [map]. f_equal. now apply IH.
  Qed.
  Lemma slice_bad (xs : list key) : plains xs = None -> forall s, u_insert_loop heq (fun _ => Ret true) xs (emb s) = Panic.
  Proof.
    induction xs as [|k r IH]; intros E s; cbn [plains] in E; [discriminate|].
    cbn [u_insert_loop bind]. destruct k as [h|u]; cbn [plain] in E.
    - rewrite add_emb. cbn [bind]. apply IH. destruct (plains r); [discriminate|reflexivity].
    - reflexivity.
  Qed.
  Lemma insert_true l s : insert_loop heq (fun _ => true) l s = fold_left (fun s x => fst (sInsert heq s x)) l s.
  Proof. reflexivity. Qed.

  Lemma sclone_eq es : forall s, sclone_loop heq (Some ch) es s = Ret (insert_loop heq (fun _ => true) (map (fun e => ch (fst e)) es) s).
  Proof. induction es as [|[k []] r IH]; intros s; [reflexivity|]. cbn [sclone_loop of_option bind map fst]. rewrite IH. reflexivity. Qed.

  Lemma nth_emb (hs : list (HashMap H unit)) i : nth i (map emb hs) HashSetNew = emb (nth i hs HashSetNew).
  Proof. change (HashSetNew (K := key)) with (emb HashSetNew). apply map_nth. Qed.
  Lemma list_set_map {A B} (f : A -> B) l : forall i x, list_set (map f l) i (f x) = map f (list_set l i x).
  Proof. induction l as [|a r IH]; intros [|i] x; cbn [map list_set]; try reflexivity. now rewrite IH. Qed.
  Lemma list_set_self {A} (l : list A) d : forall i, list_set l i (nth i l d) = l.
  Proof. induction l as [|a r IH]; intros [|i]; cbn [list_set nth]; try reflexivity. now rewrite IH. Qed.

  Lemma u_sexec_bad (ord : nat -> sorder key) hs o : set_call o = None -> u_sexec heq clone ord (map emb hs) o = (map emb hs, None).
  Proof.
    destruct o as [|xs| | | | |i x|i x| |i x|i x| | | | | | | | ]; cbn [set_call]; try discriminate.
    - destruct (plains xs) as [ks|] eqn:E; cbn [option_map]; [discriminate|]. intros _. cbn [u_sexec made]. unfold u_FromSlice.
      change (HashSetNew (K := key)) with (emb HashSetNew). rewrite (slice_bad xs E). reflexivity.
    - destruct x; cbn [plain option_map]; [discriminate|]. intros _. cbn [u_sexec]. unfold at_set. rewrite nth_emb.
      cbn. rewrite <- nth_emb, list_set_self. reflexivity.
    - destruct x; cbn [plain option_map]; [discriminate|]. intros _. cbn [u_sexec]. unfold at_set. rewrite nth_emb.
      cbn. rewrite <- nth_emb, list_set_self. reflexivity.
    - destruct x; cbn [plain option_map]; [discriminate|]. intros _. cbn [u_sexec]. unfold at_set. rewrite nth_emb.
      cbn. rewrite <- nth_emb, list_set_self. reflexivity.
    - destruct x; cbn [plain option_map]; [discriminate|]. intros _. cbn [u_sexec]. unfold at_set. rewrite nth_emb.
      cbn. rewrite <- nth_emb, list_set_self. reflexivity.
  Qed.

  Lemma u_sexec_emb (ord : nat -> sorder key) hs o p : (forall i, fair (ord i)) -> set_call o = Some p ->
    exists r, sexec heq ch (fun i => down (ord i)) hs p = Ret r /\
      u_sexec heq clone ord (map emb hs) o = (map emb (fst r), Some (set_answer (snd r))).
  Proof.
    intros F. set (hsn := HashSetNew (K := key)). assert (Hn : hsn = emb HashSetNew) by reflexivity.
    destruct o as [|xs|i j|i j|i j|i|i x|i x|i|i x|i x|i|i|i j|i j|i j|i j|i|i]; cbn [set_call];
      try (destruct x as [h|u]; cbn [plain option_map]; [|discriminate]);
      try (destruct (plains xs) as [ks|] eqn:Ex; cbn [option_map]; [|discriminate]);
      intros E; injection E as <-; cbn [u_sexec sexec];
      try (eexists; split; [reflexivity|]); cbn [fst snd set_answer].
    - rewrite map_app. reflexivity.
    - unfold u_FromSlice. fold hsn. rewrite Hn, (plains_some xs ks Ex), (u_insert_emb _ (fun _ => true)) by reflexivity.
      cbn [made]. rewrite map_app. reflexivity.
    - unfold u_Union. fold hsn. rewrite !nth_emb, !elements_emb by apply F. rewrite Hn, (u_insert_emb _ (fun _ => true)) by reflexivity. cbn [bind].
      rewrite (u_insert_emb _ (fun _ => true)) by reflexivity. cbn [made]. rewrite map_app. reflexivity.
    - unfold u_Intersection. fold hsn. rewrite !nth_emb, !elements_emb by apply F. rewrite Hn.
      rewrite (u_insert_emb _ (fun x => Contains heq (nth j hs HashSetNew) x)) by (intros h; apply contains_emb). cbn [made]. rewrite map_app. reflexivity.
    - unfold u_SymmetricDifference. fold hsn. rewrite !nth_emb, !elements_emb by apply F. rewrite Hn.
      rewrite (u_insert_emb _ (fun x => negb (Contains heq (nth j hs HashSetNew) x))) by (intros h; apply not_emb). cbn [bind].
      rewrite (u_insert_emb _ (fun x => negb (Contains heq (nth i hs HashSetNew) x))) by (intros h; apply not_emb). cbn [made]. rewrite map_app. reflexivity.
    - unfold sClone. rewrite sclone_eq. cbn [bind]. eexists. split; [reflexivity|]. cbn [fst snd set_answer].
      unfold u_sClone. fold hsn. rewrite nth_emb, <- (down_emb _ _ (F 0%nat)).
      assert (Em : forall l : HashMap H unit, map (fun e : key * unit => clone (fst e)) (emb l) = map Plain (map (fun e => ch (fst e)) l)).
      { intros l. unfold emb. rewrite !map_map. apply map_ext. intros [h []]. cbn [fst]. apply Hch. }
      rewrite Em, Hn, (u_insert_emb _ (fun _ => true)) by reflexivity. cbn [made]. rewrite map_app. reflexivity.
    - unfold at_set, us_Insert, xbind. rewrite nth_emb, u_Insert_emb. cbn [xret fst snd option_map]. rewrite list_set_map. reflexivity.
    - unfold at_set, us_Remove, xbind. rewrite nth_emb, u_Remove_emb. cbn [xret fst snd option_map]. rewrite list_set_map. reflexivity.
    - rewrite nth_emb. change (sClear (emb (nth i hs HashSetNew))) with (emb (sClear (nth i hs HashSetNew))). rewrite list_set_map. reflexivity.
    - unfold at_set, us_Contains. rewrite nth_emb, u_ContainsKey_emb. cbn [xret fst snd option_map].
      rewrite list_set_map, list_set_self. reflexivity.
    - unfold at_set, us_Get, xbind. rewrite nth_emb, u_Get_emb. cbn [xret fst snd option_map].
      rewrite list_set_map, list_set_self. unfold sGet, Get. unfold HashSet in *. destruct (lookup heq (nth i hs HashSetNew) h); reflexivity.
    - unfold sLen. rewrite nth_emb, Len_emb. reflexivity.
    - unfold sIsEmpty, IsEmpty. rewrite nth_emb, Len_emb. reflexivity.
    - unfold u_IsSubset, IsSubset, sLen. rewrite !nth_emb, !Len_emb, elements_emb by apply F.
      rewrite (u_forall_emb _ (fun x => Contains heq (nth j hs HashSetNew) x)) by (intros h; apply contains_emb).
      destruct (_ <? _)%Z; reflexivity.
    - unfold u_IsSuperset, u_IsSubset, IsSuperset, IsSubset, sLen. rewrite !nth_emb, !Len_emb, elements_emb by apply F.
      rewrite (u_forall_emb _ (fun x => Contains heq (nth i hs HashSetNew) x)) by (intros h; apply contains_emb).
      destruct (_ <? _)%Z; reflexivity.
    - unfold u_IsDisjoint, IsDisjoint. rewrite !nth_emb, elements_emb by apply F.
      rewrite (u_forall_emb _ (fun x => negb (Contains heq (nth j hs HashSetNew) x))) by (intros h; apply not_emb). reflexivity.
    - unfold u_sEq, sEq. rewrite !nth_emb, !Len_emb, <- (down_emb _ _ (F 0%nat)).
      assert (Em : forall l : HashMap H unit, map fst (emb l) = map Plain (map fst l)).
      { intros l. unfold emb. rewrite !map_map. reflexivity. }
      rewrite Em, (u_forall_emb _ (fun x => Contains heq (nth j hs HashSetNew) x)) by (intros h; apply contains_emb).
      destruct (negb _); reflexivity.
    - rewrite nth_emb, elements_emb by apply F. reflexivity.
    - rewrite nth_emb, AsSlice_emb by apply F. reflexivity.
  Qed.

  Lemma u_srun_emb ops : forall ords : nat -> nat -> sorder key, (forall n i, fair (ords n i)) -> forall n hs, exists ords', (forall n i, fair (ords' n i)) /\
    forall t rs, srun heq ch ords' 0 hs (given (map set_call ops)) = Ret (t, rs) ->
      let r := u_srun heq clone ords n (map emb hs) ops in
      fst r = map emb t /\ map absent (snd r) = map (fun o => absent (set_call o)) ops /\ given (snd r) = map set_answer rs.
  Proof.
    induction ops as [|o r IH]; intros ords F n hs.
    - exists (fun n i => down (ords n i)). split; [intros k i; apply down_fair, F|]. intros t rs E. injection E as <- <-. repeat split.
    - cbn [u_srun map]. destruct (set_call o) as [p|] eqn:E; cbn [given].
      + destruct (u_sexec_emb (ords n) hs o p (F n) E) as ([hs' a] & E1 & E2). cbn [fst snd] in E2. rewrite E2.
        destruct (IH ords F (S n) hs') as (ords' & F' & I).
        exists (fun k => match k with O => fun i => down (ords n i) | S j => ords' j end).
        split; [intros [|j] i; [apply down_fair, F|apply F']|]. intros t rs Er.
        cbn [srun] in Er. rewrite E1 in Er. cbn [bind fst snd] in Er.
        assert (Sh : forall ops k hs, srun heq ch (fun k => match k with O => fun i => down (ords n i) | S j => ords' j end) (S k) hs ops = srun heq ch ords' k hs ops).
        { clear. induction ops as [|o r IH]; intros k hs; [reflexivity|]. cbn [srun]. destruct (sexec heq ch (ords' k) hs o); cbn [bind]; [|reflexivity|reflexivity]. now rewrite IH. }
        rewrite Sh in Er. destruct (srun heq ch ords' 0 hs' (given (map set_call r))) as [[t' rs']| |]; cbn [bind fst snd] in Er; try discriminate.
        injection Er as <- <-. destruct (I t' rs' eq_refl) as (I1 & I2 & I3).
        destruct (u_srun heq clone ords (S n) (map emb hs') r) as [g ss]. cbn [fst snd map absent given] in *.
        split; [exact I1|]. split; [now rewrite I2|]. now rewrite I3.
      + rewrite (u_sexec_bad (ords n) hs o E). destruct (IH ords F (S n) hs) as (ords' & F' & I). exists ords'. split; [exact F'|].
        intros t rs Er. destruct (I t rs Er) as (I1 & I2 & I3).
        destruct (u_srun heq clone ords (S n) (map emb hs) r) as [g ss]. cbn [fst snd map absent given] in *.
        split; [exact I1|]. split; [now rewrite I2|]. exact I3.
  Qed.
End Keys.
