(** ZeroProofs.v -- proofs about ZeroModel. *)
From Verif Require Import Base Effect VecModel PanicModel ZeroSpec ZeroModel.
From Verif Require BaseLemmas HashModel HashSpec HashHistory HashProofs HashSetProofs DequeModel DequeSpec DequeHistory DequeProofs DequeRunProofs.
Local Open Scope Z_scope.

Section Map.
  Context {K V : Type}.
  Variable keqb : K -> K -> bool.
  Variable ords : nat -> HashModel.order K V.

  Lemma z_exec_made (ord : HashModel.order K V) l o :
    z_exec keqb ord (Some l) o = (Some (fst (HashHistory.exec keqb ord l o)), Some (snd (HashHistory.exec keqb ord l o))).
  Proof. destruct o; reflexivity. Qed.
  Lemma z_run_made ops : forall n l,
    z_run keqb ords n (Some l) ops =
    (Some (fst (HashHistory.run keqb ords n l ops)), map Some (snd (HashHistory.run keqb ords n l ops))).
  Proof.
    induction ops as [|o ops IH]; intros n l; [reflexivity|]. cbn [z_run HashHistory.run]. rewrite z_exec_made.
    destruct (HashHistory.exec keqb (ords n) l o) as [l' a]. cbn [fst snd]. rewrite IH.
    destruct (HashHistory.run keqb ords (S n) l' ops) as [l'' rs]. reflexivity.
  Qed.

  Lemma lists_nothing : HashSpec.lists keqb (HashSpec.nothing (V := V)) [].
  Proof. split; [exact I|]. intros k v. split; [discriminate|]. intros (k' & [] & _). Qed.
  Lemma fair_nil (ord : HashModel.order K V) : HashSpec.fair ord -> ord [] = [].
  Proof. intros F. apply Permutation.Permutation_nil. apply Permutation.Permutation_sym, F. Qed.

  Lemma z_exec_nil ord o : HashSpec.fair ord -> o <> HashSpec.MClear ->
    fst (z_exec keqb ord (zero_map (V := V)) o) = zero_map /\
    map_unprepared keqb o (snd (z_exec keqb ord (zero_map (V := V)) o)).
  Proof.
    intros F N. pose proof (fair_nil ord F) as E.
    destruct o; (split; [try reflexivity; now destruct N|]); cbn [map_unprepared z_exec z_Insert zero_map snd fst option_map]; [reflexivity|..];
      unfold HashHistory.exec, HashModel.IntoIter_vec, HashModel.Keys_vec, HashModel.Values_vec; cbn [entries fst snd zero_map]; rewrite ?E.
    - exists (HashSpec.Value None). eexists. split; [reflexivity|]. split; [exact (HashSpec.ms_remove keqb HashSpec.nothing k)|]. intros x. unfold HashSpec.without. now destruct (keqb k x).
    - exists (HashSpec.Value None). eexists. split; [reflexivity|]. split; [exact (HashSpec.ms_get keqb HashSpec.nothing k)|]. reflexivity.
    - exists (HashSpec.Truth false). eexists. split; [reflexivity|]. split; [apply HashSpec.ms_contains|reflexivity]. split; [discriminate|now intros []].
    - now destruct N.
    - exists (HashSpec.Number 0). eexists. split; [reflexivity|]. split; [apply (HashSpec.ms_len keqb _ []), lists_nothing|reflexivity].
    - exists (HashSpec.Truth true). eexists. split; [reflexivity|]. split; [apply HashSpec.ms_empty|reflexivity]. split; [reflexivity|auto].
    - exists (HashSpec.Entries []). eexists. split; [reflexivity|]. split; [apply (HashSpec.ms_entries keqb _ []), lists_nothing|reflexivity].
    - exists (HashSpec.KeyList []). eexists. split; [reflexivity|]. split; [apply (HashSpec.ms_keys keqb _ []), lists_nothing|reflexivity].
    - exists (HashSpec.ValueList []). eexists. split; [reflexivity|]. split; [apply (HashSpec.ms_values keqb _ []), lists_nothing|reflexivity].
  Qed.
  Lemma z_run_nil : (forall i, HashSpec.fair (ords i)) -> forall ops n, Forall (fun o => o <> HashSpec.MClear) ops ->
    fst (z_run keqb ords n (zero_map (V := V)) ops) = zero_map /\
    Forall2 (map_unprepared keqb) ops (snd (z_run keqb ords n (zero_map (V := V)) ops)).
  Proof.
    intros F. induction ops as [|o ops IH]; intros n H; [split; [reflexivity|constructor]|]. inversion H; subst. cbn [z_run].
    destruct (z_exec_nil (ords n) o (F n)) as (E & U); [assumption|].
    destruct (z_exec keqb (ords n) zero_map o) as [m a]. cbn [fst snd] in *. subst m.
    destruct (IH (S n)) as (E' & U'); [assumption|]. destruct (z_run keqb ords (S n) zero_map ops) as [m rs]. cbn [fst snd] in *.
    split; [exact E'|]. now constructor.
  Qed.
  Lemma z_run_app ops1 ops2 : forall n (m : gomap K V),
    z_run keqb ords n m (ops1 ++ ops2) =
    let r := z_run keqb ords n m ops1 in
    let r' := z_run keqb ords (n + length ops1) (fst r) ops2 in
    (fst r', snd r ++ snd r').
  Proof.
    induction ops1 as [|o ops IH]; intros n m; cbn [app z_run length].
    - rewrite Nat.add_0_r. cbn [fst snd app]. now destruct (z_run keqb ords n m ops2).
    - destruct (z_exec keqb (ords n) m o) as [m' a]. rewrite IH. rewrite <- Nat.add_succ_comm.
      destruct (z_run keqb ords (S n) m' ops) as [m'' rs]. reflexivity.
  Qed.
End Map.

Section Sets.
  Context {K : Type}.
  Variable keqb : K -> K -> bool.
  Variable clone : K -> K.
  Definition is_nil (s : goset (K := K)) : bool := match s with None => true | Some _ => false end.
  Definition nils (hs : list (goset (K := K))) : list bool := map is_nil hs.

  Lemma nils_nth hs i : nth i (nils hs) false = is_nil (nth i hs (Some HashModel.HashSetNew)).
  Proof. exact (map_nth is_nil hs (Some HashModel.HashSetNew) i). Qed.
  Lemma entries_nth (hs : list (goset (K := K))) i :
    nth i (map entries hs) HashModel.HashSetNew = entries (nth i hs (Some HashModel.HashSetNew)).
  Proof. exact (map_nth entries hs (Some HashModel.HashSetNew) i). Qed.
  Lemma map_list_set {A B} (f : A -> B) l i x : map f (list_set l i x) = list_set (map f l) i (f x).
  Proof. revert i. induction l as [|a l IH]; intros [|i]; cbn [list_set map]; try reflexivity. now rewrite IH. Qed.
  Lemma list_set_same {A} (l : list A) i d : list_set l i (nth i l d) = l.
  Proof. revert i. induction l as [|a l IH]; intros [|i]; cbn [list_set nth]; try reflexivity. now rewrite IH. Qed.
  Lemma list_set_out {A} (l : list A) i x : (length l <= i)%nat -> list_set l i x = l.
  Proof. revert i. induction l as [|a l IH]; intros [|i] H; cbn [list_set length] in *; try reflexivity; [lia|]. rewrite IH by lia. reflexivity. Qed.

  Lemma clone_returns es : forall r, exists s, HashModel.sclone_loop keqb (Some clone) es r = Ret s.
  Proof. induction es as [|[k u] es IH]; intros r; cbn [HashModel.sclone_loop of_option bind]; [eauto|apply IH]. Qed.
  Lemma skipn_self {A} (l x : list A) : skipn (length l) (l ++ x) = x.
  Proof. rewrite skipn_app, skipn_all, Nat.sub_diag. reflexivity. Qed.

  Lemma read_only ord hs o a : HashHistory.sexec keqb clone ord (map entries hs) o = Ret (map entries hs, a) ->
    match HashHistory.sexec keqb clone ord (map entries hs) o with
    | Ret (hs', a) => (hs ++ map Some (skipn (length hs) hs'), Some a)
    | _ => (hs, None)
    end = (hs, Some a).
  Proof. intros ->. rewrite <- (map_length entries hs) at 1. rewrite skipn_all. cbn [map]. now rewrite app_nil_r. Qed.
  Lemma one_more ord hs o s a : HashHistory.sexec keqb clone ord (map entries hs) o = Ret (map entries hs ++ [s], a) ->
    match HashHistory.sexec keqb clone ord (map entries hs) o with
    | Ret (hs', a) => (hs ++ map Some (skipn (length hs) hs'), Some a)
    | _ => (hs, None)
    end = (hs ++ [Some s], Some a).
  Proof. intros ->. rewrite <- (map_length entries hs) at 1. now rewrite skipn_self. Qed.

  Lemma z_sexec_step ord hs o :
    if refused (nils hs) o then z_sexec keqb clone ord hs o = (hs, None)
    else exists hs' a, z_sexec keqb clone ord hs o = (hs', Some a) /\
      HashHistory.sexec keqb clone ord (map entries hs) (as_new o) = Ret (map entries hs', a) /\ nils hs' = declared_only (nils hs) o.
  Proof.
    assert (M : forall (s : HashModel.HashSet K), map entries (hs ++ [Some s]) = map entries hs ++ [s]) by (intros; now rewrite map_app).
    assert (N : forall (s : HashModel.HashSet K), nils (hs ++ [Some s]) = nils hs ++ [false]) by (intros; unfold nils; now rewrite map_app).
    destruct o as [|o].
    { cbn [refused]. do 2 eexists. split; [reflexivity|]. cbn [as_new HashHistory.sexec declared_only]. unfold nils. rewrite !map_app. split; reflexivity. }
    destruct o; cbn [refused as_new declared_only z_sexec];
      try (eexists hs, _; split; [apply read_only; cbn [HashHistory.sexec]; reflexivity|]; split; reflexivity);
      try (eexists _, _; split; [eapply one_more; cbn [HashHistory.sexec]; reflexivity|]; rewrite M, N; split; reflexivity).
    - destruct (clone_returns (ord 0%nat (nth i (map entries hs) HashModel.HashSetNew)) HashModel.HashSetNew) as [s E].
      assert (E1 : HashHistory.sexec keqb clone ord (map entries hs) (HashSpec.SClone i) = Ret (map entries hs ++ [s], HashSpec.SDone)).
      { cbn [HashHistory.sexec]. unfold HashModel.sClone, HashModel.HashSet in *. unfold goset, gomap in *. now rewrite E. }
      eexists _, _. split; [eapply one_more, E1|]. rewrite M, N. now split.
    - rewrite nils_nth. destruct (nth i hs (Some HashModel.HashSetNew)) as [l|] eqn:E; cbn [z_sInsert z_Insert fst snd option_map].
      + do 2 eexists. split; [reflexivity|]. cbn [HashHistory.sexec]. rewrite entries_nth, E. cbn [entries].
        rewrite map_list_set. split; [reflexivity|]. unfold nils. rewrite map_list_set.
        rewrite <- (list_set_same (map _ hs) i false) at 2. fold (nils hs). rewrite nils_nth, E. reflexivity.
      + cbn [is_nil]. f_equal. transitivity (list_set hs i (nth i hs (Some HashModel.HashSetNew))); [now rewrite E|apply list_set_same].
    - do 2 eexists. split; [reflexivity|]. cbn [HashHistory.sexec]. rewrite entries_nth.
      unfold z_sRemove, z_Remove, HashModel.sRemove. cbn [fst snd]. split.
      + rewrite map_list_set. f_equal. f_equal. f_equal. destruct (nth i hs (Some HashModel.HashSetNew)); reflexivity.
      + unfold nils. rewrite map_list_set. rewrite <- (list_set_same (map _ hs) i false) at 2. fold (nils hs). rewrite nils_nth.
        f_equal. destruct (nth i hs (Some HashModel.HashSetNew)); reflexivity.
    - do 2 eexists. split; [reflexivity|]. cbn [HashHistory.sexec]. rewrite entries_nth. unfold z_sClear, z_Clear.
      unfold nils. rewrite !map_list_set. now split.
  Qed.

  Lemma srun_ext ops : forall (ords ords' : nat -> nat -> HashModel.sorder K) n n' hs, (forall k, ords (n + k)%nat = ords' (n' + k)%nat) ->
    HashHistory.srun keqb clone ords n hs ops = HashHistory.srun keqb clone ords' n' hs ops.
  Proof.
    induction ops as [|o ops IH]; intros ords ords' n n' hs H; [reflexivity|]. cbn [HashHistory.srun].
    pose proof (H 0%nat) as H0. rewrite !Nat.add_0_r in H0. rewrite H0.
    destruct (HashHistory.sexec keqb clone (ords' n') hs o) as [[hs' a]| |]; cbn [bind]; try reflexivity. cbn [fst snd].
    rewrite (IH ords ords' (S n) (S n')); [reflexivity|]. intros k. rewrite !Nat.add_succ_comm. apply H.
  Qed.

  Lemma z_srun_served ords : (forall n i, HashSpec.fair (ords n i)) -> forall ops n hs,
    map (fun a : option HashSpec.sanswer => match a with None => true | Some _ => false end) (snd (z_srun keqb clone ords n hs ops)) = refusals (nils hs) ops /\
    exists ords', (forall n i, HashSpec.fair (ords' n i)) /\
      HashHistory.srun keqb clone ords' 0 (map entries hs) (map as_new (served (nils hs) ops)) =
      Ret (map entries (fst (z_srun keqb clone ords n hs ops)), given (snd (z_srun keqb clone ords n hs ops))).
  Proof.
    intros F. induction ops as [|o ops IH]; intros n hs; cbn [z_srun refusals served].
    - split; [reflexivity|]. exists ords. now split.
    - pose proof (z_sexec_step (ords n) hs o) as St. destruct (refused (nils hs) o) eqn:R.
      + rewrite St. destruct (IH (S n) hs) as (I1 & ords' & F' & I2).
        assert (D : declared_only (nils hs) o = nils hs).
        { destruct o as [|[]]; try discriminate R. reflexivity. }
        rewrite D. destruct (z_srun keqb clone ords (S n) hs ops) as [hs'' rs]. cbn [fst snd map given] in *.
        split; [now f_equal|]. eauto.
      + destruct St as (hs' & a & E & E1 & D). rewrite E. destruct (IH (S n) hs') as (I1 & ords' & F' & I2). rewrite <- D.
        destruct (z_srun keqb clone ords (S n) hs' ops) as [hs'' rs]. cbn [fst snd map given] in *.
        split; [now f_equal|].
        exists (fun k => match k with O => ords n | S k => ords' k end). split; [intros [|k] i; auto|].
        cbn [HashHistory.srun]. rewrite E1. cbn [bind fst snd].
        rewrite (srun_ext _ _ ords' 1 0) by reflexivity. rewrite I2. reflexivity.
  Qed.
End Sets.

Section Deque.
  Context {T : Type}.
  Variable zero : T.
  Variable limit : Z.
  Variable eqb : T -> T -> bool.

  (** The calls in pieces do what the calls do. *)
  Lemma z_Grow_made d d' : DequeModel.Grow zero limit d = Ret d' -> z_Grow zero limit (d, tt) = ((d', tt), Some tt).
  Proof.
    unfold DequeModel.Grow, z_Grow, xget, xput, xlift, xret, xbind. cbn [fst snd].
    destruct (DequeModel.IsFull d); cbn [negb]; [|discriminate].
    destruct (DequeModel.make zero limit _) as [b| |]; cbn [bind]; try discriminate.
    destruct (DequeModel.HandleCapacityIncrease _ _) as [d2| |]; cbn [bind]; try discriminate.
    destruct (DequeModel.IsFull d2); [discriminate|]. now intros [= ->].
  Qed.
  Lemma z_grown d d' : (if DequeModel.IsFull d then DequeModel.Grow zero limit d else Ret d) = Ret d' ->
    (if DequeModel.IsFull d then z_Grow zero limit else xret tt) (d, tt) = ((d', tt), Some tt).
  Proof. destruct (DequeModel.IsFull d); [apply z_Grow_made|]. now intros [= ->]. Qed.
  Lemma z_PushFront_made d x d' : DequeModel.PushFront zero limit d x = Ret d' -> z_PushFront zero limit x (d, tt) = ((d', tt), Some tt).
  Proof.
    intros E. unfold DequeModel.PushFront in E. destruct (if DequeModel.IsFull d then _ else _) as [d1| |] eqn:G; cbn [bind] in E; try discriminate.
    apply z_grown in G. unfold z_PushFront, xbind at 1, xget. cbn [fst]. unfold xbind at 1. rewrite G.
    unfold xbind, xput, xlift. cbn [fst snd].
    destruct (DequeModel.bupd _ _ _) as [b| |]; cbn [bind] in E; try discriminate. cbn [fst snd].
    injection E as <-. reflexivity.
  Qed.
  Lemma z_PushBack_made d x d' : DequeModel.PushBack zero limit d x = Ret d' -> z_PushBack zero limit x (d, tt) = ((d', tt), Some tt).
  Proof.
    intros E. unfold DequeModel.PushBack in E. destruct (if DequeModel.IsFull d then _ else _) as [d1| |] eqn:G; cbn [bind] in E; try discriminate.
    apply z_grown in G. unfold z_PushBack, xbind at 1, xget. cbn [fst]. unfold xbind at 1. rewrite G.
    unfold xbind, xput, xlift. cbn [fst snd].
    destruct (DequeModel.bupd _ _ _) as [b| |]; cbn [bind] in E; try discriminate. cbn [fst snd].
    injection E as <-. reflexivity.
  Qed.
  Lemma z_dexec_made d o d' a : DequeHistory.exec zero limit eqb d o = Ret (d', a) -> z_dexec zero limit eqb d o = (d', Some a).
  Proof.
    intros E. destruct o; cbn [z_dexec]; try (now rewrite E); cbn [DequeHistory.exec] in E; apply BaseLemmas.bind_Ret in E; destruct E as (d1 & E & E1); injection E1 as -> <-.
    - now rewrite (z_PushFront_made _ _ _ E).
    - now rewrite (z_PushBack_made _ _ _ E).
  Qed.
  Lemma z_drun_made ops : forall d d' l, DequeHistory.run zero limit eqb d ops = Ret (d', l) -> z_drun zero limit eqb d ops = (d', map Some l).
  Proof.
    induction ops as [|o ops IH]; intros d d' l E; cbn [DequeHistory.run z_drun] in *.
    - now injection E as <- <-.
    - apply BaseLemmas.bind_Ret in E. destruct E as ([d1 a] & E1 & E). apply BaseLemmas.bind_Ret in E. destruct E as ([d2 rs] & E2 & E).
      cbn [fst snd] in *. injection E as <- <-. rewrite (z_dexec_made _ _ _ _ E1), (IH _ _ _ E2). reflexivity.
  Qed.
  Lemma z_drun_app ops1 ops2 : forall d, z_drun zero limit eqb d (ops1 ++ ops2) =
    let r := z_drun zero limit eqb d ops1 in let r' := z_drun zero limit eqb (fst r) ops2 in (fst r', snd r ++ snd r').
  Proof.
    induction ops1 as [|o ops IH]; intros d; cbn [app z_drun].
    - cbn [fst snd app]. now destruct (z_drun zero limit eqb d ops2).
    - destruct (z_dexec zero limit eqb d o) as [d1 a]. rewrite IH. destruct (z_drun zero limit eqb d1 ops) as [d2 rs]. reflexivity.
  Qed.

  Hypothesis Ok : 7 <= limit < 2 ^ 63.
  Lemma make_nothing : DequeModel.make zero limit 0 = Ret [].
  Proof. unfold DequeModel.make. destruct (Z.leb_spec 0 limit); [reflexivity|lia]. Qed.
  Lemma push_zero x : z_PushFront zero limit x (zero_deque, tt) = ((zero_deque, tt), None) /\
    z_PushBack zero limit x (zero_deque, tt) = ((zero_deque, tt), None).
  Proof.
    assert (G : z_Grow zero limit (zero_deque, tt) = ((zero_deque, tt), None)).
    { unfold z_Grow, xbind, xget, xput, xlift. cbn [fst snd]. change (DequeModel.u64 (DequeModel.Capacity (zero_deque (T := T)) * 2)) with 0.
      rewrite make_nothing. reflexivity. }
    split.
    - unfold z_PushFront, xbind at 1, xget. cbn [fst]. unfold xbind at 1. change (DequeModel.IsFull (zero_deque (T := T))) with true.
      cbn iota. now rewrite G.
    - unfold z_PushBack, xbind at 1, xget. cbn [fst]. unfold xbind at 1. change (DequeModel.IsFull (zero_deque (T := T))) with true.
      cbn iota. now rewrite G.
  Qed.
  Lemma z_dexec_zero o : pushes o \/ harmless eqb o ->
    fst (z_dexec zero limit eqb zero_deque o) = zero_deque /\ deque_unprepared eqb o (snd (z_dexec zero limit eqb zero_deque o)).
  Proof.
    intros [P|(R & b & St)].
    - destruct o; try now destruct P.
      + cbn [z_dexec]. rewrite (proj1 (push_zero x)). split; [reflexivity|]. left. now split.
      + cbn [z_dexec]. rewrite (proj2 (push_zero x)). split; [reflexivity|]. left. now split.
    - assert (N : ~ pushes o).
      { intros P. destruct o; try now destruct P; inversion St. }
      assert (E : DequeHistory.exec zero limit eqb zero_deque o = Ret (zero_deque, b)).
      { destruct o; try (now destruct N); inversion St; subst; try reflexivity.
        - now destruct l.
        - cbn [DequeHistory.exec]. unfold DequeModel.Get. cbn [DequeModel.Len DequeModel.dlen zero_deque].
          destruct (Z.leb_spec 0 i); [|lia]. cbn [bind]. f_equal. f_equal. f_equal. unfold DequeSpec.at_.
          destruct (i <? 0); [reflexivity|]. now destruct (Z.to_nat i).
        - unfold DequeSpec.inside in *. rewrite H3 in *. cbn [length] in *. lia.
        - cbn [DequeHistory.exec length] in *. unfold DequeModel.Set_. cbn [DequeModel.Len DequeModel.dlen zero_deque].
          destruct (Z.leb_spec 0 i); [reflexivity|lia].
        - unfold DequeSpec.inside in *. cbn [length] in *. lia.
        - destruct R. exact I.
        - assert (n = 0) by (unfold readies in R; lia). subst n. reflexivity. }
      rewrite (z_dexec_made _ _ _ _ E). split; [reflexivity|]. right. cbn [snd]. eauto.
  Qed.
  Lemma z_drun_zero ops : Forall (fun o => pushes o \/ harmless eqb o) ops ->
    fst (z_drun zero limit eqb zero_deque ops) = zero_deque /\ Forall2 (deque_unprepared eqb) ops (snd (z_drun zero limit eqb zero_deque ops)).
  Proof.
    induction 1 as [|o ops H F IH]; [split; [reflexivity|constructor]|]. cbn [z_drun].
    destruct (z_dexec_zero o H) as (E & U). destruct (z_dexec zero limit eqb zero_deque o) as [d a]. cbn [fst snd] in *. subst d.
    destruct IH as (E' & U'). destruct (z_drun zero limit eqb zero_deque ops) as [d rs]. cbn [fst snd] in *.
    split; [exact E'|]. now constructor.
  Qed.

  Lemma readied o : readies o -> 7 + DequeSpec.cost o <= limit -> exists d c,
    z_dexec zero limit eqb zero_deque o = (d, Some DequeSpec.Done) /\ DequeProofs.rep limit d [] c /\ Z.of_nat c <= 7 + DequeSpec.cost o.
  Proof.
    intros R HL. destruct o; try now destruct R.
    - destruct (DequeProofs.Clear_spec zero limit Ok zero_deque) as (d & E & Rp). exists d, 7%nat. split; [|split; [exact Rp|cbn [DequeSpec.cost]; lia]].
      apply z_dexec_made. cbn [DequeHistory.exec]. now rewrite E.
    - cbn [readies DequeSpec.cost] in *. exists (DequeModel.mkDeque (repeat zero (Z.to_nat n)) 0 0), (Z.to_nat n).
      split; [|split; [apply DequeProofs.rep_empty; lia|lia]].
      apply z_dexec_made. cbn [DequeHistory.exec]. unfold DequeModel.Reserve.
      change (DequeModel.Capacity (zero_deque (T := T))) with 0. rewrite Z.add_0_l. rewrite DequeProofs.u64_small by lia.
      destruct (Z.ltb_spec 0 n); [|lia]. unfold DequeModel.make. destruct (Z.leb_spec n limit); [|lia]. cbn [bind].
      unfold DequeModel.HandleCapacityIncrease, DequeModel.copy_into, DequeModel.Capacity.
      cbn [DequeModel.buffer DequeModel.dlen DequeModel.head zero_deque length firstn app]. rewrite Nat.min_0_r. cbn [firstn skipn app].
      destruct (Z.ltb_spec (Z.of_nat (length (repeat zero (Z.to_nat n)))) 0); [lia|]. reflexivity.
  Qed.
  Lemma z_drun_readied o ops l' answers : readies o -> DequeSpec.dhistory eqb [] ops l' answers ->
    DequeSpec.space 0 (o :: ops) <= limit -> exists d',
    z_drun zero limit eqb zero_deque (o :: ops) = (d', Some DequeSpec.Done :: map Some answers) /\
    exists c, DequeProofs.rep limit d' l' c.
  Proof.
    intros R H Sp. unfold DequeSpec.space in Sp. cbn [fold_left] in Sp. replace (7 + 2 * 0) with 7 in Sp by lia.
    pose proof (DequeRunProofs.fold_cost _ _ _ _ _ (7 + DequeSpec.cost o) H) as Fc.
    assert (C : 0 <= DequeSpec.cost o) by (destruct o; cbn [DequeSpec.cost readies] in *; try lia; now destruct R).
    destruct (readied o R) as (d & c & E & Rp & Hc); [lia|].
    destruct (DequeRunProofs.run_history zero limit Ok eqb [] ops l' answers H d c (7 + DequeSpec.cost o) Rp Hc) as (d' & c' & E' & Rp' & _);
      [cbn [length]; lia|lia|exact Sp|].
    exists d'. cbn [z_drun]. rewrite E, (z_drun_made _ _ _ _ E'). split; [reflexivity|]. eauto.
  Qed.
End Deque.
