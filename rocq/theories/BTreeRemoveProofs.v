(** BTreeRemoveProofs.v -- Remove while the map has one node. *)
From Verif Require Import Base BaseLemmas Effect CmpSpec VecSpec HashModel BTreeModel BTreeSpec BTreeHistory BTreeProofs BTreeMapProofs BTreeLowProofs BTreeGentleProofs.
Local Open Scope nat_scope.

Section Remove.
  Context {K V : Type}.
  Variable cmp : K -> K -> ordering.
  Hypothesis lawful : total_preorder cmp.
  Implicit Types (l a b : list (K * V)) (k : K) (v : V) (s : slots K V).

  Lemma live_index_at k a e b : (forall x, In x a -> cmp (fst x) k = Less) -> cmp (fst e) k = Equal ->
    forall i, live_index cmp k (a ++ e :: b) i = Some (i + length a).
  Proof.
    intros A E. induction a as [|x a IH]; intros i; cbn [app live_index length].
    - rewrite E, Nat.add_0_r. reflexivity.
    - rewrite (A x (or_introl eq_refl)). rewrite IH by (intros y I; apply A; cbn; auto). f_equal. lia.
  Qed.
  Lemma live_index_none k a b : (forall x, In x a -> cmp (fst x) k = Less) -> (forall x, In x b -> cmp (fst x) k = Greater) ->
    forall i, live_index cmp k (a ++ b) i = None.
  Proof.
    intros A B. induction a as [|x a IH]; intros i; cbn [app live_index].
    - destruct b as [|y b]; [reflexivity|]. cbn. now rewrite (B y (or_introl eq_refl)).
    - rewrite (A x (or_introl eq_refl)). apply IH. intros y I. apply A. cbn; auto.
  Qed.
  Lemma above_app k a b : (forall x, In x a -> cmp k (fst x) = Greater) -> above cmp k (a ++ b) = above cmp k b.
  Proof.
    intros A. induction a as [|[k0 v0] a IH]; [reflexivity|]. cbn [app above].
    rewrite (A (k0, v0) (or_introl eq_refl) : cmp k k0 = _). apply IH. intros x I. apply A. cbn; auto.
  Qed.
  Lemma ok_wrap z : (0 <= z <= 12)%Z -> wrap64 z = z.
  Proof. intros H. unfold wrap64. apply Z.mod_small. lia. Qed.

  (** A key that is there. *)
  Lemma remove_there s l k a k0 v0 b : ok cmp s l -> l = a ++ (k0, v0) :: b -> cmp k k0 = Equal ->
    slot_step cmp s (BRemove k) = Some
      (match a ++ b, b with
       | [], _ => mkSlots [] (repeat None 11) 0
       | _, [] => mkSlots a (Some (k0, v0) :: gaps (11 - length l)) (Z.of_nat (length l) - 1)
       | _, _ => mkSlots (a ++ b) (gaps (11 - length (a ++ b))) (Z.of_nat (length l) - 1)
       end, Value (Some (match b with (_, w) :: _ => w | [] => v0 end))).
  Proof.
    intros O EL CE. pose proof O as (E1 & E2 & E3 & SO & LL).
    assert (SO' := SO). rewrite EL in SO'. apply sorted_app in SO'. destruct SO' as (_ & SB & SAB).
    assert (A : forall x, In x a -> cmp (fst x) k = Less).
    { intros x I. rewrite (Equal_cmp_r cmp lawful k k0 _ CE). apply (SAB x (k0, v0)); cbn; auto. }
    assert (EK : cmp k0 k = Equal) by (apply (Equal_sym cmp lawful); exact CE).
    assert (SK : seek cmp k (all_slots s) 0 = Some (length a)).
    { rewrite (ok_all _ _ _ O), EL, map_app, <- app_assoc. cbn [map app].
      rewrite seek_app_greater by (intros x I; apply (Greater_Less cmp lawful); auto). cbn [seek fst]. now rewrite CE. }
    assert (LI : live_index cmp k (live s) 0 = Some (length a)) by (rewrite E1, EL; now rewrite live_index_at).
    assert (LN : length l = length a + S (length b)) by (rewrite EL, app_length; reflexivity).
    unfold slot_step. rewrite SK, LI. cbv zeta. unfold take_out. rewrite E1. f_equal.
    assert (FS : firstn (length a) l = a).
    { rewrite EL, firstn_app, Nat.sub_diag, firstn_all. cbn. now rewrite app_nil_r. }
    assert (SS : skipn (S (length a)) l = b).
    { rewrite EL, skipn_app. rewrite skipn_all2 by lia. replace (S (length a) - length a) with 1 by lia. reflexivity. }
    rewrite FS, SS.
    assert (NV : nth (length a) (map Some l) None = Some (k0, v0)).
    { rewrite EL, map_app, app_nth2 by (rewrite map_length; lia). rewrite map_length, Nat.sub_diag. reflexivity. }
    rewrite NV, E2.
    destruct b as [|[k1 w1] b'].
    - rewrite app_nil_r in *. replace (S (length a) =? length l) with true by (symmetry; apply Nat.eqb_eq; cbn in LN; lia).
      unfold all_slots. cbn [live rest]. f_equal.
      + unfold emptied. cbn [live]. destruct a as [|x a']; cbn [live rest count].
        * rewrite E3, LN. cbn [length]. f_equal. 
        * rewrite E3. f_equal. rewrite ok_wrap by lia. reflexivity.
      + unfold slot_value. rewrite nth_error_app2 by (rewrite map_length; lia). rewrite map_length, Nat.sub_diag. reflexivity.
    - replace (S (length a) =? length l) with false by (symmetry; apply Nat.eqb_neq; cbn in LN; lia).
      unfold all_slots. cbn [live rest]. f_equal.
      + unfold emptied. cbn [live]. destruct (a ++ (k1, w1) :: b') as [|y r] eqn:EAB; [destruct a; discriminate|]. cbn [live rest count].
        rewrite E3, ok_wrap by lia. f_equal.
        replace (11 - length (y :: r)) with (S (11 - length l)); [reflexivity|]. rewrite <- EAB, app_length. cbn [length] in *. lia.
      + unfold slot_value. rewrite map_app, <- app_assoc, nth_error_app2 by (rewrite map_length; lia). rewrite map_length, Nat.sub_diag. reflexivity.
  Qed.
  (** A key that is not. *)
  Lemma remove_absent s l k : ok cmp s l -> get cmp k l = None -> exists s', slot_step cmp s (BRemove k) = Some (s', Value None) /\ ok cmp s' l.
  Proof.
    intros O G. pose proof O as (E1 & E2 & E3 & SO & LL).
    assert (SK : seek cmp k (all_slots s) 0 = None).
    { rewrite (ok_all _ _ _ O). destruct l as [|e l']; [reflexivity|]. set (l := e :: l') in *.
      destruct (key_cases cmp lawful k (snd e) l (11 - length l) SO) as [(a & k0 & v0 & b & H)|(a & b & H)]; decompose [and] H; congruence. }
    assert (LI : live_index cmp k (live s) 0 = None).
    { rewrite E1. destruct l as [|e l']; [reflexivity|]. set (l := e :: l') in *.
      destruct (key_cases cmp lawful k (snd e) l (11 - length l) SO) as [(a & k0 & v0 & b & _ & _ & _ & G' & _)|(a & b & EL & _ & _ & _ & A & B & _)]; [congruence|].
      rewrite EL. apply live_index_none; auto. intros x I. apply (Greater_Less cmp lawful). auto. }
    unfold slot_step. rewrite SK, LI. eexists. split; [reflexivity|]. unfold emptied. rewrite E1.
    destruct l as [|e l']; [|exact O]. unfold ok. cbn [live rest count length]. rewrite E3. repeat split; auto.
  Qed.

  Lemma mild_one s l o : ok cmp s l -> mild cmp l o ->
    exists s', slot_step cmp s o = Some (s', snd (mild_step cmp l o)) /\ ok cmp s' (fst (mild_step cmp l o)).
  Proof.
    intros O MI. pose proof O as (E1 & E2 & E3 & SO & LL).
    assert (OTHER : (forall k, o <> BRemove k) -> length (fst (map_step cmp l o)) <= 11 ->
      exists s', slot_step cmp s o = Some (s', snd (map_step cmp l o)) /\ ok cmp s' (fst (map_step cmp l o))) by (intros; apply step_map; auto).
    destruct o; cbn [mild_step]; try (apply OTHER; [discriminate|cbn; lia]).
    - apply OTHER; [discriminate|]. cbn [map_step fst mild] in *. rewrite (put_length cmp lawful) by auto. destruct (get cmp k l); [lia|]. specialize (MI eq_refl). lia.
    - cbn [mild fst snd] in *. unfold removed_value.
      destruct (get cmp k l) as [w|] eqn:G.
      2:{ destruct (remove_absent s l k O G) as (s' & ST & O'). exists s'. split; [exact ST|].
          assert (DR : drop cmp k l = l); [|rewrite DR; exact O'].
          destruct l as [|e l']; [reflexivity|]. set (l := e :: l') in *.
          destruct (key_cases cmp lawful k (snd e) l 0 SO) as [(a & k0 & v0 & b & H)|(a & b & H)]; decompose [and] H; congruence. }
      destruct MI as [MI|MI]; [discriminate|].
      destruct (key_cases cmp lawful k w l 0 SO) as [(a & k0 & v0 & b & EL & CE & _ & G' & _ & D & _ & SD)|(a & b & H)]; [|decompose [and] H; congruence].
      assert (w = v0) by congruence. subst w.
      rewrite (remove_there s l k a k0 v0 b O EL CE). rewrite D.
      assert (SO' := SO). rewrite EL in SO'. apply sorted_app in SO'. destruct SO' as (_ & SB & SAB).
      assert (AB : above cmp k l = match b with (_, w) :: _ => Some w | [] => None end).
      { rewrite EL, above_app. 2:{ intros x I. rewrite (Equal_cmp cmp lawful _ _ _ CE). apply (Greater_Less cmp lawful). apply (SAB x (k0, v0)); cbn; auto. }
        cbn [above]. rewrite CE. destruct b as [|[k1 w1] b']; [reflexivity|]. cbn [above].
        rewrite (Equal_cmp cmp lawful _ _ k1 CE). destruct SB as (SB & _). now rewrite (SB (k1, w1) (or_introl eq_refl) : cmp k0 k1 = Less). }
      rewrite AB. assert (LN : length l = length a + S (length b)) by (rewrite EL, app_length; reflexivity).
      destruct b as [|[k1 w1] b'].
      + destruct a as [|x a']; [|exfalso; cbn in LN; destruct MI as [MI|MI]; [lia|apply MI; now rewrite AB]].
        eexists. split; [reflexivity|]. apply ok_new.
      + eexists. split; [reflexivity|]. destruct (a ++ (k1, w1) :: b') as [|y r] eqn:EAB; [destruct a; discriminate|].
        assert (LAB : length (y :: r) = length l - 1) by (rewrite <- EAB, app_length; cbn in *; lia).
        unfold ok. cbn [live rest count]. repeat split; auto; try lia. exact (proj1 SD). exact (proj2 SD).
  Qed.
  Lemma mild_slots ops : forall s l, ok cmp s l -> mild_all cmp l ops ->
    exists s', slot_run cmp s ops = Some (s', snd (mild_run cmp l ops)) /\ ok cmp s' (fst (mild_run cmp l ops)).
  Proof.
    induction ops as [|o ops IH]; intros s l O MI.
    - exists s. split; [reflexivity|exact O].
    - destruct MI as (M1 & M2). destruct (mild_one s l o O M1) as (s1 & E1 & O1).
      destruct (IH s1 _ O1 M2) as (s2 & E2 & O2). exists s2. cbn [slot_run mild_run]. rewrite E1, E2.
      destruct (mild_step cmp l o) as (l1, a1). cbn [fst snd] in *. destruct (mild_run cmp l1 ops). split; [reflexivity|exact O2].
  Qed.
  (** The greatest of several keys. *)
  Lemma remove_greatest s l front e : ok cmp s l -> l = front ++ [e] -> front <> [] ->
    forall k, cmp k (fst e) = Equal -> exists s', slot_step cmp s (BRemove k) = Some (s', Value (Some (snd e))) /\
      live s' = front /\ all_slots s' = all_slots s /\ count s' = (count s - 1)%Z.
  Proof.
    intros O EL NE k CE. destruct e as [k0 v0]. rewrite (remove_there s l k front k0 v0 [] O EL CE).
    pose proof O as (E1 & E2 & E3 & SO & LL). rewrite app_nil_r. destruct front as [|x f]; [congruence|].
    eexists. split; [reflexivity|]. cbn [live count]. split; [reflexivity|]. split; [|lia].
    unfold all_slots. cbn [live rest]. rewrite E1, E2, EL, map_app, <- app_assoc. reflexivity.
  Qed.
End Remove.
