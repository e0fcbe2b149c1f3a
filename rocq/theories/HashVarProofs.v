(** HashVarProofs.v -- memory against the two specifications of HashVarSpec.v. *)
From Verif Require Import Base HashModel HashSpec HashHistory HashProofs HashSetProofs ZeroModel HashVarSpec HashVarModel.
Local Open Scope nat_scope.

Lemma nth_error_list_set {X} (l : list X) v w x : nth_error (list_set l v x) w = if Nat.eqb v w then (if w <? length l then Some x else None) else nth_error l w.
Proof.
  revert v w. induction l as [|a l IH]; intros [|v] [|w]; cbn [list_set nth_error length Nat.eqb]; try reflexivity.
  - now destruct (Nat.eqb v w).
  - rewrite IH. reflexivity.
Qed.
Lemma length_list_set {X} (l : list X) v x : length (list_set l v x) = length l.
Proof. revert v. induction l as [|a l IH]; intros [|v]; cbn [list_set length]; congruence. Qed.
Lemma nth_error_snoc {X} (l : list X) x w : nth_error (l ++ [x]) w = if Nat.eqb w (length l) then Some x else nth_error l w.
Proof.
  destruct (Nat.eqb_spec w (length l)) as [->|N].
  - rewrite nth_error_app2 by lia. now rewrite Nat.sub_diag.
  - destruct (Nat.lt_ge_cases w (length l)); [now rewrite nth_error_app1|].
    rewrite (proj2 (nth_error_None l w)) by lia. apply nth_error_None. rewrite app_length. cbn [length]. lia.
Qed.

Section Machine.
  Context {C F O Q A : Type}.
  Variable method : nat -> C -> O -> C * A.
  Variable function : nat -> list C -> Q -> option C * A.
  Variable zero : C.
  Variable done : A.
  Variables clears writes : O -> bool.
  Variable makes : Q -> bool.
  Variable form : cop O Q -> Prop.
  Variable doing : F -> O -> F -> A -> Prop.
  Variable from : list F -> Q -> option F -> A -> Prop.
  Variable R : C -> F -> Prop.
  Hypothesis Hmethod : forall n c f o, R c f -> exists g, doing f o g (snd (method n c o)) /\ R (fst (method n c o)) g.
  Hypothesis Hclear : forall n c f o, clears o = true -> exists g, doing f o g (snd (method n c o)) /\ R (fst (method n c o)) g.
  Hypothesis Hread : forall n c o, writes o = false -> clears o = false -> fst (method n c o) = c.
  Hypothesis Hfunction : forall n vs cs gs q, Forall2 R cs gs -> length vs = length cs -> form (From q vs) ->
    exists r, from gs q r (snd (function n cs q)) /\
      match fst (function n cs q), r with Some c, Some f => R c f /\ makes q = true | None, None => makes q = false | _, _ => False end.

  Notation step := (h_step method function zero done clears).
  Notation run := (h_run method function zero done clears).

  (** [ok w]: the contents of w are those of its map. *)
  Record inv (ok : nat -> Prop) (m : memory C) (fs : list F) (b : bonds) : Prop := mkInv {
    i_len : length (vars m) = length fs;
    i_see : forall v, v < length fs -> exists l c f, nth_error (vars m) v = Some l /\ nth_error (cells m) l = Some c /\ nth_error fs v = Some f /\ (ok v -> R c f);
    i_in : forall v w, v < length fs -> w < length fs -> b v w = Nat.eqb (nth v (vars m) 0) (nth w (vars m) 0);
    i_out : forall v w, length fs <= v \/ length fs <= w -> b v w = Nat.eqb v w
  }.

  Lemma inv_weaken (ok ok' : nat -> Prop) m fs b : (forall w, w < length fs -> ok' w -> ok w) -> inv ok m fs b -> inv ok' m fs b.
  Proof.
    intros W [L S I U]. split; try assumption. intros v H. destruct (S v H) as (l & c & f & E1 & E2 & E3 & E4).
    exists l, c, f. auto 10.
  Qed.

  Lemma inv_read ok m fs b v l c g : inv ok m fs b -> nth_error (vars m) v = Some l -> nth_error (cells m) l = Some c -> R c g ->
    inv ok m (list_set fs v g) b.
  Proof.
    intros [L S I U] El Ec HR. split; rewrite ?length_list_set; try assumption.
    intros w Hw. destruct (S w Hw) as (l' & c' & f & E1 & E2 & E3 & X). rewrite nth_error_list_set.
    destruct (Nat.eqb_spec v w) as [<-|N].
    - rewrite (proj2 (Nat.ltb_lt _ _) Hw). exists l, c, g. auto.
    - exists l', c', f. auto.
  Qed.
  Lemma list_set_there {X} (l : list X) i x : nth_error l i = Some x -> list_set l i x = l.
  Proof. revert i. induction l as [|a r IH]; intros [|i]; cbn [nth_error list_set]; try discriminate; [congruence|]. intros H. now rewrite IH. Qed.
  Lemma if_true (w : nat) (fs : list F) : if Nat.eqb w (length fs) then True else True.
  Proof. now destruct (Nat.eqb w (length fs)). Qed.

  Lemma at_eq (m : memory C) v l c : nth_error (vars m) v = Some l -> nth_error (cells m) l = Some c ->
    nth v (vars m) (length (cells m)) = l /\ nth l (cells m) zero = c.
  Proof. intros E1 E2. split; apply nth_error_nth; assumption. Qed.

  (** *** Assignment *)
  Lemma inv_copy ok m fs b v f : inv ok m fs b -> v < length fs -> nth_error fs v = Some f ->
    inv (fun w => if Nat.eqb w (length fs) then ok v else ok w)
        (mkMemory (cells m) (vars m ++ [nth v (vars m) (length (cells m))])) (fs ++ [f]) (bind_to b (length fs) v).
  Proof.
    intros [L S I U] Hv Ef. destruct (S v Hv) as (l & c & f' & E1 & E2 & E3 & E4).
    assert (f' = f) by congruence; subst f'. destruct (at_eq m v l c E1 E2) as [-> _].
    assert (Hl : forall d, nth v (vars m) d = l) by (intros; now apply nth_error_nth).
    split; cbn [cells vars].
    - rewrite !app_length. cbn [length]. lia.
    - intros w Hw. rewrite app_length in Hw. cbn [length] in Hw. rewrite !nth_error_snoc, L.
      destruct (Nat.eqb_spec w (length fs)) as [->|N].
      + exists l, c, f. auto.
      + destruct (S w) as (l' & c' & g & X); [lia|]. exists l', c', g. exact X.
    - intros x y Hx Hy. rewrite app_length in Hx, Hy. cbn [length] in Hx, Hy. unfold bind_to.
      assert (P : forall z, z < length fs + 1 -> nth z (vars m ++ [l]) 0 = nth (if Nat.eqb z (length fs) then v else z) (vars m) 0).
      { intros z Hz. destruct (Nat.eqb_spec z (length fs)) as [->|N].
        - rewrite app_nth2 by lia. rewrite L, Nat.sub_diag. cbn [nth]. now rewrite Hl.
        - now rewrite app_nth1 by lia. }
      rewrite !P by assumption. apply I; destruct (Nat.eqb_spec x (length fs)), (Nat.eqb_spec y (length fs)); lia.
    - intros x y H. rewrite app_length in H. cbn [length] in H. unfold bind_to.
      destruct (Nat.eqb_spec x (length fs)) as [->|N1], (Nat.eqb_spec y (length fs)) as [->|N2]; try lia.
      + rewrite U by lia. destruct (Nat.eqb_spec v y), (Nat.eqb_spec (length fs) y); lia.
      + rewrite U by lia. destruct (Nat.eqb_spec x v), (Nat.eqb_spec x (length fs)); lia.
      + apply U. lia.
  Qed.

  (** *** A new map in a new variable *)
  Lemma inv_new ok m fs b c f : inv ok m fs b -> R c f ->
    inv ok (mkMemory (cells m ++ [c]) (vars m ++ [length (cells m)])) (fs ++ [f]) b.
  Proof.
    intros [L S I U] HR. split; cbn [cells vars].
    - rewrite !app_length. cbn [length]. lia.
    - intros w Hw. rewrite app_length in Hw. cbn [length] in Hw. rewrite !nth_error_snoc, L.
      destruct (Nat.eqb_spec w (length fs)) as [->|N].
      + exists (length (cells m)), c, f. rewrite nth_error_snoc, Nat.eqb_refl. auto.
      + destruct (S w) as (l' & c' & g & E1 & E2 & X); [lia|]. exists l', c', g. rewrite nth_error_snoc.
        assert (l' < length (cells m)) by (apply nth_error_Some; congruence).
        destruct (Nat.eqb_spec l' (length (cells m))); [lia|]. auto.
    - intros x y Hx Hy. rewrite app_length in Hx, Hy. cbn [length] in Hx, Hy.
      assert (P : forall z, z < length fs -> nth z (vars m ++ [length (cells m)]) 0 = nth z (vars m) 0 /\ nth z (vars m) 0 < length (cells m)).
      { intros z Hz. rewrite app_nth1 by lia. split; [reflexivity|]. destruct (S z Hz) as (l & c' & g & E1 & E2 & _).
        rewrite (nth_error_nth _ _ 0 E1). apply nth_error_Some. congruence. }
      assert (P' : nth (length fs) (vars m ++ [length (cells m)]) 0 = length (cells m)).
      { rewrite app_nth2 by lia. now rewrite L, Nat.sub_diag. }
      destruct (Nat.eq_dec x (length fs)) as [->|N1], (Nat.eq_dec y (length fs)) as [->|N2].
      + rewrite U by lia. now rewrite !Nat.eqb_refl.
      + rewrite U by lia. rewrite P'. destruct (P y) as [-> ?]; [lia|].
        destruct (Nat.eqb_spec (length fs) y), (Nat.eqb_spec (length (cells m)) (nth y (vars m) 0)); lia.
      + rewrite U by lia. rewrite P'. destruct (P x) as [-> ?]; [lia|].
        destruct (Nat.eqb_spec x (length fs)), (Nat.eqb_spec (nth x (vars m) 0) (length (cells m))); lia.
      + destruct (P x) as [-> _]; [lia|]. destruct (P y) as [-> _]; [lia|]. apply I; lia.
    - intros x y H. rewrite app_length in H. cbn [length] in H. apply U. lia.
  Qed.

  (** *** A new map in an old variable *)
  Lemma inv_clear ok m fs b v c g : inv ok m fs b -> v < length fs -> R c g ->
    inv (fun w => w = v \/ ok w) (mkMemory (cells m ++ [c]) (list_set (vars m) v (length (cells m)))) (list_set fs v g) (unbind b v).
  Proof.
    intros [L S I U] Hv HR. split; cbn [cells vars].
    - now rewrite !length_list_set.
    - intros w Hw. rewrite length_list_set in Hw. rewrite !nth_error_list_set, L.
      destruct (Nat.eqb_spec v w) as [<-|N].
      + rewrite (proj2 (Nat.ltb_lt _ _) Hv). exists (length (cells m)), c, g. rewrite nth_error_snoc, Nat.eqb_refl. auto.
      + destruct (S w Hw) as (l' & c' & g' & E1 & E2 & E3 & X). exists l', c', g'. rewrite nth_error_snoc.
        assert (l' < length (cells m)) by (apply nth_error_Some; congruence).
        destruct (Nat.eqb_spec l' (length (cells m))); [lia|]. split; [exact E1|]. split; [exact E2|]. split; [exact E3|].
        intros [->|H']; [congruence|auto].
    - intros x y Hx Hy. rewrite length_list_set in Hx, Hy. unfold unbind.
      assert (P : forall z, z < length fs -> nth z (list_set (vars m) v (length (cells m))) 0 = if Nat.eqb z v then length (cells m) else nth z (vars m) 0).
      { intros z Hz. destruct (Nat.eqb_spec z v) as [->|N].
        - apply nth_error_nth. rewrite nth_error_list_set, Nat.eqb_refl, L, (proj2 (Nat.ltb_lt _ _) Hv). reflexivity.
        - destruct (S z Hz) as (l & c' & g' & E1 & _). rewrite (nth_error_nth _ _ 0 E1). apply nth_error_nth.
          rewrite nth_error_list_set. destruct (Nat.eqb_spec v z); [congruence|exact E1]. }
      assert (P' : forall z, z < length fs -> nth z (vars m) 0 < length (cells m)).
      { intros z Hz. destruct (S z Hz) as (l & c' & g' & E1 & E2 & _). rewrite (nth_error_nth _ _ 0 E1). apply nth_error_Some. congruence. }
      rewrite !P by assumption. pose proof (P' x Hx). pose proof (P' y Hy).
      destruct (Nat.eqb_spec x v) as [->|N1], (Nat.eqb_spec y v) as [->|N2]; cbn [orb].
      + now rewrite !Nat.eqb_refl.
      + destruct (Nat.eqb_spec v y), (Nat.eqb_spec (length (cells m)) (nth y (vars m) 0)); lia.
      + destruct (Nat.eqb_spec x v), (Nat.eqb_spec (nth x (vars m) 0) (length (cells m))); lia.
      + now apply I.
    - intros x y H. rewrite length_list_set in H. unfold unbind. destruct (_ || _)%bool; [reflexivity|now apply U].
  Qed.

  (** *** A change of the map of v: the contents of v become g; [seen w] says which others follow. *)
  Lemma inv_write (ok ok' : nat -> Prop) m fs b v l c g gs : inv ok m fs b -> v < length fs -> nth_error (vars m) v = Some l ->
    length gs = length fs -> R c g ->
    (forall w, w < length fs -> nth_error gs w = if b v w then Some g else nth_error fs w) \/
    (nth_error gs v = Some g /\ forall w, w < length fs -> w <> v -> nth_error gs w = nth_error fs w /\ (ok' w -> b v w = false)) ->
    (forall w, w < length fs -> w <> v -> b v w = false -> ok' w -> ok w) ->
    inv ok' (mkMemory (list_set (cells m) l c) (vars m)) gs b.
  Proof.
    intros [L S I U] Hv El Lg HR HG Hok. split; cbn [cells vars].
    - congruence.
    - rewrite Lg. intros w Hw. destruct (S w Hw) as (l' & c' & f & E1 & E2 & E3 & X). rewrite E1.
      assert (Hb : b v w = Nat.eqb l l') by (rewrite (I v w Hv Hw), (nth_error_nth _ _ 0 El), (nth_error_nth _ _ 0 E1); reflexivity).
      assert (l' < length (cells m)) by (apply nth_error_Some; congruence).
      exists l'. rewrite nth_error_list_set. destruct (Nat.eqb_spec l l') as [<-|N].
      + rewrite (proj2 (Nat.ltb_lt _ _)) by assumption. exists c. destruct HG as [HG|[Gv HG]].
        * rewrite (HG w Hw), Hb. exists g. auto.
        * destruct (Nat.eq_dec w v) as [->|Nw]; [exists g; auto|]. destruct (HG w Hw Nw) as [-> Hk].
          exists f. split; [reflexivity|]. split; [reflexivity|]. split; [exact E3|]. intros Ho. apply Hk in Ho. congruence.
      + exists c'. assert (Nw : w <> v) by (intros ->; congruence). destruct HG as [HG|[Gv HG]].
        * rewrite (HG w Hw), Hb. exists f. split; [reflexivity|]. split; [exact E2|]. split; [exact E3|]. intros Ho. apply X, (Hok w); auto.
        * destruct (HG w Hw Nw) as [-> Hk]. exists f. split; [reflexivity|]. split; [exact E2|]. split; [exact E3|]. intros Ho. apply X, (Hok w); auto.
    - rewrite Lg. exact I.
    - rewrite Lg. exact U.
  Qed.

  Lemma args ok m fs b vs : inv ok m fs b -> Forall (fun v => v < length fs /\ ok v) vs ->
    exists gs, map (nth_error fs) vs = map Some gs /\
      Forall2 R (map (fun v => nth (nth v (vars m) (length (cells m))) (cells m) zero) vs) gs.
  Proof.
    intros [L S I U]. induction 1 as [|v r [Hv Ho] _ IH]; [exists []; split; [reflexivity|constructor]|].
    destruct IH as (gs & E & G). destruct (S v Hv) as (l & c & f & E1 & E2 & E3 & X).
    exists (f :: gs). cbn [map]. rewrite E3, E. split; [reflexivity|]. constructor; [|exact G].
    destruct (at_eq m v l c E1 E2) as [-> ->]. auto.
  Qed.

  Fixpoint spread (b : nat -> bool) (g : F) (fs : list F) (k : nat) : list F :=
    match fs with [] => [] | f :: r => (if b k then g else f) :: spread b g r (S k) end.
  Lemma spread_length b g fs k : length (spread b g fs k) = length fs.
  Proof. revert k. induction fs as [|f r IH]; intros k; cbn [spread length]; [reflexivity|now rewrite IH]. Qed.
  Lemma spread_nth b g fs : forall k w, w < length fs -> nth_error (spread b g fs k) w = if b (k + w) then Some g else nth_error fs w.
  Proof.
    induction fs as [|f r IH]; intros k w H; cbn [length] in H; [lia|].
    destruct w as [|w]; cbn [spread nth_error]; [rewrite Nat.add_0_r; now destruct (b k)|].
    rewrite IH by lia. now rewrite Nat.add_succ_comm.
  Qed.

  (** *** All programs *)
  Theorem run_bound ops : forall n m fs b, inv (fun _ => True) m fs b -> scoped makes (length fs) ops -> Forall form ops ->
    bound doing from done clears (fs, b) ops (snd (run n m ops)).
  Proof.
    induction ops as [|o r IH]; intros n m fs b HI HS HF; cbn [h_run]; [constructor|].
    inversion_clear HF as [|? ? Fo Fr]. destruct o as [v|v o|q vs]; cbn [scoped] in HS; destruct HS as [Hv HS].
    - cbn [h_step]. destruct (i_see _ _ _ _ HI v Hv) as (l & c & f & E1 & E2 & E3 & X).
      pose proof (inv_copy _ m fs b v f HI Hv E3) as HI'.
      assert (HI2 := inv_weaken _ (fun _ => True) _ _ _ (fun w _ _ => if_true w fs) HI').
      specialize (IH (S n) _ _ _ HI2). destruct (run (S n) _ r) as [m'' rs] eqn:Er. cbn [snd] in *.
      econstructor; [eapply b_copy; exact E3|]. apply IH; [|exact Fr]. rewrite app_length. cbn [length]. now rewrite Nat.add_1_r.
    - cbn [h_step]. destruct (i_see _ _ _ _ HI v Hv) as (l & c & f & E1 & E2 & E3 & X).
      destruct (at_eq m v l c E1 E2) as [-> ->].
      destruct (Hmethod n c f o (X Logic.I)) as (g & Hd & HR). destruct (method n c o) as [c' a] eqn:Em. cbn [fst snd] in Hd, HR.
      destruct (clears o) eqn:Ec.
      + pose proof (inv_clear _ m fs b v c' g HI Hv HR) as HI'.
        assert (HI2 := inv_weaken _ (fun _ => True) _ _ _ (fun w _ _ => or_intror Logic.I) HI').
        specialize (IH (S n) _ _ _ HI2). destruct (run (S n) _ r) as [m'' rs] eqn:Er. cbn [snd] in *.
        econstructor; [eapply b_clear; eassumption|]. apply IH; [|exact Fr]. now rewrite length_list_set.
      + pose proof (inv_write (fun _ => True) (fun _ => True) m fs b v l c' g (spread (b v) g fs 0) HI Hv E1 (spread_length _ _ _ _) HR
          (or_introl (fun w Hw => spread_nth (b v) g fs 0 w Hw)) (fun _ _ _ _ _ => Logic.I)) as HI'.
        specialize (IH (S n) _ _ _ HI'). destruct (run (S n) _ r) as [m'' rs] eqn:Er. cbn [snd] in *.
        econstructor; [eapply b_do; [exact Ec|exact E3|exact Hd|apply (spread_length (b v) g fs 0)|]|].
        * intros w Hw. apply (spread_nth (b v) g fs 0 w Hw).
        * apply IH; [|exact Fr]. now rewrite spread_length.
    - cbn [h_step]. destruct (args _ m fs b vs HI) as (gs & Eg & HR); [eapply Forall_impl; [|exact Hv]; cbn beta; auto|].
      destruct (Hfunction n vs _ gs q HR (eq_sym (map_length _ _)) Fo) as (rr & Hfr & Hc).
      set (cs := map (fun v => nth (nth v (vars m) (length (cells m))) (cells m) zero) vs) in *. destruct (function n cs q) as [rc a] eqn:Ef. cbn [fst snd] in Hfr, Hc.
      destruct rc as [c|], rr as [f|]; try contradiction.
      + destruct Hc as [HRc Mk]. rewrite Mk in HS. pose proof (inv_new _ m fs b c f HI HRc) as HI'.
        specialize (IH (S n) _ _ _ HI'). destruct (run (S n) _ r) as [m'' rs] eqn:Er. cbn [snd] in *.
        econstructor; [eapply b_from; eassumption|]. apply IH; [|exact Fr]. cbn [new_one]. rewrite app_length. cbn [length]. now rewrite Nat.add_1_r.
      + rewrite Hc in HS. specialize (IH (S n) _ _ _ HI). destruct (run (S n) _ r) as [m'' rs] eqn:Er. cbn [snd] in *.
        econstructor; [eapply b_from; eassumption|]. cbn [new_one]. rewrite app_nil_r. now apply IH.
  Qed.

  (** *** Careful programs *)
  Definition live (ops : list (cop O Q)) (w : nat) : Prop := forgotten clears w ops = false.
  Theorem run_values ops : forall n m fs b, inv (live ops) m fs b -> scoped makes (length fs) ops -> Forall form ops ->
    careful clears makes writes (length fs) b ops -> values doing from done fs ops (snd (run n m ops)).
  Proof.
    induction ops as [|o r IH]; intros n m fs b HI HS HF HC; cbn [h_run]; [constructor|].
    inversion_clear HF as [|? ? Fo Fr]. destruct o as [v|v o|q vs]; cbn [scoped] in HS; destruct HS as [Hv HS]; cbn [careful] in HC.
    - cbn [h_step]. destruct (i_see _ _ _ _ HI v Hv) as (l & c & f & E1 & E2 & E3 & X).
      pose proof (inv_copy _ m fs b v f HI Hv E3) as HI'.
      assert (HI2 : inv (live r) (mkMemory (cells m) (vars m ++ [nth v (vars m) (length (cells m))])) (fs ++ [f]) (bind_to b (length fs) v)).
      { eapply inv_weaken; [|exact HI']. intros w _ Hl. unfold live in *. cbn [forgotten]. destruct (Nat.eqb w (length fs)).
        - rewrite Nat.eqb_refl. reflexivity.
        - rewrite Hl. apply Bool.andb_false_r. }
      assert (Lf : length (fs ++ [f]) = S (length fs)) by (rewrite app_length; cbn [length]; lia).
      specialize (IH (S n) _ _ _ HI2). rewrite Lf in IH. destruct (run (S n) _ r) as [m'' rs] eqn:Er. cbn [snd] in *.
      econstructor; [eapply v_copy; exact E3|]. now apply IH.
    - destruct HC as [HW HC]. cbn [h_step]. destruct (i_see _ _ _ _ HI v Hv) as (l & c & f & E1 & E2 & E3 & X).
      destruct (at_eq m v l c E1 E2) as [-> ->]. unfold live in X. cbn [forgotten] in X. rewrite Nat.eqb_refl in X.
      assert (Wk : forall w, w <> v -> live r w -> live (Do v o :: r) w).
      { intros w N. unfold live. cbn [forgotten]. destruct (Nat.eqb_spec v w); [congruence|auto]. }
      destruct (clears o) eqn:Ec.
      + destruct (Hclear n c f o Ec) as (g & Hd & HR). destruct (method n c o) as [c' a] eqn:Em. cbn [fst snd] in Hd, HR.
        assert (HI2 : inv (live r) (mkMemory (cells m ++ [c']) (list_set (vars m) v (length (cells m)))) (list_set fs v g) (unbind b v)).
        { eapply inv_weaken; [|exact (inv_clear _ m fs b v c' g HI Hv HR)]. intros w _ Hl. destruct (Nat.eq_dec w v) as [->|N]; [now left|].
          right. now apply Wk. }
        specialize (IH (S n) _ _ _ HI2). rewrite length_list_set in IH. destruct (run (S n) _ r) as [m'' rs] eqn:Er. cbn [snd] in *.
        econstructor; [eapply v_do; eassumption|]. now apply IH.
      + destruct (Hmethod n c f o (X eq_refl)) as (g & Hd & HR).
        assert (HI2 : inv (live r) (mkMemory (list_set (cells m) l (fst (method n c o))) (vars m)) (list_set fs v g) b).
        { destruct (writes o) eqn:Ew.
          - apply inv_write with (ok := live (Do v o :: r)) (fs := fs) (v := v) (g := g); auto using length_list_set.
            right. rewrite nth_error_list_set, Nat.eqb_refl, (proj2 (Nat.ltb_lt _ _) Hv). split; [reflexivity|].
            intros w Hw N. rewrite nth_error_list_set. destruct (Nat.eqb_spec v w); [congruence|]. split; [reflexivity|].
            intros Hl. destruct (b v w) eqn:Eb; [|reflexivity]. unfold live in Hl. rewrite (HW eq_refl w Hw N Eb) in Hl. discriminate.
          - rewrite (Hread n c o Ew Ec), (list_set_there _ _ _ E2). rewrite (Hread n c o Ew Ec) in HR.
            assert (HI3 : inv (live r) m (list_set fs v g) b).
            { apply inv_read with (l := l) (c := c); auto.
              destruct HI as [L S I U]. split; try assumption. intros w Hw. destruct (S w Hw) as (l' & c' & f' & Y1 & Y2 & Y3 & Y4).
              exists l', c', f'. split; [exact Y1|]. split; [exact Y2|]. split; [exact Y3|]. intros Hl.
              destruct (Nat.eq_dec w v) as [->|N]; [|apply Y4; now apply Wk]. apply Y4. unfold live. cbn [forgotten]. now rewrite Nat.eqb_refl. }
            destruct m; exact HI3. }
        destruct (method n c o) as [c' a] eqn:Em. cbn [fst snd] in Hd, HI2.
        specialize (IH (S n) _ _ _ HI2). rewrite length_list_set in IH. destruct (run (S n) _ r) as [m'' rs] eqn:Er. cbn [snd] in *.
        econstructor; [eapply v_do; eassumption|]. now apply IH.
    - cbn [h_step]. destruct (args _ m fs b vs HI) as (gs & Eg & HR).
      { rewrite Forall_forall in *. intros v Hin. split; [now apply Hv|]. unfold live. cbn [forgotten].
        assert (existsb (Nat.eqb v) vs = true) as -> by (apply existsb_exists; exists v; split; [exact Hin|apply Nat.eqb_refl]). reflexivity. }
      assert (HI1 : inv (live r) m fs b).
      { eapply inv_weaken; [|exact HI]. intros w _ Hl. unfold live in *. cbn [forgotten]. rewrite Hl. apply Bool.andb_false_r. }
      destruct (Hfunction n vs _ gs q HR (eq_sym (map_length _ _)) Fo) as (rr & Hfr & Hc).
      set (cs := map (fun v => nth (nth v (vars m) (length (cells m))) (cells m) zero) vs) in *. destruct (function n cs q) as [rc a] eqn:Ef. cbn [fst snd] in Hfr, Hc.
      destruct rc as [c|], rr as [f|]; try contradiction.
      + destruct Hc as [HRc Mk]. rewrite Mk in HS, HC. pose proof (inv_new _ m fs b c f HI1 HRc) as HI'.
        assert (Lf : length (fs ++ [f]) = S (length fs)) by (rewrite app_length; cbn [length]; lia).
        specialize (IH (S n) _ _ _ HI'). rewrite Lf in IH. destruct (run (S n) _ r) as [m'' rs] eqn:Er. cbn [snd] in *.
        econstructor; [eapply v_from; eassumption|]. now apply IH.
      + rewrite Hc in HS, HC. specialize (IH (S n) _ _ _ HI1). destruct (run (S n) _ r) as [m'' rs] eqn:Er. cbn [snd] in *.
        econstructor; [eapply v_from; eassumption|]. cbn [new_one]. rewrite app_nil_r. now apply IH.
  Qed.

  Lemma inv_start ok : inv ok h_start [] unbound.
  Proof. split; cbn [length]; intros; try lia; reflexivity. Qed.
End Machine.

Section Maps.
  Context {K V : Type}.
  Variable keqb : K -> K -> bool.
  Hypothesis HE : equivalence keqb.
  Variable ords : nat -> order K V.
  Hypothesis Hords : forall n, fair (ords n).

  Definition mR (c : gomap K V) (f : mcontents) : Prop :=
    match c, f with
    | Some m, Some f => wf keqb m /\ forall k, lookup keqb m k = f k
    | None, None => True
    | _, _ => False
    end.
  Lemma z_exec_made ord (m : HashMap K V) o : z_exec keqb ord (Some m) o = (Some (fst (exec keqb ord m o)), Some (snd (exec keqb ord m o))).
  Proof. destruct o; reflexivity. Qed.
  Lemma m_method_ok n c f o : mR c f -> exists g, mdoing keqb f o g (snd (m_method keqb ords n c o)) /\ mR (fst (m_method keqb ords n c o)) g.
  Proof.
    unfold m_method. destruct c as [m|], f as [f|]; cbn [mR]; try contradiction.
    - intros [W L]. destruct (exec_step keqb HE (ords n) m o f (Hords n) W L) as (g & S & W' & L'). rewrite z_exec_made. cbn [fst snd].
      exists (Some g). split; [now constructor|]. now split.
    - intros _. assert (W : wf keqb (@nil (K * V))) by exact Logic.I.
      destruct (exec_step keqb HE (ords n) [] o nothing (Hords n) W (fun k => eq_refl)) as (g & S & W' & L').
      destruct o; cbn [z_exec z_Insert z_Remove z_Clear entries fst snd option_map]; 
        try (exists None; split; [eapply md_other; [discriminate|discriminate|exact S]|exact Logic.I]).
      + exists None. split; [constructor|exact Logic.I].
      + exists (Some nothing). split; [constructor|]. split; [exact Logic.I|reflexivity].
  Qed.
  Lemma m_method_clear n c f o : mclears o = true -> exists g, mdoing keqb f o g (snd (m_method keqb ords n c o)) /\ mR (fst (m_method keqb ords n c o)) g.
  Proof.
    destruct o; cbn [mclears]; try discriminate. intros _. unfold m_method. cbn [z_exec fst snd z_Clear]. exists (Some nothing).
    split; [destruct f as [f|]; repeat constructor|]. split; [exact Logic.I|reflexivity].
  Qed.
  Lemma m_method_read n (c : gomap K V) o : mwrites o = false -> mclears o = false -> fst (m_method keqb ords n c o) = c.
  Proof. destruct o; cbn [mclears mwrites]; try discriminate; reflexivity. Qed.
  Lemma m_function_ok n (vs : list nat) cs gs q : Forall2 mR cs gs -> length vs = length cs -> mform (V := V) (K := K) (From q vs) ->
    exists r, mfrom gs q r (snd (m_function (K := K) (V := V) n cs q)) /\
      match fst (m_function n cs q), r with Some c, Some f => mR c f /\ mmakes q = true | None, None => mmakes q = false | _, _ => False end.
  Proof.
    cbn [mform]. intros F L ->. destruct F; [|discriminate]. unfold m_function. cbn [fst snd].
    destruct q; (eexists; split; [constructor|split; [|reflexivity]]); try exact Logic.I; (split; [exact Logic.I|reflexivity]).
  Qed.
  Theorem map_bound ops : scoped mmakes 0 ops -> Forall mform ops ->
    bound (mdoing keqb) mfrom (Some Done) mclears ([], unbound) ops (map_program keqb ords ops).
  Proof.
    intros HS HF. unfold map_program. apply run_bound with (makes := mmakes) (form := mform) (R := mR);
      first [exact m_method_ok|exact m_function_ok|apply inv_start|assumption].
  Qed.
  Theorem map_values ops : scoped mmakes 0 ops -> Forall mform ops -> careful mclears mmakes mwrites 0 unbound ops ->
    values (mdoing keqb) mfrom (Some Done) [] ops (map_program keqb ords ops).
  Proof.
    intros HS HF HC. unfold map_program.
    apply run_values with (makes := mmakes) (form := mform) (R := mR) (writes := mwrites) (b := unbound);
      first [exact m_method_ok|exact m_method_clear|exact m_method_read|exact m_function_ok|apply inv_start|assumption].
  Qed.
End Maps.

Section Sets.
  Context {K : Type}.
  Variable keqb : K -> K -> bool.
  Hypothesis HE : equivalence keqb.
  Variable clone : K -> K.
  Hypothesis Hclone : forall x, keqb (clone x) x = true.
  Variable ords : nat -> nat -> sorder K.
  Hypothesis Hords : forall n i, fair (ords n i).

  Definition sR (c : goset) (f : scontents) : Prop :=
    match c, f with
    | Some m, Some p => shows keqb m p
    | None, None => True
    | _, _ => False
    end.
  Lemma first_step n (s : HashSet K) p o : shows keqb s p ->
    exists s' a p', sexec keqb clone (ords n) [s] (on_first o) = Ret ([s'], a) /\ sstep keqb [p] (on_first o) [p'] a /\ shows keqb s' p'.
  Proof.
    intros H. destruct (sexec_step keqb HE clone (ords n) [s] [p] (on_first o) Hclone (Hords n)) as (hs & a & ps & E & S & F); [constructor; [exact H|constructor]|].
    assert (exists p', ps = [p']) as [p' ->] by (destruct o; cbn [on_first] in S; inversion S; subst; eexists; reflexivity).
    inversion F as [|s' ? ? ? Hs Hn]; subst. inversion Hn; subst. eauto 8.
  Qed.
  Lemma s_method_ok n c f o : sR c f -> exists g, sdoing keqb f o g (snd (s_method keqb clone ords n c o)) /\ sR (fst (s_method keqb clone ords n c o)) g.
  Proof.
    unfold s_method. destruct c as [m|], f as [p|]; cbn [sR]; try contradiction.
    - intros H. destruct (first_step n m p o H) as (s' & a & p' & E & S & H'). exists (Some p').
      assert (z_sexec keqb clone (ords n) (@cons goset (Some m) nil) (ZeroSpec.Do (on_first o)) = (@cons goset (Some s') nil, Some a)) as ->.
      { destruct o; cbn [on_first] in *; cbn in E; injection E as <- <-; try reflexivity. }
      cbn [fst snd nth]. split; [now constructor|exact H'].
    - intros _. destruct (first_step n [] (fun _ => False) o (empty_shows keqb)) as (s' & a & p' & E & S & H').
      destruct o; cbn [on_first] in *; cbn in E; injection E as <- <-;
        try (exists None; split; [cbn; eapply sd_other; [discriminate|discriminate|exact S]|exact Logic.I]).
      + exists None. split; [constructor|exact Logic.I].
      + exists (Some (fun _ => False)). split; [constructor|]. apply empty_shows.
  Qed.
  Lemma s_method_clear n c f o : sclears o = true -> exists g, sdoing keqb f o g (snd (s_method keqb clone ords n c o)) /\ sR (fst (s_method keqb clone ords n c o)) g.
  Proof.
    destruct o; cbn [sclears]; try discriminate. intros _. exists (Some (fun _ => False)). split; [|apply empty_shows].
    destruct f as [f|]; cbn; [|constructor]. apply sd_made. exact (ss_clear keqb [f] 0).
  Qed.
  Lemma s_method_read n (c : goset) o : swrites o = false -> sclears o = false -> fst (s_method keqb clone ords n c o) = c.
  Proof. destruct o; cbn [sclears swrites]; try discriminate; destruct c; reflexivity. Qed.
  Lemma entries_shows cs gs : Forall2 sR cs gs -> Forall2 (shows keqb) (map entries cs) (map elements_of gs).
  Proof.
    induction 1 as [|c g cs gs H _ IH]; cbn [map]; constructor; [|exact IH].
    destruct c, g; cbn [sR entries elements_of] in *; try contradiction; [exact H|apply empty_shows].
  Qed.
  Lemma s_function_ok n (vs : list nat) cs gs q : Forall2 sR cs gs -> length vs = length cs -> sform (K := K) (From q vs) ->
    exists r, sfrom keqb gs q r (snd (s_function keqb clone ords n cs q)) /\
      match fst (s_function keqb clone ords n cs q), r with Some c, Some f => sR c f /\ smakes q = true | None, None => smakes q = false | _, _ => False end.
  Proof.
    intros F _ _. pose proof (entries_shows cs gs F) as G.
    destruct (sexec_step keqb HE clone (ords n) _ _ (on_both q) Hclone (Hords n) G) as (hs & a & ps & E & S & H).
    assert (L : length (map (@entries K unit) cs) = length cs) by apply map_length.
    assert (New : forall (s : HashSet K) p (X : ps = map elements_of gs ++ [p]), hs = map entries cs ++ [s] -> smakes q = true -> q <> QDeclare ->
              z_sexec keqb clone (ords n) cs (ZeroSpec.Do (on_both q)) = (cs ++ map Some (skipn (length cs) hs), Some a) ->
              s_function keqb clone ords n cs q = (let r := z_sexec keqb clone (ords n) cs (ZeroSpec.Do (on_both q)) in (nth_error (fst r) (length cs), snd r)) ->
              exists r, sfrom keqb gs q r (snd (s_function keqb clone ords n cs q)) /\
      match fst (s_function keqb clone ords n cs q), r with Some c, Some f => sR c f /\ smakes q = true | None, None => smakes q = false | _, _ => False end).
    { intros s p -> -> Mk Nd Ez ->.
      assert (Sk : skipn (length cs) (map (@entries K unit) cs ++ [s]) = [s]).
      { assert (X : skipn (length (map (@entries K unit) cs)) (map (@entries K unit) cs ++ [s]) = [s]).
        { rewrite skipn_app, skipn_all, Nat.sub_diag. reflexivity. }
        rewrite <- X at 2. f_equal. symmetry. exact L. }
      assert (Ez' : z_sexec keqb clone (ords n) cs (ZeroSpec.Do (on_both q)) = (cs ++ [Some s], Some a)).
      { etransitivity; [exact Ez|]. exact (f_equal (fun l => (cs ++ map Some l, Some a)) Sk). }
      cbn zeta. rewrite Ez'. cbn [fst snd].
      rewrite nth_error_snoc, Nat.eqb_refl. exists (Some (Some p)). split; [now constructor|]. split; [|exact Mk]. cbn [sR].
      apply Forall2_app_inv_r in H. destruct H as (l1 & l2 & H1 & H2 & E2). inversion H2 as [|? ? ? ? H3 H4]; subst. inversion H4; subst.
      apply app_inj_tail in E2. destruct E2 as [_ ->]. exact H3. }
    assert (Old : ps = map elements_of gs -> smakes q = false ->
              z_sexec keqb clone (ords n) cs (ZeroSpec.Do (on_both q)) = (cs ++ map Some (skipn (length cs) (map entries cs)), Some a) ->
              s_function keqb clone ords n cs q = (let r := z_sexec keqb clone (ords n) cs (ZeroSpec.Do (on_both q)) in (nth_error (fst r) (length cs), snd r)) ->
              exists r, sfrom keqb gs q r (snd (s_function keqb clone ords n cs q)) /\
      match fst (s_function keqb clone ords n cs q), r with Some c, Some f => sR c f /\ smakes q = true | None, None => smakes q = false | _, _ => False end).
    { intros -> Mk Ez ->.
      assert (Sk : skipn (length cs) (map (@entries K unit) cs) = []) by (apply skipn_all2; apply Nat.eq_le_incl; exact L).
      assert (Ez' : z_sexec keqb clone (ords n) cs (ZeroSpec.Do (on_both q)) = (cs ++ [], Some a)).
      { etransitivity; [exact Ez|]. exact (f_equal (fun l => (cs ++ map Some l, Some a)) Sk). }
      rewrite app_nil_r in Ez'. cbn zeta. rewrite Ez'. cbn [fst snd].
      rewrite (proj2 (nth_error_None cs (length cs))) by lia. exists None. split; [now constructor|exact Mk]. }
    destruct q; cbn [on_both] in *; try (cbn [sexec] in E; injection E as <- <-; inversion S; subst).
    - unfold s_function. cbn [z_sexec fst snd]. rewrite nth_error_snoc, Nat.eqb_refl. exists (Some None).
      split; [constructor|]. split; [exact Logic.I|reflexivity].
    - eapply New; try reflexivity; discriminate.
    - eapply New; try reflexivity; discriminate.
    - eapply New; try reflexivity; discriminate.
    - eapply New; try reflexivity; discriminate.
    - eapply New; try reflexivity; discriminate.
    - cbn [sexec] in E. destruct (sClone _ _ _ _) as [s| |] eqn:Es; cbn [bind] in E; try discriminate. injection E as <- <-. inversion S; subst.
      eapply New; try reflexivity; try discriminate. cbn [z_sexec sexec]. rewrite Es. reflexivity.
    - apply Old; reflexivity.
    - apply Old; reflexivity.
    - apply Old; reflexivity.
    - apply Old; reflexivity.
  Qed.
  Theorem set_bound ops : scoped smakes 0 ops -> Forall sform ops ->
    bound (sdoing keqb) (sfrom keqb) (Some SDone) sclears ([], unbound) ops (set_program keqb clone ords ops).
  Proof.
    intros HS HF. unfold set_program. apply run_bound with (makes := smakes) (form := sform) (R := sR);
      first [exact s_method_ok|exact s_function_ok|apply inv_start|assumption].
  Qed.
  Theorem set_values ops : scoped smakes 0 ops -> Forall sform ops -> careful sclears smakes swrites 0 unbound ops ->
    values (sdoing keqb) (sfrom keqb) (Some SDone) [] ops (set_program keqb clone ords ops).
  Proof.
    intros HS HF HC. unfold set_program.
    apply run_values with (makes := smakes) (form := sform) (R := sR) (writes := swrites) (b := unbound);
      first [exact s_method_ok|exact s_method_clear|exact s_method_read|exact s_function_ok|apply inv_start|assumption].
  Qed.
End Sets.
