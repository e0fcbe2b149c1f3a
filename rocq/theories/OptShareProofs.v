(** OptShareProofs.v -- simulations between cells, tags and values. *)
From Coq Require Import List Arith Bool Lia.
From Verif Require Import Base BaseLemmas OptionModel OptShareSpec OptShareModel.
Import ListNotations.

Lemma set_eq {A} (f : nat -> A) x a : set f x a x = a.
Proof. unfold set. now rewrite Nat.eqb_refl. Qed.
Lemma set_neq {A} (f : nat -> A) x y a : y <> x -> set f x a y = f y.
Proof. unfold set. intros. now destruct (Nat.eqb_spec y x). Qed.

Section Tags.
  Context {T : Type}.
  (** A pointer shows a tagged value. *)
  Definition shows (h : list T) (a : opt) (o : option (T * nat)) : Prop :=
    match a, o with
    | Some c, Some (v, t) => nth_error h c = Some v
    | None, None => True
    | _, _ => False
    end.
  Record sim (s : state (T := T)) (t : tstate T) : Prop := {
    sim_vals : forall x, shows (cells s) (vars s x) (tval t x);
    sim_fresh : forall x v u, tval t x = Some (v, u) -> u < fresh t;
    sim_tags : forall x y c d v w u u', vars s x = Some c -> vars s y = Some d ->
      tval t x = Some (v, u) -> tval t y = Some (w, u') -> (c = d <-> u = u');
    sim_refs : forall r x, tat t r = Some x -> exists c, refs s r = Some c /\ vars s x = Some c
  }.
  (** The right-hand side evaluated: a result that fits with the variables. *)
  Definition fits (s : state (T := T)) (t : tstate T) (a : opt) (o : option (T * nat)) : Prop :=
    shows (cells s) a o /\ (forall v u, o = Some (v, u) -> u < fresh t) /\
    (forall y c d v w u u', a = Some c -> vars s y = Some d -> o = Some (v, u) -> tval t y = Some (w, u') -> (c = d <-> u = u')).

  Lemma shows_None h o : shows h None o -> o = None.
  Proof. destruct o as [[]|]; cbn; tauto. Qed.
  Lemma shows_Some h c o : shows h (Some c) o -> exists v t, o = Some (v, t) /\ nth_error h c = Some v.
  Proof. destruct o as [[v t]|]; cbn; [eauto|tauto]. Qed.
  Lemma shows_app h e a o : shows h a o -> shows (h ++ e) a o.
  Proof.
    destruct a as [c|], o as [[v t]|]; cbn; auto. intros H. rewrite nth_error_app1; auto. apply nth_error_Some. congruence.
  Qed.
  Lemma sim_cell s t : sim s t -> forall x c, vars s x = Some c -> c < length (cells s).
  Proof.
    intros H x c E. pose proof (sim_vals _ _ H x) as Q. rewrite E in Q. apply shows_Some in Q as (v & u & _ & N).
    apply nth_error_Some. congruence.
  Qed.

  Lemma put_sim s t x a o : sim s t -> fits s t a o -> sim (put s x a) (tset t x o).
  Proof.
    intros H (F1 & F2 & F3). constructor; cbn.
    - intros y. unfold set. destruct (Nat.eqb y x); auto. apply (sim_vals _ _ H).
    - intros y v u. unfold set. destruct (Nat.eqb y x); intros E; eauto. eapply (sim_fresh _ _ H); eauto.
    - intros y z c d v w u u'. unfold set. destruct (Nat.eqb y x), (Nat.eqb z x); intros A B C D; try congruence.
      + split; congruence.
      + eapply F3; eauto.
      + pose proof (F3 y d c w v u' u B A D C). split; intros E; symmetry; apply H0; auto.
      + eapply (sim_tags _ _ H); eauto.
    - intros r y. unfold ends. destruct (tat t r) as [z|] eqn:E; [|discriminate]. destruct (Nat.eqb_spec z x) as [->|N]; [discriminate|].
      intros [= <-]. destruct (sim_refs _ _ H r z E) as (c & A & B). exists c. now rewrite set_neq.
  Qed.
  Lemma refer_sim s t r x c : sim s t -> vars s x = Some c -> sim (mkS (cells s) (vars s) (set (refs s) r (Some c))) (trefer t r x).
  Proof.
    intros H E. constructor; cbn.
    - apply (sim_vals _ _ H).
    - apply (sim_fresh _ _ H).
    - apply (sim_tags _ _ H).
    - intros r' y. unfold set. destruct (Nat.eqb r' r).
      + intros [= <-]. eauto.
      + apply (sim_refs _ _ H).
  Qed.
  (** A new cell with a new tag. *)
  Definition grown (s : state (T := T)) (v : T) : state := with_cells s (cells s ++ [v]).
  Definition aged (t : tstate T) : tstate T := mkT (tval t) (tat t) (S (fresh t)).
  Lemma grow_sim s t v : sim s t -> sim (grown s v) (aged t) /\ fits (grown s v) (aged t) (Some (length (cells s))) (Some (v, fresh t)).
  Proof.
    intros H. split.
    - constructor; cbn.
      + intros x. apply shows_app, (sim_vals _ _ H).
      + intros x w u E. apply (sim_fresh _ _ H) in E. lia.
      + apply (sim_tags _ _ H).
      + apply (sim_refs _ _ H).
    - split; [|split]; cbn.
      + rewrite nth_error_app2, Nat.sub_diag by lia. reflexivity.
      + intros w u [= <- <-]. lia.
      + intros y c d w w' u u' [= <-] A [= <- <-] B. apply (sim_cell _ _ H) in A. apply (sim_fresh _ _ H) in B. lia.
  Qed.
  Lemma fits_var s t y : sim s t -> fits s t (vars s y) (tval t y).
  Proof.
    intros H. split; [apply (sim_vals _ _ H)|]. split.
    - apply (sim_fresh _ _ H).
    - intros. eapply (sim_tags _ _ H); eauto.
  Qed.
  Lemma fits_None s t : fits s t None None.
  Proof. split; [exact I|]. split; discriminate. Qed.
  Lemma fits_put s t x a o b p : fits s t a o -> fits s t b p ->
    (forall c d v w u u', a = Some c -> b = Some d -> o = Some (v, u) -> p = Some (w, u') -> (c = d <-> u = u')) ->
    fits (put s x b) (tset t x p) a o.
  Proof.
    intros (A1 & A2 & A3) (B1 & B2 & B3) C. split; [exact A1|]. split; [exact A2|]. cbn.
    intros y c d v w u u' E. unfold set. destruct (Nat.eqb y x); intros; [eapply C|eapply A3]; eauto.
  Qed.
  Lemma none_var s t y : sim s t -> IsNone (vars s y) = match tval t y with Some _ => false | None => true end.
  Proof. intros H. pose proof (sim_vals _ _ H y) as Q. destruct (vars s y), (tval t y) as [[]|]; cbn in *; tauto. Qed.

  Lemma eval_sim s t e : sim s t -> exists s' a, eval s e = Ret (s', a) /\ sim s' (fst (teval t e)) /\ fits s' (fst (teval t e)) a (snd (teval t e)).
  Proof.
    intros H. destruct e as [v| |y|y f|y z|y z|y z|y f|y f|y|y v]; cbn.
    - do 2 eexists. split; [reflexivity|]. apply grow_sim, H.
    - do 2 eexists. split; [reflexivity|]. split; [exact H|apply fits_None].
    - do 2 eexists. split; [reflexivity|]. split; [exact H|apply fits_var, H].
    - pose proof (fits_var s t y H) as F. unfold HFilter. destruct (vars s y) as [c|] eqn:E.
      + destruct (shows_Some _ _ _ (proj1 F)) as (v & u & Q & N). cbn. rewrite N, Q in *. cbn. destruct (f v).
        * do 2 eexists. split; [reflexivity|]. split; [exact H|exact F].
        * do 2 eexists. split; [reflexivity|]. split; [exact H|apply fits_None].
      + rewrite (shows_None _ _ (proj1 F)). cbn. do 2 eexists. split; [reflexivity|]. split; [exact H|apply fits_None].
    - do 2 eexists. split; [reflexivity|]. split; [exact H|]. unfold HOr. rewrite (none_var s t y H). destruct (tval t y) eqn:E.
      + rewrite <- E. apply fits_var, H.
      + apply fits_var, H.
    - do 2 eexists. split; [reflexivity|]. split; [exact H|]. unfold HOrElse. rewrite (none_var s t y H). destruct (tval t y) eqn:E.
      + rewrite <- E. apply fits_var, H.
      + apply fits_var, H.
    - do 2 eexists. split; [reflexivity|]. split; [exact H|]. unfold HXor. rewrite (none_var s t y H), (none_var s t z H).
      pose proof (fits_var s t y H) as F. pose proof (fits_var s t z H) as G.
      destruct (tval t y) eqn:E, (tval t z) eqn:E2; try exact F; try exact G; apply fits_None.
    - pose proof (fits_var s t y H) as F. unfold HMap. destruct (vars s y) as [c|] eqn:E.
      + destruct (shows_Some _ _ _ (proj1 F)) as (v & u & Q & N). cbn. rewrite N, Q in *. cbn.
        do 2 eexists. split; [reflexivity|]. apply grow_sim, H.
      + rewrite (shows_None _ _ (proj1 F)). cbn. do 2 eexists. split; [reflexivity|]. split; [|apply fits_None].
        destruct s; exact H.
    - pose proof (fits_var s t y H) as F. unfold HClone. destruct (vars s y) as [c|] eqn:E.
      + destruct (shows_Some _ _ _ (proj1 F)) as (v & u & Q & N). cbn. rewrite N, Q in *. cbn.
        do 2 eexists. split; [reflexivity|]. apply grow_sim, H.
      + rewrite (shows_None _ _ (proj1 F)). cbn. do 2 eexists. split; [reflexivity|]. split; [|apply fits_None].
        destruct s; exact H.
    - pose proof (fits_var s t y H) as F. unfold Take. destruct (vars s y) as [c|] eqn:E.
      + destruct (shows_Some _ _ _ (proj1 F)) as (v & u & Q & N). cbn. rewrite N, Q in *. cbn.
        do 2 eexists. split; [reflexivity|]. destruct (grow_sim s t v H) as [G1 G2]. split.
        * apply (put_sim _ _ y None None G1), fits_None.
        * apply (fits_put _ _ y _ _ None None G2); [apply fits_None|discriminate].
      + pose proof (shows_None _ _ (proj1 F)) as Q. rewrite Q in *. cbn. do 2 eexists. split; [reflexivity|]. split; [|apply fits_None].
        constructor; cbn.
        * intros x. unfold set. destruct (Nat.eqb_spec x y) as [->|]; [now rewrite Q|apply (sim_vals _ _ H)].
        * apply (sim_fresh _ _ H).
        * intros x z c d v w u u'. unfold set. destruct (Nat.eqb x y), (Nat.eqb z y); try discriminate. apply (sim_tags _ _ H).
        * intros r x R. destruct (sim_refs _ _ H r x R) as (c & A & B). exists c. rewrite set_neq; auto. congruence.
    - pose proof (fits_var s t y H) as F. unfold Replace. destruct (vars s y) as [c|] eqn:E.
      + destruct (shows_Some _ _ _ (proj1 F)) as (w & u & Q & N). cbn. rewrite N, Q in *. cbn.
        do 2 eexists. split; [reflexivity|]. destruct (grow_sim s t v H) as [G1 G2].
        pose proof (put_sim _ _ y _ _ G1 G2) as G3. destruct (grow_sim _ _ w G3) as [G4 G5]. split; [exact G4|exact G5].
      + pose proof (shows_None _ _ (proj1 F)) as Q. rewrite Q in *. cbn. do 2 eexists. split; [reflexivity|]. split; [|apply fits_None].
        constructor; cbn.
        * intros x. unfold set. destruct (Nat.eqb_spec x y) as [->|]; [now rewrite Q|apply (sim_vals _ _ H)].
        * apply (sim_fresh _ _ H).
        * intros x z c d v' w u u'. unfold set. destruct (Nat.eqb x y), (Nat.eqb z y); try discriminate. apply (sim_tags _ _ H).
        * intros r x R. destruct (sim_refs _ _ H r x R) as (c & A & B). exists c. rewrite set_neq; auto. congruence.
  Qed.

  Lemma insert_sim s t x v r : sim s t -> sim (keep_ref s x r (Insert (cells s) (vars s x) v)) (trefer (tmake t x v) r x).
  Proof.
    intros H. destruct (grow_sim s t v H) as [G1 G2]. pose proof (put_sim _ _ x _ _ G1 G2) as G3.
    apply (refer_sim _ _ r x (length (cells s)) G3). cbn. apply set_eq.
  Qed.
  Lemma step_sim s t c t' b : sim s t -> tstep t c = Some (t', b) -> exists s', step s c = Ret (s', b) /\ sim s' t'.
  Proof.
    intros H. destruct c as [x e|x v r|x v r|r v|r|x|x].
    - cbn [tstep step]. destruct (eval_sim s t e H) as (s' & a & E & S & F). destruct (teval t e) as [t1 o]. cbn [fst snd] in *.
      intros [= <- <-]. rewrite E. cbn. eexists. split; [reflexivity|]. now apply put_sim.
    - cbn [tstep step]. intros [= <- <-]. eexists. split; [reflexivity|]. now apply insert_sim.
    - cbn [tstep step]. intros [= <- <-]. eexists. split; [reflexivity|].
      pose proof (sim_vals _ _ H x) as Q. destruct (vars s x) as [c|] eqn:E.
      + apply shows_Some in Q as (w & u & Q & N). rewrite Q. pose proof (refer_sim s t r x c H E) as G.
        assert (V : forall z, set (vars s) x (Some c) z = vars s z) by (intros z; unfold set; destruct (Nat.eqb_spec z x); congruence).
        constructor; cbn.
        * intros z. rewrite V. apply (sim_vals _ _ G).
        * apply (sim_fresh _ _ G).
        * intros z z'. rewrite !V. apply (sim_tags _ _ G).
        * intros r' z R. destruct (sim_refs _ _ G r' z R) as (c' & A & B). exists c'. now rewrite V.
      + apply shows_None in Q. rewrite Q. pose proof (insert_sim s t x v r H) as G. rewrite E in G. exact G.
    - cbn [tstep step]. destruct (tat t r) as [x|] eqn:A; [|discriminate]. destruct (tval t x) as [[w u]|] eqn:B; [|discriminate].
      intros [= <- <-]. destruct (sim_refs _ _ H r x A) as (c & C & D). rewrite C. cbn. eexists. split; [reflexivity|].
      pose proof (sim_cell _ _ H x c D) as L. constructor; cbn.
      + intros y. pose proof (sim_vals _ _ H y) as Q. destruct (vars s y) as [d|] eqn:E.
        * apply shows_Some in Q as (w' & u' & Q & N). rewrite Q. cbn. unfold write.
          pose proof (sim_tags _ _ H y x d c w' w u' u E D Q B) as I. destruct (Nat.eqb_spec u' u) as [U|U].
          -- apply I in U as ->. now apply nth_error_list_set_eq.
          -- rewrite nth_error_list_set_neq; [exact N|]. intros ->. apply U, I. reflexivity.
        * apply shows_None in Q. now rewrite Q.
      + intros y v' u' E. destruct (tval t y) as [[w' u'']|] eqn:F; [|discriminate]. injection E as <- <-. eapply (sim_fresh _ _ H); eauto.
      + intros y z c' d' v' w' u1 u2 E1 E2 F1 F2. destruct (tval t y) as [[? ?]|] eqn:G1; [|discriminate].
        destruct (tval t z) as [[? ?]|] eqn:G2; [|discriminate]. injection F1 as _ <-. injection F2 as _ <-.
        eapply (sim_tags _ _ H); eauto.
      + apply (sim_refs _ _ H).
    - cbn [tstep step]. destruct (tat t r) as [x|] eqn:A; [|discriminate]. destruct (tval t x) as [[w u]|] eqn:B; [|discriminate].
      intros [= <- <-]. destruct (sim_refs _ _ H r x A) as (c & C & D). pose proof (sim_vals _ _ H x) as Q. rewrite D, B in Q. cbn in Q.
      rewrite C. cbn. rewrite Q. cbn. eauto.
    - cbn [tstep step]. intros [= <- <-]. eexists. split; [|exact H]. f_equal. f_equal. f_equal.
      pose proof (none_var s t x H) as N. destruct (vars s x), (tval t x); cbn in *; congruence.
    - cbn [tstep step]. intros [= <- <-]. eexists. split; [|exact H]. f_equal. f_equal. f_equal.
      pose proof (sim_vals _ _ H x) as Q. destruct (vars s x) as [c|] eqn:E.
      + apply shows_Some in Q as (w & u & Q & N). rewrite Q. cbn. now rewrite N.
      + apply shows_None in Q. now rewrite Q.
  Qed.
  Lemma start_sim : sim (start (T := T)) tstart.
  Proof. constructor; cbn; auto; discriminate. Qed.
  Lemma run_sim p : forall s t l, sim s t -> trun t p = Some l -> run s p = Ret l.
  Proof.
    induction p as [|c p IH]; intros s t l H; cbn.
    - congruence.
    - destruct (tstep t c) as [[t' b]|] eqn:E; [|discriminate]. destruct (trun t' p) as [l'|] eqn:R; [|discriminate].
      intros [= <-]. destruct (step_sim s t c t' b H E) as (s' & E' & H'). rewrite E'. cbn. rewrite (IH _ _ _ H' R). reflexivity.
  Qed.

  (** *** Tags and values. *)
  Record same (t : tstate T) (v : vstate T) : Prop := {
    same_val : forall x, untag (tval t x) = val v x;
    same_at : forall r, tat t r = at_ v r
  }.
  (** References refer to variables with values. *)
  Definition live (t : tstate T) : Prop := forall r x, tat t r = Some x -> tval t x <> None.
  Lemma same_set t v x o o' : same t v -> untag o = o' -> same (tset t x o) (vset v x o').
  Proof.
    intros H E. constructor; cbn.
    - intros y. unfold set. destruct (Nat.eqb y x); auto. apply (same_val _ _ H).
    - intros r. unfold ends. now rewrite (same_at _ _ H).
  Qed.
  Lemma same_made t v o : same t v -> same (fst (made t o)) v /\ untag (snd (made t o)) = o.
  Proof. intros H. destruct o; cbn; split; auto. constructor; cbn; [apply (same_val _ _ H)|apply (same_at _ _ H)]. Qed.
  Lemma same_eval t v e : same t v -> same (fst (teval t e)) (fst (veval v e)) /\ untag (snd (teval t e)) = snd (veval v e).
  Proof.
    intros H. pose proof (same_val _ _ H) as V. destruct e as [w| |y|y f|y z|y z|y z|y f|y f|y|y w]; cbn [teval veval fst snd].
    - now apply same_made.
    - auto.
    - auto.
    - split; [exact H|]. rewrite <- V. destruct (tval t y) as [[w u]|]; cbn; auto. destruct (f w); auto.
    - split; [exact H|]. rewrite <- !V. destruct (tval t y) as [[w u]|]; cbn; auto.
    - split; [exact H|]. rewrite <- !V. destruct (tval t y) as [[w u]|]; cbn; auto.
    - split; [exact H|]. rewrite <- !V. destruct (tval t y) as [[w u]|], (tval t z) as [[w' u']|]; cbn; auto.
    - rewrite <- V. now apply same_made.
    - rewrite <- V. now apply same_made.
    - rewrite <- V. destruct (tval t y) as [[w u]|]; cbn.
      + split; [|reflexivity]. pose proof (same_set t v y None None H eq_refl) as [A B]. constructor; cbn; auto.
      + auto.
    - rewrite <- V. destruct (tval t y) as [[w' u]|]; cbn.
      + split; [|reflexivity]. pose proof (same_set t v y (Some (w, fresh t)) (Some w) H eq_refl) as [A B]. constructor; cbn; auto.
      + auto.
  Qed.
  Lemma live_set t x o : live t -> live (tset t x o).
  Proof.
    intros H r y. cbn. unfold ends. destruct (tat t r) as [z|] eqn:E; [|discriminate]. destruct (Nat.eqb_spec z x); [discriminate|].
    intros [= <-]. rewrite set_neq by auto. eauto.
  Qed.
  Lemma live_made t o : live t -> live (fst (made t o)).
  Proof. destruct o; auto. Qed.
  Lemma live_eval t e : live t -> live (fst (teval t e)).
  Proof.
    intros H. destruct e; cbn [teval fst]; auto using live_made.
    - apply live_made. destruct (tval t y); auto using live_set.
    - destruct (tval t y) as [[w u]|]; auto. cbn. intros r x. apply (live_set (mkT (tval t) (tat t) (S (fresh t))) y); auto.
  Qed.
  Lemma live_refer t r x : live t -> tval t x <> None -> live (trefer t r x).
  Proof. intros H N r' y. cbn. unfold set. destruct (Nat.eqb r' r); [congruence|eauto]. Qed.
  Lemma live_make t r x v : live t -> live (trefer (tmake t x v) r x).
  Proof.
    intros H. apply live_refer; [|cbn; rewrite set_eq; discriminate].
    apply (live_set (mkT (tval t) (tat t) (S (fresh t)))). exact H.
  Qed.
  Lemma live_step t c t' b : live t -> tstep t c = Some (t', b) -> live t'.
  Proof.
    intros H. destruct c as [x e|x v r|x v r|r v|r|x|x]; cbn [tstep].
    - pose proof (live_eval t e H). destruct (teval t e). intros [= <- <-]. now apply live_set.
    - intros [= <- <-]. now apply live_make.
    - intros [= <- <-]. destruct (tval t x) eqn:E; [apply live_refer; [exact H|congruence]|now apply live_make].
    - destruct (tat t r) as [x|]; [|discriminate]. destruct (tval t x) as [[w u]|]; [|discriminate]. intros [= <- <-].
      intros r' y R. cbn in *. specialize (H _ _ R). destruct (tval t y) as [[]|]; congruence.
    - destruct (tat t r) as [x|]; [|discriminate]. destruct (tval t x) as [[w u]|]; [|discriminate]. intros [= <- <-]. exact H.
    - intros [= <- <-]. exact H.
    - intros [= <- <-]. exact H.
  Qed.
  Lemma same_refer t v r x : same t v -> same (trefer t r x) (vrefer v r x).
  Proof. intros [A B]. constructor; cbn; auto. intros r'. unfold set. destruct (Nat.eqb r' r); auto. Qed.
  (** Outside writes, tags make no difference. *)
  Lemma same_step t v c : same t v -> live t -> writes c = false ->
    match vstep v c with
    | Some (v', b) => exists t', tstep t c = Some (t', b) /\ same t' v'
    | None => tstep t c = None
    end.
  Proof.
    intros H L W. pose proof (same_val _ _ H) as V. destruct c as [x e|x w r|x w r|r w|r|x|x]; cbn [vstep tstep]; try discriminate.
    - destruct (same_eval t v e H) as [A B]. destruct (teval t e) as [t' o], (veval v e) as [v' o']. cbn in A, B.
      eexists. split; [reflexivity|]. now apply same_set.
    - eexists. split; [reflexivity|]. apply same_refer. pose proof (same_set t v x (Some (w, fresh t)) (Some w) H eq_refl) as [A B]. constructor; auto.
    - eexists. split; [reflexivity|]. rewrite <- V. destruct (tval t x) as [[w' u]|]; cbn.
      + now apply same_refer.
      + apply same_refer. pose proof (same_set t v x (Some (w, fresh t)) (Some w) H eq_refl) as [A B]. constructor; auto.
    - rewrite <- (same_at _ _ H). destruct (tat t r) as [x|] eqn:R; auto. rewrite <- V. destruct (tval t x) as [[w u]|]; cbn; eauto.
    - eexists. split; [|exact H]. rewrite <- V. now destruct (tval t x) as [[]|].
    - eexists. split; [|exact H]. now rewrite <- V.
  Qed.
  Lemma calm_run p : forall t v, same t v -> live t -> Forall (fun c => writes c = false) p -> trun t p = vrun v p.
  Proof.
    induction p as [|c p IH]; intros t v H L F; [reflexivity|]. inversion F as [|? ? W F']; subst. cbn.
    pose proof (same_step t v c H L W) as Q. destruct (vstep v c) as [[v' b]|].
    - destruct Q as (t' & E & H'). rewrite E. rewrite (IH t' v'); auto. eapply live_step; eauto.
    - now rewrite Q.
  Qed.

  (** Without derived options all tags differ. *)
  Definition apart (t : tstate T) : Prop :=
    (forall x v u, tval t x = Some (v, u) -> u < fresh t) /\
    (forall x y v w u, tval t x = Some (v, u) -> tval t y = Some (w, u) -> x = y).
  Lemma apart_none t x : apart t -> apart (tset t x None).
  Proof.
    intros [A B]. split; cbn; unfold set; intros y; [|intros z]; intros *.
    - destruct (Nat.eqb y x); [discriminate|]. apply A.
    - destruct (Nat.eqb y x), (Nat.eqb z x); try discriminate. apply B.
  Qed.
  Lemma apart_aged t : apart t -> apart (aged t).
  Proof. intros [A B]. split; cbn; auto. intros x v u E. apply A in E. lia. Qed.
  Lemma apart_fresh t x v : apart t -> apart (tset (aged t) x (Some (v, fresh t))).
  Proof.
    intros [A B]. split; cbn; unfold set; intros y; [|intros z]; intros *.
    - destruct (Nat.eqb y x); [intros [= <- <-]; lia|]. intros E. apply A in E. lia.
    - destruct (Nat.eqb_spec y x) as [->|], (Nat.eqb_spec z x) as [->|]; auto.
      + intros [= <- <-] E. apply A in E. lia.
      + intros E [= <- <-]. apply A in E. lia.
      + apply B.
  Qed.
  Lemma apart_ext t t' : apart t -> (forall x, tval t x = tval t' x) -> fresh t = fresh t' -> apart t'.
  Proof. intros [A B] E F. split; intros x; [|intros y]; rewrite <- ?E, <- ?F; [apply A|apply B]. Qed.
  Lemma apart_made t x o : apart t -> apart (tset (fst (made t o)) x (snd (made t o))).
  Proof. destruct o; cbn [made fst snd]; [apply apart_fresh|apply apart_none]. Qed.
  Lemma apart_step t c t' b : apart t -> derives c = false -> tstep t c = Some (t', b) -> apart t'.
  Proof.
    intros H D. destruct c as [x e|x v r|x v r|r v|r|x|x]; cbn [tstep].
    - destruct e as [w| |y|y f|y z|y z|y z|y f|y f|y|y w]; try discriminate; cbn [teval].
      + intros [= <- <-]. now apply apart_fresh.
      + intros [= <- <-]. now apply apart_none.
      + pose proof (apart_made t x (option_map f (untag (tval t y))) H) as Q. destruct (made t _) as [t1 o]. intros [= <- <-]. exact Q.
      + pose proof (apart_made t x (option_map f (untag (tval t y))) H) as Q. destruct (made t _) as [t1 o]. intros [= <- <-]. exact Q.
      + match goal with |- context [made ?t1 ?o] => pose proof (apart_made t1 x o) as Q; destruct (made t1 o) as [t2 o'] end.
        intros [= <- <-]. apply Q. destruct (tval t y); auto using apart_none.
      + destruct (tval t y) as [[w' u]|]; cbn.
        * intros [= <- <-]. apply (apart_fresh (tset (aged t) y (Some (w, fresh t)))). now apply apart_fresh.
        * intros [= <- <-]. now apply apart_none.
    - intros [= <- <-]. apply (apart_ext (tset (aged t) x (Some (v, fresh t)))); auto using apart_fresh.
    - intros [= <- <-]. destruct (tval t x); [exact H|]. apply (apart_ext (tset (aged t) x (Some (v, fresh t)))); auto using apart_fresh.
    - destruct (tat t r) as [x|]; [|discriminate]. destruct (tval t x) as [[w u]|]; [|discriminate]. intros [= <- <-].
      destruct H as [A B]. split; cbn.
      + intros y v' u' E. destruct (tval t y) as [[]|] eqn:F; [|discriminate]. injection E as <- <-. eauto.
      + intros y z v' w' u' E1 E2. destruct (tval t y) as [[? ?]|] eqn:F; [|discriminate]. destruct (tval t z) as [[? ?]|] eqn:G; [|discriminate].
        assert (n = u') by congruence. assert (n0 = u') by congruence. subst. eapply B; eauto.
    - destruct (tat t r) as [x|]; [|discriminate]. destruct (tval t x) as [[w u]|]; [|discriminate]. intros [= <- <-]. exact H.
    - intros [= <- <-]. exact H.
    - intros [= <- <-]. exact H.
  Qed.
  Lemma write_step t v r w : same t v -> live t -> apart t ->
    match vstep v (Write r w) with
    | Some (v', b) => exists t', tstep t (Write r w) = Some (t', b) /\ same t' v'
    | None => tstep t (Write r w) = None
    end.
  Proof.
    intros H L [_ A]. cbn. rewrite <- (same_at _ _ H). destruct (tat t r) as [x|] eqn:R; auto.
    pose proof (L _ _ R) as N. destruct (tval t x) as [[w0 u]|] eqn:E; [|congruence]. eexists. split; [reflexivity|].
    constructor; cbn.
    - intros y. unfold set. destruct (Nat.eqb_spec y x) as [->|Y].
      + rewrite E. cbn. now rewrite Nat.eqb_refl.
      + rewrite <- (same_val _ _ H). destruct (tval t y) as [[w1 u1]|] eqn:F; auto. cbn. destruct (Nat.eqb_spec u1 u) as [->|]; auto.
        now elim Y; eapply A; eauto.
    - apply (same_at _ _ H).
  Qed.
  Lemma unshared_run p : forall t v, same t v -> live t -> apart t -> Forall (fun c => derives c = false) p -> trun t p = vrun v p.
  Proof.
    induction p as [|c p IH]; intros t v H L A F; [reflexivity|]. inversion F as [|? ? D F']; subst. cbn.
    assert (Q : match vstep v c with
                | Some (v', b) => exists t', tstep t c = Some (t', b) /\ same t' v'
                | None => tstep t c = None
                end).
    { destruct (writes c) eqn:W; [|now apply same_step]. destruct c; try discriminate. now apply write_step. }
    destruct (vstep v c) as [[v' b]|].
    - destruct Q as (t' & E & H'). rewrite E. rewrite (IH t' v'); auto.
      + eapply live_step; eauto.
      + eapply apart_step; eauto.
    - now rewrite Q.
  Qed.
  Lemma start_same : same (tstart (T := T)) vstart.
  Proof. constructor; auto. Qed.
  Lemma start_live : live (tstart (T := T)).
  Proof. intros r x. discriminate. Qed.
  Lemma start_apart : apart (tstart (T := T)).
  Proof. split; intros; discriminate. Qed.
End Tags.
