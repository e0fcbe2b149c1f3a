(** ListMoveProofs.v -- a list that is copied and not used any more: the copy takes its place. *)
From Verif Require Import Base BaseLemmas Effect ListModel ListProofs ListRunProofs.
From Verif Require Import ListHistory ListShareSpec ListShareModel.
From Verif Require ListSpec.
Import ListSpec(lstep, countable, apart).
Local Open Scope nat_scope.

Section Sets.
  Context {A : Type}.
  Lemma list_set_twice : forall (l : list A) i x y, list_set (list_set l i x) i y = list_set l i y.
  Proof. induction l as [|z l IH]; intros [|i] x y; cbn [list_set]; [reflexivity..|]. now rewrite IH. Qed.
  Lemma list_set_commute : forall (l : list A) i j x y, i <> j -> list_set (list_set l i x) j y = list_set (list_set l j y) i x.
  Proof.
    induction l as [|z l IH]; intros [|i] [|j] x y N; cbn [list_set]; try reflexivity; [congruence|]. now rewrite IH by congruence.
  Qed.
  Lemma map_set : forall B (f : A -> B) (l : list A) i x, map f (list_set l i x) = list_set (map f l) i (f x).
  Proof. induction l as [|z l IH]; intros [|i] x; cbn [list_set map]; [reflexivity..|]. now rewrite IH. Qed.
  Lemma list_set_app : forall (l k : list A) i x, i < length l -> list_set (l ++ k) i x = list_set l i x ++ k.
  Proof.
    induction l as [|z l IH]; intros k [|i] x L; cbn [list_set app length] in *; [lia..|reflexivity|]. now rewrite IH by lia.
  Qed.
End Sets.

Section Moves.
  Context {T : Type}.
  Variable eqb : T -> T -> bool.
  Variable clone : T -> T.
  Notation exec := (exec eqb clone).
  Notation lstep := (lstep eqb clone).

  Definition setv (w : world T) (d : nat) (l : LinkedList) : world T := mkWorld (cells w) (list_set (vars w) d l).

  Lemma upd_other : forall (l l' : list LinkedList) i x d y, i <> d -> upd l i x = Ret l' -> upd (list_set l d y) i x = Ret (list_set l' d y).
  Proof.
    intros l l' i x d y N H. destruct (Nat.lt_ge_cases i (length l)) as [L|L].
    - rewrite upd_Ret in H by auto. injection H as <-. rewrite upd_Ret by now rewrite list_set_length. now rewrite (list_set_commute l d i) by auto.
    - unfold upd in H. apply Nat.ltb_ge in L. rewrite L in H. discriminate.
  Qed.
  Lemma upd_keeps : forall (l l' : list LinkedList) i x d, i <> d -> upd l i x = Ret l' -> nth_error l' d = nth_error l d.
  Proof.
    intros l l' i x d N H. destruct (Nat.lt_ge_cases i (length l)) as [L|L].
    - rewrite upd_Ret in H by auto. injection H as <-. now rewrite nth_error_list_set_neq by auto.
    - unfold upd in H. apply Nat.ltb_ge in L. rewrite L in H. discriminate.
  Qed.
  Lemma idx_other : forall (l : list LinkedList) i d y, i <> d -> idx (list_set l d y) i = idx l i.
  Proof. intros l i d y N. unfold idx. now rewrite nth_error_list_set_neq by auto. Qed.

  Lemma method_other : forall A w v (f : LinkedList -> M (heap T) (LinkedList * A)) r d, v <> d -> method w v f = Ret r ->
    nth_error (vars (fst r)) d = nth_error (vars w) d /\ forall l, method (setv w d l) v f = Ret (setv (fst r) d l, snd r).
  Proof.
    intros A w v f r d N H. unfold method in *. cbn [vars cells setv].
    destruct (idx (vars w) v) as [k| |] eqn:Ei; try discriminate. cbn [bind] in H.
    destruct (f k (cells w)) as [[[k' a] h']| |] eqn:Ef; try discriminate. cbn [bind fst snd] in H.
    destruct (upd (vars w) v k') as [vs| |] eqn:Eu; try discriminate. cbn [bind] in H. injection H as <-. cbn [fst snd vars cells].
    split; [now apply (upd_keeps _ _ _ _ _ N Eu)|]. intros l. rewrite idx_other, Ei by auto. cbn [bind]. rewrite Ef. cbn [bind fst snd].
    rewrite (upd_other _ _ _ _ _ l N Eu). reflexivity.
  Qed.
  Lemma exec_other : forall w o w' a d, exec w o = Ret (w', a) -> ~ In d (mentions (GCall o)) -> d < length (vars w) ->
    nth_error (vars w') d = nth_error (vars w) d /\ forall l, exec (setv w d l) o = Ret (setv w' d l, a).
  Proof.
    intros w o w' a d H N L.
    assert (Me : forall B v (f : LinkedList -> M (heap T) (LinkedList * B)) w' a, v <> d -> method w v f = Ret (w', a) ->
              nth_error (vars w') d = nth_error (vars w) d /\ forall l, method (setv w d l) v f = Ret (setv w' d l, a)).
    { intros B v f w0 a0 D E. exact (method_other _ _ _ _ _ _ D E). }
    destruct o as [|v x|v x|v|v|v|v|v x|v x|v|v|v|v u|v|v u|v]; cbn [mentions In ListHistory.exec] in *; unfold modify in *; try (apply Me; [intuition|exact H]).
    - injection H as <- <-. cbn [vars cells setv]. split; [now apply nth_error_app1|]. intros l. unfold setv. cbn [vars cells]. now rewrite list_set_app.
    - destruct (Nat.eqb v u); [apply Me; [intuition|exact H]|].
      destruct (idx (vars w) v) as [k| |] eqn:Ei; try discriminate. cbn [bind] in H.
      destruct (idx (vars w) u) as [m| |] eqn:Ej; try discriminate. cbn [bind] in H.
      destruct (Append k m (cells w)) as [[[k' m'] h']| |] eqn:Ef; try discriminate. cbn [bind fst snd] in H.
      destruct (upd (vars w) v k') as [vs| |] eqn:Eu; try discriminate. cbn [bind] in H.
      destruct (upd vs u m') as [vs'| |] eqn:Eu'; try discriminate. cbn [bind] in H. injection H as <- <-. cbn [vars cells setv].
      assert (Nv : v <> d) by intuition. assert (Nu : u <> d) by intuition.
      split; [rewrite (upd_keeps _ _ _ _ _ Nu Eu'); exact (upd_keeps _ _ _ _ _ Nv Eu)|]. intros l.
      rewrite !idx_other, Ei, Ej by auto. cbn [bind]. rewrite Ef. cbn [bind fst snd]. rewrite (upd_other _ _ _ _ d l Nv Eu). cbn [bind].
      rewrite (upd_other _ _ _ _ d l Nu Eu'). reflexivity.
    - destruct (idx (vars w) v) as [k| |] eqn:Ei; try discriminate. cbn [bind] in H.
      destruct (ListModel.Clone (Some clone) k (cells w)) as [[k' h']| |] eqn:Ef; try discriminate. cbn [bind fst snd] in H.
      injection H as <- <-. cbn [vars cells setv]. split; [now apply nth_error_app1|]. intros l.
      rewrite idx_other, Ei by intuition. cbn [bind]. rewrite Ef. cbn [bind fst snd]. unfold setv. cbn [vars cells]. now rewrite list_set_app.
    - destruct (idx (vars w) v) as [k| |] eqn:Ei; try discriminate. cbn [bind] in H.
      destruct (idx (vars w) u) as [m| |] eqn:Ej; try discriminate. cbn [bind] in H.
      destruct (ListModel.Eq (Some eqb) k m (cells w)) as [[b h']| |] eqn:Ef; try discriminate. cbn [bind fst snd] in H.
      injection H as <- <-. cbn [vars cells setv]. split; [reflexivity|]. intros l.
      rewrite !idx_other, Ei, Ej by intuition. cbn [bind]. rewrite Ef. reflexivity.
  Qed.

  (** The list that is gone is empty, for the argument. *)
  Definition blank {A} (e : A) (gone : list nat) (w : list A) : list A := fold_right (fun v w => list_set w v e) w gone.
  Lemma blank_length : forall A (e : A) gone w, length (blank e gone w) = length w.
  Proof. induction gone as [|d gone IH]; intros w; cbn [blank fold_right]; [reflexivity|]. rewrite list_set_length. apply IH. Qed.
  Lemma blank_other : forall A (e : A) gone w v, ~ In v gone -> nth_error (blank e gone w) v = nth_error w v.
  Proof.
    induction gone as [|d gone IH]; intros w v N; cbn [blank fold_right In] in *; [reflexivity|].
    rewrite nth_error_list_set_neq by intuition. apply IH. intuition.
  Qed.
  Lemma blank_app : forall A (e : A) gone w k, (forall v, In v gone -> v < length w) -> blank e gone (w ++ k) = blank e gone w ++ k.
  Proof.
    induction gone as [|d gone IH]; intros w k L; cbn [blank fold_right]; [reflexivity|]. fold (blank e gone (w ++ k)). fold (blank e gone w).
    rewrite IH by (intros v Hv; apply L; now right). rewrite list_set_app; [reflexivity|]. rewrite blank_length. apply L. now left.
  Qed.
  Definition bworld gone (w : world T) : world T := mkWorld (cells w) (blank LinkedListNew gone (vars w)).

  Lemma exec_blank : forall gone w o w2 a, (forall v, In v (mentions (GCall o)) -> ~ In v gone) -> (forall v, In v gone -> v < length (vars w)) ->
    exec (bworld gone w) o = Ret (w2, a) -> exists w', exec w o = Ret (w', a) /\ bworld gone w' = w2.
  Proof.
    induction gone as [|d gone IH]; intros w o w2 a M L E.
    - exists w2. destruct w, w2. split; [exact E|reflexivity].
    - assert (Ld : d < length (vars w)) by (apply L; now left).
      assert (Nd : ~ In d (mentions (GCall o))) by (intros I; apply (M d I); now left).
      assert (Lb : d < length (vars (bworld (d :: gone) w))) by (cbn [bworld vars]; now rewrite blank_length).
      destruct (exec_other _ _ _ _ d E Nd Lb) as [K R].
      destruct (nth_error (vars (bworld gone w)) d) as [l|] eqn:El; [|apply nth_error_None in El; cbn [bworld vars] in El; rewrite blank_length in El; lia].
      specialize (R l). unfold setv, bworld in R. cbn [vars cells blank fold_right] in R.
      rewrite list_set_twice in R. fold (blank LinkedListNew gone (vars w)) in R. cbn [bworld vars] in El. rewrite (list_set_same _ _ _ El) in R.
      destruct (IH w o (mkWorld (cells w2) (list_set (vars w2) d l)) a) as (w' & E' & B').
      + intros v Hv I. apply (M v Hv). now right.
      + intros v Hv. apply L. now right.
      + exact R.
      + exists w'. split; [exact E'|]. unfold bworld in *. cbn [blank fold_right]. fold (blank LinkedListNew gone (vars w')).
        injection B' as Ec Ev. rewrite Ec, Ev, list_set_twice.
        assert (Same : nth_error (vars w2) d = Some LinkedListNew).
        { rewrite K. cbn [vars]. change (blank LinkedListNew (d :: gone) (vars w)) with (list_set (blank LinkedListNew gone (vars w)) d LinkedListNew).
          rewrite nth_error_list_set_eq; [reflexivity|]. now rewrite blank_length. }
        rewrite (list_set_same _ _ _ Same). now destruct w2.
  Qed.

  (** The same for the lists of the specification. *)
  Lemma lstep_other : forall s o s' a d x, lstep s o s' a -> ~ In d (mentions (GCall o)) -> d < length s ->
    lstep (list_set s d x) o (list_set s' d x) a.
  Proof.
    intros s o s' a d x H N L.
    assert (Kp : forall v (k : list T), v <> d -> nth_error s v = Some k -> nth_error (list_set s d x) v = Some k)
      by (intros v k D Hv; now rewrite nth_error_list_set_neq by auto).
    destruct H; cbn [mentions In] in N;
      try match goal with |- context [list_set (list_set ?w ?v ?y) d x] => rewrite (list_set_commute w v d y x) by intuition end;
      rewrite ?list_set_app by auto;
      try (econstructor; apply Kp; [intuition|eassumption]);
      try (econstructor; (apply Kp; [intuition|eassumption])).
    - match goal with |- context [list_set (list_set ?w ?v ?y) d x] => rewrite (list_set_commute w v d y x) by intuition end.
      econstructor; [assumption| |]; (apply Kp; [intuition|eassumption]).
  Qed.
  Lemma lstep_blank : forall gone s o s' a, lstep s o s' a -> (forall v, In v (mentions (GCall o)) -> ~ In v gone) ->
    (forall v, In v gone -> v < length s) -> lstep (blank [] gone s) o (blank [] gone s') a.
  Proof.
    induction gone as [|d gone IH]; intros s o s' a H M L; [exact H|].
    change (lstep (list_set (blank [] gone s) d []) o (list_set (blank [] gone s') d []) a). apply lstep_other.
    - apply IH; auto.
      + intros v Hv I. apply (M v Hv). now right.
      + intros v Hv. apply L. now right.
    - intros I. apply (M d I). now left.
    - rewrite blank_length. apply L. now left.
  Qed.
  Lemma lstep_length : forall s o s' a, lstep s o s' a -> length s <= length s'.
  Proof. intros s o s' a H. destruct H; rewrite ?app_length, ?list_set_length; lia. Qed.
  Lemma countable_blank : forall gone (s : list (list T)), countable s -> countable (blank [] gone s).
  Proof.
    induction gone as [|d gone IH]; intros s C; [exact C|]. cbn [blank fold_right]. specialize (IH s C). fold (blank [] gone s).
    revert IH. generalize (blank [] gone s). clear. intros s C. unfold countable in *. rewrite Forall_forall in *. intros k Hk.
    apply In_nth_error in Hk. destruct Hk as [i Hi]. destruct (Nat.eq_dec d i) as [<-|D].
    - assert (d < length s) by (assert (Hd : d < length (list_set s d [])) by (apply nth_error_Some; congruence); now rewrite list_set_length in Hd).
      rewrite nth_error_list_set_eq in Hi by auto. injection Hi as <-. cbn [length]. lia.
    - rewrite nth_error_list_set_neq in Hi by auto. apply C. eapply nth_error_In; eauto.
  Qed.

  Lemma owns_copy : forall (w : world T) css v cs l, owns w css -> nth_error css v = Some cs -> nth_error (vars w) v = Some l ->
    owns (mkWorld (cells w) (list_set (vars w) v LinkedListNew ++ [l])) (list_set css v [] ++ [cs]).
  Proof.
    intros w css v cs l (L & O & P) Hv Hl.
    assert (Lv : v < length (vars w)) by (apply nth_error_Some; congruence). assert (Lc : v < length css) by lia.
    assert (In_old : forall i (ds : list (nat * T)), nth_error (list_set css v [] ++ [cs]) i = Some ds ->
              (i < length css /\ i <> v /\ nth_error css i = Some ds) \/ (i = v /\ ds = []) \/ (i = length css /\ ds = cs)).
    { intros i ds Hi. destruct (Nat.lt_ge_cases i (length css)) as [Li|Li].
      - rewrite nth_error_app1 in Hi by now rewrite list_set_length. destruct (Nat.eq_dec v i) as [<-|D].
        + rewrite nth_error_list_set_eq in Hi by auto. injection Hi as <-. auto.
        + rewrite nth_error_list_set_neq in Hi by auto. auto.
      - rewrite nth_error_app2 in Hi by now rewrite list_set_length. rewrite list_set_length in Hi.
        destruct (i - length css) as [|j] eqn:E; [|destruct j; discriminate]. injection Hi as <-. right. right. split; [lia|reflexivity]. }
    split; [cbn [vars]; rewrite !app_length, !list_set_length; cbn [length]; lia|]. cbn [vars cells]. split.
    - intros i k ds Hk Hds. destruct (In_old i ds Hds) as [(Li & Ni & Hi)|[(-> & ->)|(-> & ->)]].
      + rewrite nth_error_app1 in Hk by (rewrite list_set_length; lia). rewrite nth_error_list_set_neq in Hk by auto. eapply O; eauto.
      + rewrite nth_error_app1 in Hk by (rewrite list_set_length; lia). rewrite nth_error_list_set_eq in Hk by auto. injection Hk as <-.
        unfold own, LinkedListNew. cbn [dll first_or last_or head tail len length addrs map]. repeat split; auto; constructor.
      + rewrite nth_error_app2 in Hk by (rewrite list_set_length; lia). rewrite list_set_length, L, Nat.sub_diag in Hk. injection Hk as <-. eapply O; eauto.
    - intros i j ds es N Hi Hj. destruct (In_old i ds Hi) as [(Li & Ni & Hi')|[(-> & ->)|(-> & ->)]];
        destruct (In_old j es Hj) as [(Lj & Nj & Hj')|[(-> & ->)|(-> & ->)]]; try congruence;
        try (intros b I1 I2; cbn [addrs map] in I1, I2; solve [destruct I1|destruct I2]).
      + exact (P i j ds es N Hi' Hj').
      + apply (P i v ds cs); auto.
      + apply (P v j cs es); auto.
  Qed.

  Lemma moved_run : forall s p l, own_lists eqb clone s p l -> forall gone w css, moves gone p -> (forall v, In v gone -> v < length (vars w)) ->
    owns (bworld gone w) css -> map vals css = blank [] gone s -> length s = length (vars w) -> countable s ->
    exists w', grun eqb clone w p = Ret (w', l).
  Proof.
    induction 1 as [s|s v xs p l N Id IH|s o s' a p l St Cn Id IH]; intros gone w css M L O E Ls C; cbn [grun moves] in *.
    - eexists. reflexivity.
    - destruct M as [M1 M2]. assert (Ng : ~ In v gone) by (apply M1; now left).
      assert (Lv : v < length (vars w)) by (rewrite <- Ls; apply nth_error_Some; congruence).
      destruct (nth_error (vars w) v) as [k|] eqn:Ek; [|apply nth_error_None in Ek; lia].
      cbn [gexec]. unfold idx. rewrite Ek. cbn [of_option bind fst snd].
      assert (Ev : nth_error (map vals css) v = Some xs) by (rewrite E, blank_other; auto).
      destruct (nth_vals _ _ _ Ev) as (cs & Hc & Vc).
      assert (Kb : nth_error (vars (bworld gone w)) v = Some k) by (cbn [bworld vars]; now rewrite blank_other).
      pose proof (owns_copy _ _ _ _ _ O Hc Kb) as O'. cbn [bworld vars cells] in O'.
      destruct (IH (v :: gone) (mkWorld (cells w) (vars w ++ [k])) (list_set css v [] ++ [cs])) as (w' & Ew).
      + exact M2.
      + cbn [vars]. intros u [<-|Hu]; rewrite app_length; [|specialize (L u Hu)]; lia.
      + unfold bworld. cbn [vars cells blank fold_right]. fold (blank LinkedListNew gone (vars w ++ [k])). rewrite blank_app by auto.
        rewrite list_set_app by now rewrite blank_length. exact O'.
      + cbn [blank fold_right]. fold (blank [] gone (s ++ [xs])). rewrite blank_app by (intros u Hu; rewrite Ls; auto).
        rewrite list_set_app by (rewrite blank_length; lia). rewrite map_app, <- E. cbn [map]. rewrite Vc. f_equal.
        rewrite map_set. reflexivity.
      + rewrite !app_length. cbn [length vars]. rewrite app_length. cbn [length]. lia.
      + unfold countable in *. apply Forall_app. split; [exact C|]. constructor; [|constructor]. rewrite Forall_forall in C. apply C. eapply nth_error_In; eauto.
      + rewrite Ew. cbn [bind fst snd]. eexists. reflexivity.
    - destruct M as [M1 M2]. cbn [gexec].
      assert (St' : lstep (map vals css) o (blank [] gone s') a) by (rewrite E; apply lstep_blank; auto; intros u Hu; rewrite Ls; auto).
      destruct (exec_shape eqb clone (bworld gone w) css o (blank [] gone s') a) as (w2 & css' & Ex & O' & Ev & _); auto.
      { rewrite E. now apply countable_blank. } { now apply countable_blank. }
      destruct (exec_blank gone w o w2 a M1 L Ex) as (w' & Ew & Bw). rewrite Ew. cbn [bind fst snd].
      assert (Lw : length s' = length (vars w')).
      { rewrite <- (blank_length _ [] gone s'), Ev, map_length. destruct O' as (L' & _). rewrite L', <- Bw. cbn [bworld vars]. apply blank_length. }
      destruct (IH gone w' css') as (w3 & E3); auto.
      + intros u Hu. rewrite <- Lw. pose proof (lstep_length _ _ _ _ St). specialize (L u Hu). lia.
      + now rewrite Bw.
      + rewrite E3. cbn [bind fst snd]. eexists. reflexivity.
  Qed.
  Lemma moved_start : forall p l, own_lists eqb clone [] p l -> moves [] p -> exists w', grun eqb clone start p = Ret (w', l).
  Proof.
    intros p l H M. apply (moved_run [] p l H [] start []); auto.
    - intros v [].
    - apply owns_start.
    - constructor.
  Qed.
End Moves.
