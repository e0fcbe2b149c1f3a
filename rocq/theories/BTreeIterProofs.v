(** BTreeIterProofs.v -- the loops of the pointer iterators. *)
From Verif Require Import Base Effect DequeSpec HashModel HashSpec HashHistory HashSetProofs BTreeModel BTreeIterModel BTreeIterSpec.
Local Open Scope Z_scope.

Section Loops.
  Context {T S : Type}.
  Implicit Type it : cursor T.
  Fixpoint each {A} (body : A -> T -> M S A) (l : list T) (a : A) : M S A :=
    match l with [] => mret a | x :: r => a' <~ body a x ;; each body r a' end.

  Lemma p_rounds_off {A} (body : A -> T -> M S A) fuel : forall it a s, valid it -> (length (rest it) < fuel)%nat ->
    p_rounds fuel (fun a x => off (body a x)) a (it, s) =
    match each body (rest it) a s with Ret (a', s') => Ret (a', (spent (vec it), s')) | Panic => Panic | Diverge => Diverge end.
  Proof.
    induction fuel as [|k IH]; intros it a s Hv Hf; [lia|]. cbn [p_rounds]. unfold p_Next, mbind at 1. cbn [fst snd].
    pose proof (Next_spec it Hv) as HN. destruct (rest it) as [|x r] eqn:Er.
    - rewrite HN. cbn [bind fst snd each]. unfold mret. repeat f_equal. destruct it as [v p]. unfold spent. cbn [vec]. f_equal.
      destruct Hv as (H0 & H1). unfold rest in Er. cbn [vec position] in *.
      pose proof (skipn_length (Z.to_nat p) v) as L. rewrite Er in L. cbn [length] in L. lia.
    - destruct HN as (it' & E & Hv' & Hr & Hvec & _). rewrite E. cbn [bind fst snd each]. unfold mbind, off at 1. cbn [fst snd].
      destruct (body a x s) as [[a' s']| |]; try reflexivity. cbn [fst snd]. rewrite IH; [now rewrite Hr, Hvec|exact Hv'|]. rewrite Hr. cbn [length] in Hf. lia.
  Qed.
  Lemma p_loop_off {A} (body : A -> T -> M S A) it a s : valid it ->
    p_loop (fun a x => off (body a x)) a (it, s) =
    match each body (rest it) a s with Ret (a', s') => Ret (a', (spent (vec it), s')) | Panic => Panic | Diverge => Diverge end.
  Proof. intros H. unfold p_loop. cbn [fst]. apply p_rounds_off; [exact H|apply rest_length]. Qed.

  Lemma p_rounds_ext {A} (b1 b2 : A -> T -> M (world T S) A) : (forall a x w, b1 a x w = b2 a x w) ->
    forall fuel a w, p_rounds fuel b1 a w = p_rounds fuel b2 a w.
  Proof.
    intros E. induction fuel as [|k IH]; intros a w; [reflexivity|]. cbn [p_rounds]. unfold mbind.
    destruct (p_Next w) as [[[x|] w']| |]; try reflexivity. rewrite E. destruct (b2 a x w') as [[a' w'']| |]; try reflexivity. apply IH.
  Qed.
  Lemma each_map_each (f : T -> M S T) l : forall acc s,
    each (fun n x => y <~ f x ;; mret (n ++ [y])) l acc s = (n <~ each_map f l ;; mret (acc ++ n)) s.
  Proof.
    induction l as [|x r IH]; intros acc s; cbn [each_map each]; unfold mbind, mret in *.
    - now rewrite app_nil_r.
    - destruct (f x s) as [[y s']| |]; try reflexivity. rewrite IH.
      destruct (each_map f r s') as [[n s'']| |]; try reflexivity. now rewrite <- app_assoc.
  Qed.
  Lemma each_filter_each (f : T -> M S bool) l : forall acc s,
    each (fun n x => b <~ f x ;; mret (if (b : bool) then n ++ [x] else n)) l acc s = (n <~ each_filter f l ;; mret (acc ++ n)) s.
  Proof.
    induction l as [|x r IH]; intros acc s; cbn [each_filter each]; unfold mbind, mret in *.
    - now rewrite app_nil_r.
    - destruct (f x s) as [[y s']| |]; try reflexivity. rewrite IH.
      destruct (each_filter f r s') as [[n s'']| |]; try reflexivity.
      destruct y; [now rewrite <- app_assoc|reflexivity].
  Qed.
  Lemma each_fold_each (f : T -> T -> M S T) l : forall a s, each f l a s = each_fold f a l s.
  Proof.
    induction l as [|x r IH]; intros a s; cbn [each_fold each]; [reflexivity|]. unfold mbind.
    destruct (f a x s) as [[a' s']| |]; try reflexivity. apply IH.
  Qed.

  Lemma p_Map_off (f : T -> M S T) it s : valid it ->
    p_Map (fun x => off (f x)) (it, s) =
    match each_map f (rest it) s with Ret (r, s') => Ret (cursor_of r, (spent (vec it), s')) | Panic => Panic | Diverge => Diverge end.
  Proof.
    intros Hv. unfold p_Map, mbind at 1. unfold p_loop.
    rewrite (p_rounds_ext _ (fun n x => off (y <~ f x ;; mret (n ++ [y])))).
    - change (p_rounds (length (vec (fst (it, s))) + 1) (fun n x => off (y <~ f x ;; mret (n ++ [y]))) [] (it, s))
        with (p_loop (fun n x => off (y <~ f x ;; mret (n ++ [y]))) [] (it, s)).
      rewrite p_loop_off by exact Hv. rewrite each_map_each. unfold mbind. destruct (each_map f (rest it) s) as [[n s']| |]; reflexivity.
    - intros a x w. unfold mbind, off. destruct (f x (snd w)) as [[y s']| |]; reflexivity.
  Qed.
  Lemma p_Filter_off (f : T -> M S bool) it s : valid it ->
    p_Filter (fun x => off (f x)) (it, s) =
    match each_filter f (rest it) s with Ret (r, s') => Ret (cursor_of r, (spent (vec it), s')) | Panic => Panic | Diverge => Diverge end.
  Proof.
    intros Hv. unfold p_Filter, mbind at 1. unfold p_loop.
    rewrite (p_rounds_ext _ (fun n x => off (b <~ f x ;; mret (if (b : bool) then n ++ [x] else n)))).
    - change (p_rounds (length (vec (fst (it, s))) + 1) (fun n x => off (b <~ f x ;; mret (if (b : bool) then n ++ [x] else n))) [] (it, s))
        with (p_loop (fun n x => off (b <~ f x ;; mret (if (b : bool) then n ++ [x] else n))) [] (it, s)).
      rewrite p_loop_off by exact Hv. rewrite each_filter_each. unfold mbind. destruct (each_filter f (rest it) s) as [[n s']| |]; reflexivity.
    - intros a x w. unfold mbind, off. destruct (f x (snd w)) as [[y s']| |]; reflexivity.
  Qed.
  Lemma p_Fold_off (f : T -> T -> M S T) it a s : valid it ->
    p_Fold a (fun a x => off (f a x)) (it, s) =
    match each_fold f a (rest it) s with Ret (r, s') => Ret (r, (spent (vec it), s')) | Panic => Panic | Diverge => Diverge end.
  Proof.
    intros Hv. unfold p_Fold. rewrite p_loop_off by exact Hv. rewrite each_fold_each. reflexivity.
  Qed.

  Lemma forward_Next : forward (p_Next (T := T) (S := S)).
  Proof.
    intros it s Hv. pose proof (Next_spec it Hv) as HN. unfold p_Next. cbn [fst snd]. destruct (rest it) as [|x r].
    - rewrite HN. cbn [bind fst snd]. split; [discriminate|]. intros a it' s' E. injection E as <- <- <-. split; [congruence|]. unfold valid in *. try rewrite Hvec in *. lia.
    - destruct HN as (it1 & E & Hv' & Hr & Hvec & P). rewrite E. cbn [bind fst snd]. split; [discriminate|].
      intros a it' s' E2. injection E2 as <- <- <-. split; [congruence|]. unfold valid in *. try rewrite Hvec in *. lia.
  Qed.
  Lemma forward_ret {A} (a : A) : forward (T := T) (S := S) (mret a).
  Proof. intros it s Hv. split; [discriminate|]. intros a' it' s' E. injection E as <- <- <-. split; [congruence|]. unfold valid in *. try rewrite Hvec in *. lia. Qed.
  Lemma forward_bind {A B} (m : M (world T S) A) (k : A -> M (world T S) B) : forward m -> (forall a, forward (k a)) -> forward (mbind m k).
  Proof.
    intros Fm Fk it s Hv. unfold mbind. destruct (Fm it s Hv) as (D & R). destruct (m (it, s)) as [[a [it1 s1]]| |] eqn:E.
    - destruct (R _ _ _ eq_refl) as (V1 & P1). assert (Hv1 : valid it1) by (unfold valid in *; rewrite V1; lia). destruct (Fk a it1 s1 Hv1) as (D2 & R2). split; [exact D2|].
      intros b it' s' E2. destruct (R2 _ _ _ E2) as (V2 & P2). split; [congruence|]. rewrite V1 in P2. lia.
    - split; [discriminate|]. intros; discriminate.
    - congruence.
  Qed.
  Lemma p_rounds_forward {A} (body : A -> T -> M (world T S) A) : (forall a x, forward (body a x)) ->
    forall fuel it a s, valid it -> (length (rest it) < fuel)%nat ->
    p_rounds fuel body a (it, s) <> Diverge /\
    forall a' it' s', p_rounds fuel body a (it, s) = Ret (a', (it', s')) -> it' = spent (vec it).
  Proof.
    intros F. induction fuel as [|k IH]; intros it a s Hv Hf; [lia|]. cbn [p_rounds]. unfold p_Next, mbind. cbn [fst snd].
    pose proof (Next_spec it Hv) as HN. destruct (rest it) as [|x r] eqn:Er.
    - rewrite HN. cbn [bind fst snd]. unfold mret. split; [discriminate|]. intros a' it' s' E. injection E as <- <- <-.
      destruct it as [v p]. unfold spent. cbn [vec]. f_equal. destruct Hv as (H0 & H1). unfold rest in Er. cbn [vec position] in *.
      pose proof (skipn_length (Z.to_nat p) v) as L. rewrite Er in L. cbn [length] in L. lia.
    - destruct HN as (it1 & E & Hv1 & Hr & Hvec & HP). rewrite E. cbn [bind fst snd].
      destruct (F a x it1 s Hv1) as (D & R). destruct (body a x (it1, s)) as [[a2 [it2 s2]]| |] eqn:Eb.
      + destruct (R _ _ _ eq_refl) as (V2 & P2). assert (Hv2 : valid it2) by (unfold valid in *; rewrite V2; lia). rewrite <- Hvec, <- V2. apply IH; [exact Hv2|].
        unfold rest in *. rewrite skipn_length. rewrite V2, Hvec. pose proof (skipn_length (Z.to_nat (position it)) (vec it)) as L.
        rewrite Er in L. cbn [length] in *. destruct Hv as (H0 & H1). lia.
      + split; [discriminate|]. intros; discriminate.
      + congruence.
  Qed.
End Loops.
