(** OptionProps.v -- theorems C27-C29 and C70 (option.go, result.go, syntax.go). *)
From Coq Require Import List Arith Lia ZArith.
From Verif Require Import Base BaseLemmas Effect OptionModel OptionSpec.
Import ListNotations.

Ltac opt_cases := unfold runs, returns, panics, same, logged, mret, mpanic, mbind, deref in *; cbn in *; try reflexivity.

(** ** C27 Option *)
Theorem C27_some_or_none : forall T (o : option T),
  IsSome o = negb (IsNone o) /\ (IsSome o = true <-> exists x, o = Some x) /\ (IsNone o = true <-> o = None).
Proof.
  intros T [x|]; cbn; (split; [reflexivity|]); split; split; intros H; try discriminate; eauto; destruct H; discriminate.
Qed.
Print Assumptions C27_some_or_none.

(** Unwrap and Expect return the value and panic exactly on None. *)
Theorem C27_unwrap : forall S T (o : option T),
  (forall x, o = Some x -> returns (S := S) (Unwrap o) x /\ returns (S := S) (Expect o) x) /\
  (forall s : S, (Unwrap o s = Panic <-> o = None) /\ (Expect o s = Panic <-> o = None)).
Proof.
  intros S T o. split.
  - intros x ->. split; opt_cases.
  - intros s. destruct o as [x|]; split; split; intros H; auto; discriminate.
Qed.
Print Assumptions C27_unwrap.

(** Every closure is called exactly once with the contained value, or not at all;
    [g], [p], [d] are arbitrary, so is the option. *)
Theorem C27_closures_called_once : forall T (g : T -> T) (p : T -> bool) (d : T) (x : T),
  (runs (Map (Some x) (logged g)) (Some (g x)) [x] /\ runs (Map None (logged g)) None []) /\
  (runs (MapOr (Some x) d (logged g)) (g x) [x] /\ runs (MapOr None d (logged g)) d []) /\
  (runs (IsSomeAnd (Some x) (logged p)) (p x) [x] /\ runs (IsSomeAnd None (logged p)) false []) /\
  (runs (Filter (Some x) (logged p)) (if p x then Some x else None) [x] /\ runs (Filter None (logged p)) None []).
Proof.
  intros. repeat split; opt_cases; intros log; rewrite ?app_nil_r; auto. now destruct (p x).
Qed.
Print Assumptions C27_closures_called_once.
(** The fallback closures run only on None, with whatever effects they have. *)
Theorem C27_fallbacks : forall S T (x d : T) (f : M S T) (fo : M S (option T)) (g : T -> M S T) (b : option T),
  (returns (UnwrapOr (S := S) (Some x) d) x /\ returns (UnwrapOr (S := S) None d) d) /\
  (returns (UnwrapOrElse (Some x) f) x /\ same (UnwrapOrElse None f) f) /\
  (same (MapOrElse (Some x) f g) (g x) /\ same (MapOrElse None f g) f) /\
  (returns (Or (S := S) (Some x) b) (Some x) /\ returns (Or (S := S) None b) b) /\
  (returns (OrElse (Some x) fo) (Some x) /\ same (OrElse None fo) fo).
Proof. intros. repeat split; opt_cases. Qed.
Print Assumptions C27_fallbacks.
(** Xor is Some exactly when one of the two is, and then it is that one. *)
Theorem C27_xor : forall S T (a b : option T),
  exists r, returns (S := S) (Xor a b) r /\
    (IsSome r = xorb (IsSome a) (IsSome b)) /\ (forall x, r = Some x -> a = Some x \/ b = Some x).
Proof.
  intros S T a b. destruct a as [x|], b as [y|]; eexists; (split; [opt_cases|]); cbn; split; auto; intros; discriminate.
Qed.
Print Assumptions C27_xor.
(** Algebra: Map respects identity and composition, Filter is idempotent, Or is
    associative with None as identity -- with arbitrary effects. *)
Theorem C27_laws : forall S T (o a b : option T) (f g : T -> M S T) (p : T -> bool),
  same (S := S) (Map o (fun x => mret x)) (mret o) /\
  same (r <~ Map o f ;; Map r g) (Map o (fun x => y <~ f x ;; g y)) /\
  same (r <~ Filter (S := S) o (fun x => mret (p x)) ;; Filter r (fun x => mret (p x))) (Filter o (fun x => mret (p x))) /\
  same (r <~ Or (S := S) o a ;; Or r b) (r <~ Or a b ;; Or o r) /\
  same (Or (S := S) None o) (mret o) /\ same (Or (S := S) o None) (mret o) /\
  same (Xor (S := S) None o) (mret o) /\ same (Xor (S := S) o None) (mret o).
Proof.
  intros S T o a b f g p. unfold same. destruct o as [x|].
  - repeat split; intros s; try reflexivity; unfold mbind, mret, Map, Filter, Or, deref; cbn.
    + unfold mbind, mret. destruct (f x s) as [[y s']| |]; cbn; auto.
    + destruct (p x) eqn:E; cbn; auto. now rewrite E.
    + destruct a; reflexivity.
  - repeat split; intros s; try reflexivity. destruct a as [y|]; reflexivity.
Qed.
Print Assumptions C27_laws.
(** Eq: None equals None only; Some values are compared by the element's Eq. *)
Theorem C27_eq : forall S T (e : T -> T -> bool), (forall x y, e x y = true <-> x = y) ->
  forall a b : option T, exists r, returns (S := S) (Opt_Eq (Some e) a b) r /\ (r = true <-> a = b).
Proof.
  intros S T e He [x|] [y|]; eexists; (split; [opt_cases|]); cbn; try (split; intros H; auto; discriminate).
  rewrite He. split; [congruence|now intros [= ->]].
Qed.
Print Assumptions C27_eq.
Theorem C27_clone_equal : forall S T (c : T -> T) (e : T -> T -> bool), (forall x, e x (c x) = true) ->
  forall o : option T, exists r, returns (S := S) (Opt_Clone (Some c) o) r /\ returns (S := S) (Opt_Eq (Some e) o r) true.
Proof.
  intros S T c e H [x|]; eexists; (split; [opt_cases|]); opt_cases. now rewrite H.
Qed.
Print Assumptions C27_clone_equal.
(** Display distinguishes None from every Some. *)
Theorem C27_display : forall S T (d : T -> list Z) (x : T), exists n t,
  returns (S := S) (Opt_Display (Some d) None) n /\ returns (S := S) (Opt_Display (Some d) (Some x)) t /\ n <> t /\
  t = [83; 111; 109; 101; 40]%Z ++ d x ++ [41]%Z.
Proof. intros. do 2 eexists. split; [opt_cases|]. split; [opt_cases|]. cbn. split; [discriminate|reflexivity]. Qed.
Print Assumptions C27_display.

(** False part: And/AndThen of None are documented to be None; the code answers
    Some(nil). *)
Theorem C27_and_none_refuted : forall S T B (optb : option (option B)) (f : T -> M S (option (option B))),
  returns (S := S) (And (None : option T) optb) (Some None) /\ returns (AndThen None f) (Some None) /\
  (Some (None : option B)) <> None.
Proof. intros. repeat split; opt_cases. discriminate. Qed.
Print Assumptions C27_and_none_refuted.
Theorem C27_and_some_partial : forall S T B (x : T) (optb : option (option B)) (f : T -> M S (option (option B))),
  returns (S := S) (And (Some x) optb) optb /\ same (AndThen (Some x) f) (f x).
Proof. intros. repeat split; opt_cases. Qed.
Print Assumptions C27_and_some_partial.

Example C27_nonvacuous :
  Map (Some 3) (logged (fun x => x * 2)) [] = Ret (Some 6, [3]) /\
  Filter (Some 3) (logged Nat.even) [1] = Ret (None, [1; 3]) /\
  Xor (S := unit) (Some 1) (Some 2) tt = Ret (None, tt) /\ Unwrap (S := unit) (None : option nat) tt = Panic.
Proof. repeat split; reflexivity. Qed.

(** ** C27 (mutating methods) and C70 (references): over a heap of cells. *)
Lemma view_app {T} (h : list T) e o : valid h o -> view (h ++ e) o = view h o.
Proof. destruct o as [a|]; cbn; auto. intros. now apply nth_error_app1. Qed.
Lemma nth_error_last {T} (h : list T) v : nth_error (h ++ [v]) (length h) = Some v.
Proof. rewrite nth_error_app2 by lia. now rewrite Nat.sub_diag. Qed.

(** After Insert/GetOrInsert the option holds the expected value, other options
    are unchanged, and the returned reference is the option's own cell. *)
Theorem C27_insert : forall T (h : heap T) (o : opt) (v : T), valid h o ->
  let '(h', o', p) := Insert h o v in
  valid h' o' /\ view h' o' = Some v /\ o' = Some p /\
  (forall o2, valid h o2 -> valid h' o2 /\ view h' o2 = view h o2).
Proof.
  intros T h o v Ho. cbn. rewrite app_length. cbn. split; [lia|]. split; [apply nth_error_last|]. split; auto.
  intros o2 H2. split; [|now apply view_app]. destruct o2; cbn in *; auto. rewrite app_length. cbn. lia.
Qed.
Print Assumptions C27_insert.
Theorem C27_get_or_insert : forall T (h : heap T) (o : opt) (v : T), valid h o ->
  let '(h', o', p) := GetOrInsert h o v in
  valid h' o' /\ o' = Some p /\
  view h' o' = Some (match view h o with Some w => w | None => v end) /\
  (forall o2, valid h o2 -> valid h' o2 /\ view h' o2 = view h o2).
Proof.
  intros T h [a|] v Ho; cbn in *.
  - split; auto. split; auto. split; auto. destruct (nth_error h a) eqn:E; auto. apply nth_error_None in E. lia.
  - rewrite app_length. cbn. split; [lia|]. split; auto. split; [apply nth_error_last|].
    intros o2 H2. split; [|now apply view_app]. destruct o2; cbn in *; auto. rewrite app_length. cbn. lia.
Qed.
Print Assumptions C27_get_or_insert.
(** GetOrInsertWith runs the closure only on None. *)
Theorem C27_get_or_insert_with : forall S T (h : heap T) (o : opt) (f : M S T), valid h o ->
  (forall a, o = Some a -> returns (GetOrInsertWith h o f) (h, o, a)) /\
  (o = None -> same (GetOrInsertWith h o f) (v <~ f ;; mret (GetOrInsert h o v))).
Proof. intros S T h o f Ho. split; [intros a ->|intros ->]; opt_cases. Qed.
Print Assumptions C27_get_or_insert_with.
(** With a function that may do anything to the program's options, the receiver among them
    (which stays a variable): on Some it is not called.  On None it is called once; whatever it
    stores in the receiver is lost: the receiver then has the answer, in a cell that no option
    had before and that the returned reference points to, and all other options and cells are
    as the function left them.  If it panics or does not end, so does GetOrInsertWith. *)
Theorem C27_get_or_insert_with_shared : forall S T s (h : heap T) (vars : list opt) r (f : M (S * heap T * list opt) T) o,
  nth_error vars r = Some o ->
  (forall a, o = Some a -> GetOrInsertWith_shared r f (s, h, vars) = Ret (a, (s, h, vars))) /\
  (o = None ->
     match f (s, h, vars) with
     | Ret (v, (s1, h1, vars1)) =>
         r < length vars1 -> Forall (valid h1) vars1 ->
         exists a h2 vars2, GetOrInsertWith_shared r f (s, h, vars) = Ret (a, (s1, h2, vars2)) /\
           nth_error vars2 r = Some (Some a) /\ view h2 (Some a) = Some v /\
           length vars2 = length vars1 /\ Forall (valid h2) vars2 /\ ~ In (Some a) vars1 /\
           (forall j oj, j <> r -> nth_error vars1 j = Some oj -> nth_error vars2 j = Some oj /\ view h2 oj = view h1 oj) /\
           (forall p x, nth_error h1 p = Some x -> nth_error h2 p = Some x)
     | Panic => GetOrInsertWith_shared r f (s, h, vars) = Panic
     | Diverge => GetOrInsertWith_shared r f (s, h, vars) = Diverge
     end).
Proof.
  intros S T s h vars r f o Hr. split; [intros a ->|intros ->]; unfold GetOrInsertWith_shared; cbn [snd]; rewrite Hr; cbn [of_option bind].
  - cbn [snd]. rewrite Hr. reflexivity.
  - destruct (f (s, h, vars)) as [[v [[s1 h1] vars1]]| |]; [|reflexivity|reflexivity]. intros L V. cbn [bind alloc snd].
    rewrite nth_error_list_set_eq by exact L. cbn [of_option bind]. do 3 eexists. split; [reflexivity|].
    split; [now apply nth_error_list_set_eq|]. split; [apply nth_error_last|]. split; [apply list_set_length|].
    rewrite Forall_forall in V. split; [|split; [|split]].
    + apply Forall_forall. intros x I. apply In_nth_error in I as (j & E). rewrite nth_error_list_set in E.
      assert (G : forall y, valid h1 y -> valid (h1 ++ [v]) y) by (intros [y|]; cbn; auto; rewrite app_length; cbn; lia).
      destruct (Nat.eq_dec r j) as [->|N].
      * assert (X : nth_error (list_set vars1 j (Some (length h1))) j = Some x) by (rewrite nth_error_list_set; exact E).
        rewrite nth_error_list_set_eq in X by exact L. injection X as <-. cbn. rewrite app_length. cbn. lia.
      * assert (X : nth_error (list_set vars1 r (Some (length h1))) j = Some x) by (rewrite nth_error_list_set; exact E).
        rewrite nth_error_list_set_neq in X by auto. apply G, V. eapply nth_error_In; eauto.
    + intros I. specialize (V _ I). cbn in V. lia.
    + intros j oj N E. rewrite nth_error_list_set_neq by auto. split; [exact E|]. apply view_app, V. eapply nth_error_In; eauto.
    + intros p x E. rewrite nth_error_app1; [exact E|]. apply nth_error_Some. congruence.
Qed.
Print Assumptions C27_get_or_insert_with_shared.
(** The function stores 5 in the receiver (variable 0) and in variable 1 and answers 7: the
    receiver has 7, variable 1 has 5. *)
Example C27_shared_nonvacuous :
  let f : M (unit * heap nat * list opt) nat := fun w => let '(s, h, vars) := w in
    Ret (7, (s, h ++ [5; 5], list_set (list_set vars 0 (Some (length h))) 1 (Some (length h + 1)))) in
  exists vars2 h2, GetOrInsertWith_shared 0 f (tt, [3], [None; Some 0]) = Ret (3, (tt, h2, vars2)) /\
    map (view h2) vars2 = [Some 7; Some 5] /\ nth_error h2 1 = Some 5 /\
    GetOrInsertWith_shared 1 f (tt, [3], [None; Some 0]) = Ret (0, (tt, [3], [None; Some 0])).
Proof. cbv zeta. do 2 eexists. split; [reflexivity|]. repeat split. Qed.
(** Take moves the value out and leaves None. *)
Theorem C27_take : forall T (h : heap T) (o : opt), valid h o ->
  exists h' r, Take h o = Ret (h', None, r) /\ valid h' r /\ view h' r = view h o /\
  (forall o2, valid h o2 -> valid h' o2 /\ view h' o2 = view h o2).
Proof.
  intros T h [a|] Ho; cbn in *.
  - destruct (nth_error h a) as [x|] eqn:E; [|apply nth_error_None in E; lia]. cbn. do 2 eexists. split; [reflexivity|].
    cbn. rewrite app_length. cbn. split; [lia|]. split; [apply nth_error_last|].
    intros o2 H2. split; [|now apply view_app]. destruct o2; cbn in *; auto. rewrite app_length. cbn. lia.
  - exists h, None. auto.
Qed.
Print Assumptions C27_take.
(** Replace: on Some it stores the new value and returns the old one.  On None it
    is documented (option.go:327-333) to store the value; the code does not. *)
Theorem C27_replace_none_refuted : forall T (h : heap T) (v : T), Replace h None v = Ret (h, None, None).
Proof. reflexivity. Qed.
Print Assumptions C27_replace_none_refuted.
Theorem C27_replace_partial : forall T (h : heap T) (o : opt) (v : T), valid h o -> o <> None ->
  exists h' o' r, Replace h o v = Ret (h', o', r) /\ valid h' o' /\ valid h' r /\
  view h' o' = Some v /\ view h' r = view h o /\
  (forall o2, valid h o2 -> valid h' o2 /\ view h' o2 = view h o2).
Proof.
  intros T h [a|] v Ho N; [|congruence]. cbn in *.
  destruct (nth_error h a) as [x|] eqn:E; [|apply nth_error_None in E; lia]. cbn. do 3 eexists. split; [reflexivity|].
  cbn. rewrite !app_length. cbn. split; [lia|]. split; [lia|]. split.
  { rewrite nth_error_app1 by (rewrite app_length; cbn; lia). apply nth_error_last. }
  split. { replace (length h + 1) with (length (h ++ [v])) by (rewrite app_length; reflexivity). apply nth_error_last. }
  intros o2 H2. split.
  - destruct o2; cbn in *; auto. rewrite !app_length. cbn. lia.
  - rewrite <- app_assoc. now apply view_app.
Qed.
Print Assumptions C27_replace_partial.

(** C70: a write through the reference returned by Insert / GetOrInsert is what
    the option holds afterwards, and no option that does not share the cell changes. *)
Lemma view_write {T} (h : list T) p v o : p < length h ->
  view (write h p v) o = if match o with Some a => Nat.eqb a p | None => false end then Some v else view h o.
Proof.
  intros Hp. destruct o as [a|]; cbn; auto. unfold write.
  destruct (Nat.eqb_spec a p) as [->|N].
  - now apply nth_error_list_set_eq.
  - apply nth_error_list_set_neq; auto.
Qed.
Theorem C70_reference_is_the_option : forall T (h : heap T) (o : opt) (v w : T), valid h o ->
  (let '(h', o', p) := Insert h o v in
     view (write h' p w) o' = Some w /\ (forall o2, valid h o2 -> view (write h' p w) o2 = view h o2)) /\
  (let '(h', o', p) := GetOrInsert h o v in
     view (write h' p w) o' = Some w /\
     (forall o2, valid h o2 -> o2 <> o' -> view (write h' p w) o2 = view h o2)).
Proof.
  intros T h o v w Ho. split.
  - cbn. split.
    + change (view (write (h ++ [v]) (length h) w) (Some (length h)) = Some w).
      rewrite view_write by (rewrite app_length; cbn; lia). now rewrite Nat.eqb_refl.
    + intros o2 H2. rewrite view_write by (rewrite app_length; cbn; lia). destruct o2 as [a|]; auto.
      cbn in H2. destruct (Nat.eqb_spec a (length h)); [lia|]. apply (view_app h [v] (Some a) H2).
  - destruct o as [a|]; cbn.
    + cbn in Ho. split.
      * change (view (write h a w) (Some a) = Some w). rewrite view_write by auto. now rewrite Nat.eqb_refl.
      * intros o2 H2 N. rewrite view_write by auto. destruct o2 as [b|]; auto.
        destruct (Nat.eqb_spec b a); [subst; congruence|auto].
    + split.
      * change (view (write (h ++ [v]) (length h) w) (Some (length h)) = Some w).
        rewrite view_write by (rewrite app_length; cbn; lia). now rewrite Nat.eqb_refl.
      * intros o2 H2 N. rewrite view_write by (rewrite app_length; cbn; lia). destruct o2 as [b|]; auto.
        cbn in H2. destruct (Nat.eqb_spec b (length h)); [lia|]. apply (view_app h [v] (Some b) H2).
Qed.
Print Assumptions C70_reference_is_the_option.
(** After Take or Replace the old reference is detached: writing through it changes
    neither the receiver nor the returned option. *)
Theorem C70_take_and_replace_detach : forall T (h : heap T) (a : nat) (v w : T), a < length h ->
  (exists h' r, Take h (Some a) = Ret (h', None, r) /\ view (write h' a w) r = view h (Some a)) /\
  (exists h' o' r, Replace h (Some a) v = Ret (h', o', r) /\
     view (write h' a w) o' = Some v /\ view (write h' a w) r = view h (Some a)).
Proof.
  intros T h a v w Ha. cbn. destruct (nth_error h a) as [x|] eqn:E; [|apply nth_error_None in E; lia]. cbn. split.
  - do 2 eexists. split; [reflexivity|]. rewrite view_write by (rewrite app_length; cbn; lia).
    destruct (Nat.eqb_spec (length h) a); [lia|]. cbn. apply nth_error_last.
  - do 3 eexists. split; [reflexivity|]. split.
    + rewrite view_write by (rewrite !app_length; cbn; lia). destruct (Nat.eqb_spec (length h) a); [lia|].
      cbn. rewrite nth_error_app1 by (rewrite app_length; cbn; lia). apply nth_error_last.
    + rewrite view_write by (rewrite !app_length; cbn; lia).
      destruct (Nat.eqb_spec (length (h ++ [v])) a) as [E2|]; [rewrite app_length in E2; cbn in E2; lia|].
      cbn. apply nth_error_last.
Qed.
Print Assumptions C70_take_and_replace_detach.
Example C70_nonvacuous :
  GetOrInsert [5] (Some 0) 9 = ([5], Some 0, 0) /\ GetOrInsert [5] None 9 = ([5; 9], Some 1, 1) /\
  view (write [5; 9] 1 7) (Some 1) = Some 7 /\ Take [5] (Some 0) = Ret ([5; 5], None, Some 1) /\
  Replace [5] (Some 0) 8 = Ret ([5; 8; 5], Some 1, Some 2).
Proof. repeat split; reflexivity. Qed.

(** ** C28 Result *)
(** Reachable results: made by Ok or by Err of a non-nil error. *)
Definition lawful {T E} (r : Result T E) : Prop := (exists x, r = Ok x) \/ (exists e, r = Err (Some e)).
Theorem C28_exactly_one : forall T E (r : Result T E), lawful r ->
  IsOk r = negb (IsErr r) /\ (IsOk r = true <-> exists x, r = Ok x) /\ (IsErr r = true <-> exists e, r = Err (Some e)).
Proof.
  intros T E r [[x ->]|[e ->]]; cbn; (split; [reflexivity|]); split; split; intros H; try discriminate; eauto;
  destruct H; discriminate.
Qed.
Print Assumptions C28_exactly_one.
(** The constructor also accepts a nil error; such a value is neither Ok nor Err,
    Unwrap and UnwrapErr both panic on it. *)
Theorem C28_nil_error_is_neither : forall S T E, let r := Err (None : option E) : Result T E in
  IsOk r = false /\ IsErr r = false /\ panics (S := S) (R_Unwrap r) /\ panics (S := S) (R_UnwrapErr r) /\
  forall (eq : option (T -> T -> bool)) ee, returns (S := S) (R_Eq eq ee r r) false.
Proof. intros. repeat split; opt_cases. Qed.
Print Assumptions C28_nil_error_is_neither.
(** Each combinator acts on one side only. *)
Theorem C28_combinators_ok : forall S T E (x d : T) (f : T -> M S T) (fe : option E -> M S (option E)) (dv : M S T)
    (op : T -> M S (Result T E)) (oe : option E -> M S (Result T E)) (res : Result T E) (p : T -> M S bool) (pe : option E -> M S bool),
  let r := Ok x : Result T E in
  returns (S := S) (R_Unwrap r) x /\ returns (S := S) (R_Expect r) x /\ panics (S := S) (R_UnwrapErr r) /\ panics (S := S) (R_ExpectErr r) /\
  returns (S := S) (R_Ok r) (Some x) /\ returns (S := S) (R_Err r) None /\
  same (R_Map r f) (y <~ f x ;; mret (Ok y)) /\ returns (R_MapErr r fe) r /\
  same (R_MapOr r d f) (f x) /\ same (R_MapOrElse r dv f) (f x) /\
  returns (S := S) (R_And r res) res /\ same (R_AndThen r op) (op x) /\
  returns (S := S) (R_Or r res) r /\ returns (R_OrElse r oe) r /\
  returns (S := S) (R_UnwrapOr r d) x /\ returns (R_UnwrapOrElse r dv) x /\
  same (IsOkAnd r p) (p x) /\ returns (IsErrAnd r pe) false.
Proof. intros. repeat split; opt_cases. Qed.
Print Assumptions C28_combinators_ok.
Theorem C28_combinators_err : forall S T E (e : E) (d : T) (f : T -> M S T) (fe : option E -> M S (option E)) (dv : M S T)
    (op : T -> M S (Result T E)) (oe : option E -> M S (Result T E)) (res : Result T E) (p : T -> M S bool) (pe : option E -> M S bool),
  let r := Err (Some e) : Result T E in
  panics (S := S) (R_Unwrap r) /\ panics (S := S) (R_Expect r) /\
  returns (S := S) (R_UnwrapErr r) (Some e) /\ returns (S := S) (R_ExpectErr r) (Some e) /\
  returns (S := S) (R_Ok r) None /\ returns (S := S) (R_Err r) (Some (Some e)) /\
  returns (R_Map r f) r /\ same (R_MapErr r fe) (e' <~ fe (Some e) ;; mret (Err e')) /\
  returns (R_MapOr r d f) d /\ same (R_MapOrElse r dv f) dv /\
  returns (S := S) (R_And r res) r /\ returns (R_AndThen r op) r /\
  returns (S := S) (R_Or r res) res /\ same (R_OrElse r oe) (oe (Some e)) /\
  returns (S := S) (R_UnwrapOr r d) d /\ same (R_UnwrapOrElse r dv) dv /\
  returns (IsOkAnd r p) false /\ same (IsErrAnd r pe) (pe (Some e)).
Proof. intros. repeat split; opt_cases. Qed.
Print Assumptions C28_combinators_err.
(** A result made from a nil error: methods that ask for Ok take it for an error, methods that
    ask for Err take it for a success, and what would then be read is missing. *)
Theorem C28_combinators_nil_error : forall S T E (d : T) (f : T -> M S T) (fe : option E -> M S (option E)) (dv : M S T)
    (op : T -> M S (Result T E)) (oe : option E -> M S (Result T E)) (res : Result T E) (p : T -> M S bool) (pe : option E -> M S bool),
  let r := Err None : Result T E in
  panics (S := S) (R_Unwrap r) /\ panics (S := S) (R_Expect r) /\ panics (S := S) (R_UnwrapErr r) /\ panics (S := S) (R_ExpectErr r) /\
  returns (S := S) (R_Ok r) None /\ returns (S := S) (R_Err r) None /\
  returns (R_Map r f) r /\ returns (R_MapErr r fe) r /\
  returns (R_MapOr r d f) d /\ same (R_MapOrElse r dv f) dv /\
  returns (S := S) (R_And r res) r /\ returns (R_AndThen r op) r /\
  returns (S := S) (R_Or r res) r /\ returns (R_OrElse r oe) r /\
  returns (S := S) (R_UnwrapOr r d) d /\ same (R_UnwrapOrElse r dv) dv /\
  returns (IsOkAnd r p) false /\ returns (IsErrAnd r pe) false /\
  (forall c, returns (S := S) (R_Clone c r) r) /\
  (forall r' (eq : option (T -> T -> bool)) ee, returns (S := S) (R_Eq eq ee r r') false /\ returns (S := S) (R_Eq eq ee r' r) false).
Proof.
  intros. repeat split; try solve [opt_cases]; destruct r' as [[x|] [e|]]; opt_cases.
Qed.
Print Assumptions C28_combinators_nil_error.
(** Monad laws, with arbitrary effects: AndThen is associative, Ok is its unit
    (on any result, lawful or not). *)
Theorem C28_and_then_laws : forall S T E (r : Result T E) (f g : T -> M S (Result T E)) (h : T -> M S T) x,
  same (r' <~ R_AndThen r f ;; R_AndThen r' g) (R_AndThen r (fun y => r' <~ f y ;; R_AndThen r' g)) /\
  same (R_AndThen (Ok x : Result T E) f) (f x) /\
  (lawful r -> same (S := S) (R_AndThen r (fun y => mret (Ok y))) (mret r)) /\
  (lawful r -> same (R_Map r h) (R_AndThen r (fun y => z <~ h y ;; mret (Ok z)))).
Proof.
  intros S T E [[y|] e] f g h x; repeat split; unfold same, lawful; try reflexivity.
  intros [[z Hz]|[z Hz]]; [|discriminate]. injection Hz as -> ->. reflexivity.
Qed.
Print Assumptions C28_and_then_laws.
(** Eq on lawful results is equality when the element's Eq and the errors' == are. *)
Theorem C28_eq : forall S T E (eq : T -> T -> bool) (ee : E -> E -> out bool),
  (forall x y, eq x y = true <-> x = y) -> (forall x y, exists b, ee x y = Ret b /\ (b = true <-> x = y)) ->
  forall a b : Result T E, lawful a -> lawful b ->
  exists r, returns (S := S) (R_Eq (Some eq) ee a b) r /\ (r = true <-> a = b).
Proof.
  intros S T E eq ee He Hee a b [[x ->]|[x ->]] [[y ->]|[y ->]].
  - exists (eq x y). split; [opt_cases|]. rewrite He. split; [congruence|now intros [= ->]].
  - exists false. split; [opt_cases|]. split; intros; discriminate.
  - exists false. split; [opt_cases|]. split; intros; discriminate.
  - destruct (Hee x y) as (r & E1 & E2). exists r. split; [opt_cases; intros; now rewrite E1|].
    rewrite E2. split; [congruence|now intros [= ->]].
Qed.
Print Assumptions C28_eq.
(** Clone of a result is equal to it. *)
Theorem C28_clone_equal : forall S T E (c : T -> T) (eq : T -> T -> bool) (ee : E -> E -> out bool),
  (forall x, eq x (c x) = true) -> (forall e, ee e e = Ret true) ->
  forall r : Result T E, lawful r ->
  exists r', returns (S := S) (R_Clone (Some c) r) r' /\ lawful r' /\ returns (S := S) (R_Eq (Some eq) ee r r') true.
Proof.
  intros S T E c eq ee H He r [[x ->]|[e ->]].
  - exists (Ok (c x)). split; [opt_cases|]. split; [left; eauto|]. opt_cases. now rewrite H.
  - exists (Err (Some e)). split; [opt_cases|]. split; [right; eauto|]. opt_cases. now rewrite He.
Qed.
Print Assumptions C28_clone_equal.
Theorem C28_display : forall S T E (d : T -> list Z) (et : E -> list Z) (x : T) (e : E),
  returns (S := S) (R_Display (Some d) et (Ok x)) ([79; 107; 40] ++ d x ++ [41])%Z /\
  returns (S := S) (R_Display (Some d) et (Err (Some e))) (et e) /\
  panics (S := S) (R_Display (Some d) et (Err None)).
Proof. intros. repeat split; opt_cases. Qed.
Print Assumptions C28_display.
Example C28_nonvacuous :
  lawful (Ok 3 : Result nat nat) /\ lawful (Err (Some 1) : Result nat nat) /\
  R_AndThen (Ok 3 : Result nat nat) (fun x => logged (fun x => Err (Some x)) x) [] = Ret (Err (Some 3), [3]) /\
  R_Map (Err (Some 7) : Result nat nat) (logged (fun x => x)) [] = Ret (Err (Some 7), []).
Proof. split; [left; eauto|]. split; [right; eauto|]. split; reflexivity. Qed.

(** ** C29 If / ElseIf / Else *)
Lemma ElseIfs_last {S T} (more : list (bool * M S T)) last : forall self s,
  (ctx <~ ElseIfs self more ;; Else ctx last) s = last_true self more last s.
Proof.
  induction more as [|[c e] rest IH]; intros self s; cbn.
  - unfold mbind, mret. destruct self; reflexivity.
  - unfold ElseIf. destruct c.
    + unfold mbind at 1 2 3. unfold mbind at 1. destruct (e s) as [[v s']| |]; auto. cbn. rewrite <- IH. reflexivity.
    + rewrite <- IH. reflexivity.
Qed.
(** The code runs every true branch and keeps the last value. *)
Theorem C29_chain_characterised : forall S T c (e : M S T) more last,
  same (Chain c e more last) (last_true None ((c, e) :: more) last).
Proof.
  intros S T c e more last s. unfold Chain, If. destruct c; cbn.
  - unfold mbind at 1 2. unfold mbind at 2. destruct (e s) as [[v s']| |]; auto. cbn. apply ElseIfs_last.
  - rewrite <- ElseIfs_last. reflexivity.
Qed.
Print Assumptions C29_chain_characterised.
(** So the documented selection is false as soon as two conditions hold: the later
    one wins and both are evaluated. *)
Theorem C29_first_true_refuted :
  Chain true (fun log => Ret (1, log ++ [1])) [(true, fun log => Ret (2, log ++ [2]))] (fun log => Ret (3, log ++ [3])) []
    = Ret (2, [1; 2]) /\
  first_true [(true, fun log => Ret (1, log ++ [1])); (true, fun log => Ret (2, log ++ [2]))] (fun log => Ret (3, log ++ [3])) []
    = Ret (1, [1]).
Proof. split; reflexivity. Qed.
Print Assumptions C29_first_true_refuted.
Lemma last_true_none {S T} (bs : list (bool * M S T)) last acc : trues bs = [] ->
  last_true acc bs last = match acc with Some v => mret v | None => last end.
Proof. revert acc. induction bs as [|[[] e] r IH]; intros acc H; cbn in *; auto; discriminate. Qed.
(** When at most one condition of the chain is true, exactly the expected branch is
    evaluated and its value returned -- for branches with arbitrary effects.
    Missing: chains with two or more true conditions, where the claim is false. *)
Theorem C29_single_true_partial : forall S T c (e : M S T) more last,
  length (trues ((c, e) :: more)) <= 1 ->
  same (Chain c e more last) (first_true ((c, e) :: more) last).
Proof.
  intros S T c e more last H s. rewrite C29_chain_characterised.
  set (bs := (c, e) :: more) in *. clearbody bs. clear c e more. revert s.
  induction bs as [|[[] e] r IH]; intros s; cbn in *; auto.
  assert (trues r = []) as Z by (unfold trues; destruct (filter fst r); auto; cbn in H; lia).
  unfold mbind. destruct (e s) as [[v s']| |] eqn:E; auto. now rewrite (last_true_none r last (Some v) Z).
Qed.
Print Assumptions C29_single_true_partial.
(** With no true condition only the Else branch runs. *)
Theorem C29_else : forall S T c (e : M S T) more last, trues ((c, e) :: more) = [] -> same (Chain c e more last) last.
Proof. intros S T c e more last H s. rewrite C29_chain_characterised. now rewrite last_true_none. Qed.
Print Assumptions C29_else.
Example C29_nonvacuous :
  length (trues [(false, counted 1); (true, counted 2); (false, counted 3)]) = 1 /\
  Chain false (counted 1) [(true, counted 2); (false, counted 3)] (counted 4) 0 = Ret (2, 1) /\
  Chain false (counted 1) [(false, counted 2)] (counted 4) 0 = Ret (4, 1).
Proof. repeat split; reflexivity. Qed.
