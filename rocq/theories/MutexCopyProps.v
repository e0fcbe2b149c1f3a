(** MutexCopyProps.v -- C109: a Mutex protects its value although the struct is copied. *)
From Verif Require Import Base MutexCopyModel MutexCopySpec MutexCopyProofs.

(** False: through two copies two goroutines are inside at the same time, both read 5, both
    write 6, and one of the two increments is lost. *)
Definition lost_update : list (nat * op nat * answer nat) :=
  [(0, New 5, Var 0); (0, Copy 0, Var 1);
   (1, Lock 0, Ptr 0); (2, Lock 1, Ptr 0);
   (1, Load 0, Val 5); (2, Load 0, Val 5); (1, Store 0 6, Done); (2, Store 0 6, Done);
   (1, Unlock 0, Done); (2, Unlock 1, Done);
   (0, Lock 0, Ptr 0); (0, Load 0, Val 6)].
Theorem C109_refuted :
  (run nothing lost_update /\ disciplined [] lost_update) /\
  inside (firstn 4 lost_update) = [(2, 1); (1, 0)] /\ mutex_of lost_update 0 = Some 0 /\ mutex_of lost_update 1 = Some 0.
Proof.
  split; [split|].
  - unfold lost_update. cbn [run]. repeat (eexists; split; [reflexivity|]). exact I.
  - cbn. auto 20.
  - vm_compute. auto.
Qed.
Print Assumptions C109_refuted.

(** At most as many are inside a mutex as there are variables that hold it ... *)
Theorem C109_crowd_characterised : forall (T : Type) (h : list (nat * op T * answer T)) m,
  run nothing h -> disciplined [] h -> crowd h m <= copies h m.
Proof. intros. now apply crowd_copies. Qed.
Print Assumptions C109_crowd_characterised.
(** ... and as many can be. *)
Theorem C109_crowd_sharp : forall (T : Type) (x : T) n, exists h : list (nat * op T * answer T),
  run nothing h /\ disciplined [] h /\ crowd h 0 = S n /\ copies h 0 = S n.
Proof. intros T x n. exact (crowded x n). Qed.
Print Assumptions C109_crowd_sharp.

(** A mutex that is not copied keeps everybody else out; and so does every variable by itself. *)
Theorem C109_not_copied_partial : forall (T : Type) (h : list (nat * op T * answer T)) m t1 v1 t2 v2,
  run nothing h -> disciplined [] h -> copies h m <= 1 ->
  In (t1, v1) (inside h) -> In (t2, v2) (inside h) -> mutex_of h v1 = Some m -> mutex_of h v2 = Some m -> t1 = t2 /\ v1 = v2.
Proof. intros. eapply alone; eauto. Qed.
Print Assumptions C109_not_copied_partial.
Theorem C109_variable_partial : forall (T : Type) (h : list (nat * op T * answer T)) t1 t2 v,
  run nothing h -> disciplined [] h -> In (t1, v) (inside h) -> In (t2, v) (inside h) -> t1 = t2.
Proof. intros. eapply same_variable; eauto. Qed.
Print Assumptions C109_variable_partial.

(** Lock through any copy gives the pointer to the one value of the mutex. *)
Theorem C109_pointers : forall (T : Type) (h1 h2 : list (nat * op T * answer T)) t o v a,
  run nothing (h1 ++ (t, o, Ptr a) :: h2) -> o = Lock v \/ o = TryLock v -> mutex_of h1 v = Some a.
Proof. intros. eapply pointers; eauto. Qed.
Print Assumptions C109_pointers.

(** A copy made while somebody is inside is locked for ever: no Lock of it returns, every
    TryLock of it fails, and nobody is ever inside through it. *)
Theorem C109_copied_while_held : forall (T : Type) (h1 h2 : list (nat * op T * answer T)) t v w u,
  run nothing (h1 ++ (t, Copy v, Var w) :: h2) -> disciplined [] (h1 ++ (t, Copy v, Var w) :: h2) -> In (u, v) (inside h1) ->
  (forall t', ~ In (t', w) (inside (h1 ++ (t, Copy v, Var w) :: h2))) /\
  forall t' o r, In (t', o, r) h2 -> o <> Lock w /\ (o = TryLock w -> r = Err).
Proof. intros. eapply copy_held; eauto. Qed.
Print Assumptions C109_copied_while_held.

(** A mutex used from three goroutines without copies, and a copy of a mutex that is held. *)
Example C109_nonvacuous :
  let h := [(0, New 5, Var 0); (0, New 9, Var 1); (1, Lock 0, Ptr 0); (2, TryLock 0, Err); (2, Lock 1, Ptr 1); (1, Unlock 0, Done); (2, Lock 0, Ptr 0)] in
  (run nothing h /\ disciplined [] h) /\ copies h 0 = 1 /\ inside h = [(2, 0); (2, 1)] /\
  let g := [(0, New 5, Var 0); (1, Lock 0, Ptr 0); (1, Copy 0, Var 1); (1, Unlock 0, Done); (2, TryLock 1, Err)] in
  (run nothing g /\ disciplined [] g) /\ inside (firstn 2 g) = [(1, 0)].
Proof.
  cbv zeta. split; [split|].
  - cbn [run]. repeat (eexists; split; [reflexivity|]). exact I.
  - cbn. auto 20.
  - split; [reflexivity|]. split; [reflexivity|]. split; [|reflexivity]. split.
    + cbn [run]. repeat (eexists; split; [reflexivity|]). exact I.
    + cbn. auto 20.
Qed.
