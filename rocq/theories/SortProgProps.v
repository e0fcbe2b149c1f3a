(** SortProgProps.v -- C124: Sort and SortBy with a comparison of any kind. *)
From Coq Require Import Permutation.
From Verif Require Import Base CmpSpec VecModel VecSpec PanicSpec PanicModel CostSpec SortLibModel StableSortModel StableSortProofs SortProgSpec SortProgModel SortProgProofs.

(** For every comparison - one that keeps a state, contradicts itself, changes its mind or
    panics: the sort comes to an end, with no index out of range, the vector holds exactly
    the elements it held before, also when the comparison panicked, and it stops before the
    end only if the comparison panicked. *)
Theorem C124_any_comparison : forall T U (compare : user U (T * T) ordering) (l : list T) (u : U),
  exists l' p u' r, stable_sort (watched compare) l (false, u) = Ret ((l', (p, u')), r) /\
    Permutation l l' /\ (r = None <-> p = true).
Proof.
  intros T U f l u. assert (F := stable_costs (length l) (length l) (Nat.le_refl _) 0 (fun _ _ => True) (fun _ _ _ _ => I)).
  destruct (play_fine (watched f) _ _ l _ (false, u) F) as (l' & [p u'] & r & E & P). exists l', p, u', r. split; [exact E|]. split; [exact P|].
  symmetry. exact (play_watched f _ _ _ _ _ _ _ E).
Qed.
Print Assumptions C124_any_comparison.

(** The number of comparisons. *)
Theorem C124_comparisons : forall T U (compare : user U (T * T) ordering) (l : list T) (u : U),
  exists l' n u' r, stable_sort (counted compare) l (0, u) = Ret ((l', (n, u')), r) /\ n <= stable_bound (length l).
Proof.
  intros T U f l u. assert (F := stable_costs (length l) (length l) (Nat.le_refl _) 0 (fun _ _ => True) (fun _ _ _ _ => I)).
  exact (play_counted f _ _ l _ 0 u F).
Qed.
Print Assumptions C124_comparisons.

(** A comparison whose answers are those of a total preorder, whatever else it does: the one
    stably sorted arrangement. *)
Theorem C124_sorted : forall T U (compare : user U (T * T) ordering) (cmp : T -> T -> ordering) (l : list T) (u : U),
  total_preorder cmp -> answers_like compare (fun p => cmp (fst p) (snd p)) ->
  exists l' u', stable_sort compare l u = Ret ((l', u'), Some tt) /\ stably_sorted cmp l l'.
Proof.
  intros T U f cmp l u tp A. destruct (plays_stable f cmp A l u) as [u' E].
  destruct (SliceStable_done cmp l) as (d & Ed & _ & S). change (SliceStable (by_func cmp) l = Ret d) in Ed. rewrite Ed in E. cbn [with_tt bind] in E. exists d, u'. split; [exact E|]. now apply S.
Qed.
Print Assumptions C124_sorted.

(** It is the sort of C117 whenever the answers depend on the two elements only. *)
Theorem C124_agrees : forall T U (compare : user U (T * T) ordering) (cmp : T -> T -> ordering) (l : list T) (u : U),
  answers_like compare (fun p => cmp (fst p) (snd p)) ->
  exists l' u', stable_sort compare l u = Ret ((l', u'), Some tt) /\ SliceStable (by_func cmp) l = Ret l'.
Proof.
  intros T U f cmp l u A. destruct (plays_stable f cmp A l u) as [u' E].
  destruct (SliceStable_done cmp l) as (d & Ed & _). change (SliceStable (by_func cmp) l = Ret d) in Ed. rewrite Ed in E. cbn [with_tt bind] in E. exists d, u'. now split.
Qed.
Print Assumptions C124_agrees.

(** A comparison that answers the opposite every other time, and one that panics in its
    seventh call, on 45 elements; a counting comparison; the bounds for some lengths. *)
Definition fickle : user nat (nat * nat) ordering := fun p u => (S u, Some (if Bool.eqb (Nat.even u) (fst p <? snd p) then Less else Greater)).
Definition seventh : user nat (nat * nat) ordering := fun p u => (S u, if u =? 6 then None else Some (if fst p <? snd p then Less else Greater)).
Definition by_size (a b : nat) : ordering := if a <? b then Less else if a =? b then Equal else Greater.
Definition counting : user nat (nat * nat) ordering := fun p u => (S u, Some (by_size (fst p) (snd p))).
Definition numbers : list nat := map (fun i => (i * 17) mod 45) (seq 0 45).
Example C124_nonvacuous :
  (exists l' n, stable_sort fickle numbers 0 = Ret ((l', n), Some tt) /\ l' <> numbers /\ 0 < n) /\
  (exists l', stable_sort seventh numbers 0 = Ret ((l', 7), None) /\ l' <> numbers) /\
  (exists n, stable_sort counting numbers 0 = Ret ((seq 0 45, n), Some tt) /\ n <= stable_bound 45) /\
  answers_like counting (fun p => by_size (fst p) (snd p)) /\
  map stable_bound [1; 20; 100; 1000] = [9; 190; 1550; 21500].
Proof.
  split; [eexists; eexists; split; [vm_compute; reflexivity|]; split; [vm_compute; discriminate|apply Nat.ltb_lt; vm_compute; reflexivity]|].
  split; [eexists; split; [vm_compute; reflexivity|vm_compute; discriminate]|].
  split; [eexists; split; [vm_compute; reflexivity|apply Nat.leb_le; vm_compute; reflexivity]|].
  split; [intros p u; reflexivity|vm_compute; reflexivity].
Qed.
