(** PdqProgProps.v -- C125: SortUnstable and SortUnstableBy with a comparison of any kind. *)
From Coq Require Import Permutation.
From Verif Require Import Base CmpSpec VecModel VecSpec PanicSpec PanicModel CostSpec SortLibModel PdqSortModel PdqSortProofs SortProgSpec SortProgModel SortProgProofs PdqProgSpec PdqProgModel PdqProgProofs.

(** For every comparison - one that keeps a state, contradicts itself, changes its mind or
    panics - and whatever the sort's own random positions: it comes to an end, with no index
    out of range, the vector holds exactly the elements it held before, also when the
    comparison panicked, and it stops before the end only if the comparison panicked. *)
Theorem C125_any_comparison : forall T U rnd (compare : user U (T * T) ordering) (l : list T) (u : U),
  exists l' p u' r, unstable_sort rnd (watched compare) l (false, u) = Ret ((l', (p, u')), r) /\
    Permutation l l' /\ (r = None <-> p = true).
Proof.
  intros T U rnd f l u. assert (F := unstable_costs rnd (length l) 0 (fun _ _ => True) (fun _ _ _ _ => I)).
  destruct (play_fine (watched f) _ _ l _ (false, u) F) as (l' & [p u'] & r & E & P). exists l', p, u', r. split; [exact E|]. split; [exact P|].
  symmetry. exact (play_watched f _ _ _ _ _ _ _ E).
Qed.
Print Assumptions C125_any_comparison.

(** The number of comparisons. *)
Theorem C125_comparisons : forall T U rnd (compare : user U (T * T) ordering) (l : list T) (u : U),
  exists l' n u' r, unstable_sort rnd (counted compare) l (0, u) = Ret ((l', (n, u')), r) /\ n <= unstable_bound (length l).
Proof.
  intros T U rnd f l u. assert (F := unstable_costs rnd (length l) 0 (fun _ _ => True) (fun _ _ _ _ => I)).
  exact (play_counted f _ _ l _ 0 u F).
Qed.
Print Assumptions C125_comparisons.

(** A comparison whose answers are those of a total preorder, whatever else it does: an
    ascending arrangement. *)
Theorem C125_sorted : forall T U rnd (compare : user U (T * T) ordering) (cmp : T -> T -> ordering) (l : list T) (u : U),
  total_preorder cmp -> answers_like compare (fun p => cmp (fst p) (snd p)) ->
  exists l' u', unstable_sort rnd compare l u = Ret ((l', u'), Some tt) /\ Permutation l l' /\ ascending cmp l'.
Proof.
  intros T U rnd f cmp l u tp A. destruct (plays_unstable f cmp rnd A l u) as [u' E].
  destruct (Slice_spec cmp rnd l) as (d & Ed & P & S). change (Slice (by_func cmp) rnd l = Ret d) in Ed. rewrite Ed in E. cbn [with_tt bind] in E. exists d, u'. auto.
Qed.
Print Assumptions C125_sorted.

(** It is the sort of C117 whenever the answers depend on the two elements only. *)
Theorem C125_agrees : forall T U rnd (compare : user U (T * T) ordering) (cmp : T -> T -> ordering) (l : list T) (u : U),
  answers_like compare (fun p => cmp (fst p) (snd p)) ->
  exists l' u', unstable_sort rnd compare l u = Ret ((l', u'), Some tt) /\ Slice (by_func cmp) rnd l = Ret l'.
Proof.
  intros T U rnd f cmp l u A. destruct (plays_unstable f cmp rnd A l u) as [u' E].
  destruct (Slice_spec cmp rnd l) as (d & Ed & _). change (Slice (by_func cmp) rnd l = Ret d) in Ed. rewrite Ed in E. cbn [with_tt bind] in E. exists d, u'. now split.
Qed.
Print Assumptions C125_agrees.

(** A comparison that answers the opposite every other time, one that panics in its fortieth
    call, and a counting comparison, on 45 and on 60 elements. *)
Definition wavering : user nat (nat * nat) ordering := fun p u => (S u, Some (if Bool.eqb (Nat.even u) (fst p <? snd p) then Less else Greater)).
Definition fortieth : user nat (nat * nat) ordering := fun p u => (S u, if u =? 39 then None else Some (if fst p <? snd p then Less else Greater)).
Definition by_number (a b : nat) : ordering := if a <? b then Less else if a =? b then Equal else Greater.
Definition counts : user nat (nat * nat) ordering := fun p u => (S u, Some (by_number (fst p) (snd p))).
Definition forty_five : list nat := map (fun i => (i * 17) mod 45) (seq 0 45).
Definition sixty : list nat := map (fun i => (i * 7) mod 60) (seq 0 60).
Definition some_rnd (n i : nat) : nat := 5 * n + 3 * i.
Example C125_nonvacuous :
  (exists l' n, unstable_sort some_rnd wavering forty_five 0 = Ret ((l', n), Some tt) /\ l' <> forty_five /\ 0 < n) /\
  (exists l', unstable_sort some_rnd fortieth forty_five 0 = Ret ((l', 40), None) /\ l' <> forty_five) /\
  (exists n, unstable_sort some_rnd counts forty_five 0 = Ret ((seq 0 45, n), Some tt) /\ 0 < n) /\
  (exists n, unstable_sort some_rnd counts sixty 0 = Ret ((seq 0 60, n), Some tt) /\ 0 < n) /\
  answers_like counts (fun p => by_number (fst p) (snd p)).
Proof.
  split; [eexists; eexists; split; [vm_compute; reflexivity|]; split; [vm_compute; discriminate|apply Nat.ltb_lt; vm_compute; reflexivity]|].
  split; [eexists; split; [vm_compute; reflexivity|vm_compute; discriminate]|].
  split; [eexists; split; [vm_compute; reflexivity|apply Nat.ltb_lt; vm_compute; reflexivity]|].
  split; [eexists; split; [vm_compute; reflexivity|apply Nat.ltb_lt; vm_compute; reflexivity]|].
  intros p u; reflexivity.
Qed.
