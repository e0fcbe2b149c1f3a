(** ListProps.v -- properties C48 to C50 of LinkedList. *)
From Verif Require Import Base BaseLemmas Effect VecSpec ListModel ListProofs ListIterProofs ListRunProofs.
From Verif Require Import ListHistory.
From Verif Require ListSpec DequeSpec.
Local Open Scope Z_scope.
Import ListSpec(forward, forward_nil, forward_node, backward, list_shows, apart, extends, lstep, lhistory, countable).
Import DequeSpec(each_map, each_filter, each_fold).

(** *** C48: double-ended sequences *)

(** Any history of any number of lists gives the specified answers; afterwards every
    list shows its sequence, forwards and backwards, and no node belongs to two lists. *)
Theorem C48_history : forall (T : Type) eqb (clone : T -> T) ops s r, lhistory eqb clone [] ops s r ->
  exists w, run eqb clone start ops = Ret (w, r) /\ length (vars w) = length s /\
    (forall v xs, nth_error s v = Some xs -> exists l A, nth_error (vars w) v = Some l /\ list_shows (cells w) l A xs) /\
    (forall v u l k A B xs ys, v <> u -> nth_error (vars w) v = Some l -> nth_error (vars w) u = Some k ->
       list_shows (cells w) l A xs -> list_shows (cells w) k B ys -> apart A B).
Proof.
  intros T eqb clone ops s r H.
  destruct (run_history eqb clone _ _ _ _ H start [] owns_start eq_refl) as (w & css & E & O & ->); [constructor|].
  exists w. split; [exact E|]. split; [rewrite map_length; symmetry; apply O|]. split.
  - intros v xs Hv. apply nth_vals in Hv as (cs & Hcs & <-). destruct (owns_var _ _ _ _ O Hcs) as (l & Hl & Ol).
    exists l, (addrs cs). split; [exact Hl | now apply own_shows].
  - intros v u l k A B xs ys N Hl Hk S1 S2. destruct O as (L & O & P).
    destruct (nth_error css v) as [cs|] eqn:Ev; [|apply nth_error_None in Ev; assert (v < length (vars w))%nat by (apply nth_error_Some; congruence); lia].
    destruct (nth_error css u) as [ds|] eqn:Eu; [|apply nth_error_None in Eu; assert (u < length (vars w))%nat by (apply nth_error_Some; congruence); lia].
    destruct (own_shows _ _ _ (O _ _ _ Hl Ev)) as (F1 & _). destruct (own_shows _ _ _ (O _ _ _ Hk Eu)) as (F2 & _).
    destruct S1 as (F1' & _). destruct S2 as (F2' & _).
    destruct (forward_fun _ _ _ _ F1 _ _ F1') as [<- _]. destruct (forward_fun _ _ _ _ F2 _ _ F2') as [<- _]. eauto.
Qed.
Print Assumptions C48_history.

(** The specification leaves no call out: the variables exist, a pointer that is
    written through is not nil, and Append's lists differ. *)
Definition admissible {T} (w : list (list T)) (o : ListSpec.lop T) : Prop :=
  match o with
  | ListSpec.New => True
  | ListSpec.PushFront v _ | ListSpec.PushBack v _ | ListSpec.PopFront v | ListSpec.PopBack v | ListSpec.Front v | ListSpec.Back v
  | ListSpec.Clear v | ListSpec.Len v | ListSpec.IsEmpty v | ListSpec.Clone v | ListSpec.Elements v => (v < length w)%nat
  | ListSpec.WriteFront v _ | ListSpec.WriteBack v _ => exists l, nth_error w v = Some l /\ l <> []
  | ListSpec.Append v u => (v < length w)%nat /\ (u < length w)%nat /\ v <> u
  | ListSpec.Eq v u => (v < length w)%nat /\ (u < length w)%nat
  end.
Theorem C48_specification_total : forall (T : Type) eqb clone (w : list (list T)) o, admissible w o -> exists w' a, lstep eqb clone w o w' a.
Proof.
  intros T eqb clone w o A.
  assert (N : forall v, (v < length w)%nat -> exists l, nth_error w v = Some l).
  { intros v Hv. destruct (nth_error w v) eqn:E; [eauto|]. apply nth_error_None in E. lia. }
  destruct o; cbn [admissible] in A;
    try (destruct (N _ A) as [l Hl]).
  - eexists _, _. constructor.
  - eexists _, _. econstructor; eauto.
  - eexists _, _. econstructor; eauto.
  - destruct l; eexists _, _; [apply ListSpec.l_pop_front_empty | eapply ListSpec.l_pop_front]; eauto.
  - destruct l using rev_ind; eexists _, _; [apply ListSpec.l_pop_back_empty | eapply ListSpec.l_pop_back]; eauto.
  - eexists _, _. econstructor; eauto.
  - eexists _, _. econstructor; eauto.
  - destruct A as (l & Hl & Ne). destruct l; [congruence|]. eexists _, _. econstructor; eauto.
  - destruct A as (l & Hl & Ne). destruct l using rev_ind; [congruence|]. eexists _, _. eapply ListSpec.l_write_back; eauto.
  - eexists _, _. econstructor; eauto.
  - eexists _, _. econstructor; eauto.
  - eexists _, _. econstructor; eauto.
  - destruct A as (A1 & A2 & A3). destruct (N _ A1) as [l Hl]. destruct (N _ A2) as [k Hk]. eexists _, _. econstructor; eauto.
  - eexists _, _. econstructor; eauto.
  - destruct A as (A1 & A2). destruct (N _ A1) as [l Hl]. destruct (N _ A2) as [k Hk]. eexists _, _. econstructor; eauto.
  - eexists _, _. econstructor; eauto.
Qed.
Print Assumptions C48_specification_total.

Definition sample : list (ListSpec.lop Z) :=
  [ListSpec.New; ListSpec.New; ListSpec.PushBack 0 2; ListSpec.PushFront 0 1; ListSpec.PushBack 1 3; ListSpec.Append 0 1;
   ListSpec.WriteBack 0 4; ListSpec.Clone 0; ListSpec.PopFront 0; ListSpec.PopBack 0; ListSpec.Elements 2; ListSpec.Eq 0 2].
Definition sample_answers : list (ListSpec.lanswer Z) :=
  [ListSpec.Done; ListSpec.Done; ListSpec.Done; ListSpec.Done; ListSpec.Done; ListSpec.Done;
   ListSpec.Done; ListSpec.Done; ListSpec.Value (Some 1); ListSpec.Value (Some 4); ListSpec.Many [11; 12; 14]; ListSpec.Truth false].
Example C48_nonvacuous : lhistory Z.eqb (fun x => x + 10) [] sample [[2]; []; [11; 12; 14]] sample_answers.
Proof.
  unfold sample, sample_answers.
  repeat (eapply ListSpec.h_cons; [
    first [ apply ListSpec.l_new
          | eapply ListSpec.l_push_back; reflexivity | eapply ListSpec.l_push_front; reflexivity
          | eapply ListSpec.l_append; [discriminate | reflexivity | reflexivity]
          | eapply (ListSpec.l_write_back _ _ _ _ _ 3 [1; 2]); reflexivity
          | eapply ListSpec.l_clone; reflexivity
          | eapply ListSpec.l_pop_front; reflexivity
          | eapply (ListSpec.l_pop_back _ _ _ _ 4 [2]); reflexivity
          | eapply ListSpec.l_elements; reflexivity
          | exact (ListSpec.l_eq Z.eqb (fun x => x + 10) [[2]; []; [11; 12; 14]] 0 2 [2] [11; 12; 14] eq_refl eq_refl) ]
    | repeat constructor | ]).
  constructor.
Qed.
Example C48_run_example : match run Z.eqb (fun x => x + 10) start sample with Ret (_, a) => a = sample_answers | _ => False end.
Proof. vm_compute. reflexivity. Qed.

(** The text of a list. *)
Theorem C48_display : forall (T : Type) (display : T -> list Z) h l A xs, list_shows h l A xs -> Z.of_nat (length xs) < 2 ^ 63 ->
  Display (Some display) l h = Ret ([76; 105; 110; 107; 101; 100; 76; 105; 115; 116; 91] ++ comma_separated (map display xs) ++ [93], h).
Proof. intros T display h l A xs (F & _ & Ln) B. eapply Display_spec; eauto. Qed.
Print Assumptions C48_display.
Example C48_display_example :
  (p <- run Z.eqb (fun x => x) start [ListSpec.New; ListSpec.PushBack 0 1; ListSpec.PushBack 0 2] ;;
   l <- idx (vars (fst p)) 0 ;; r <- Display (Some (fun x => [48 + x])) l (cells (fst p)) ;; Ret (fst r))
  = Ret [76; 105; 110; 107; 101; 100; 76; 105; 115; 116; 91; 49; 44; 32; 50; 93].
Proof. vm_compute. reflexivity. Qed.

(** *** C49: Append *)

(** For any two lists without a common node, in any heap: the first becomes the
    concatenation (of the same nodes), the second empty, and no third list changes. *)
Theorem C49_append : forall (T : Type) (h : heap T) l A xs m B ys, list_shows h l A xs -> list_shows h m B ys -> apart A B ->
  Z.of_nat (length xs + length ys) < 2 ^ 64 ->
  exists l' m' h', Append l m h = Ret (l', m', h') /\
    list_shows h' l' (A ++ B) (xs ++ ys) /\ list_shows h' m' [] [] /\
    forall k C zs, list_shows h k C zs -> apart A C -> apart B C -> list_shows h' k C zs.
Proof.
  intros T h l A xs m B ys S1 S2 Ap Ct. destruct (shows_own _ _ _ _ S1) as (O1 & EA & Ex). destruct (shows_own _ _ _ _ S2) as (O2 & EB & Ey).
  assert (Lx : length (combine A xs) = length xs) by (rewrite <- Ex at 2; symmetry; apply map_length).
  assert (Ly : length (combine B ys) = length ys) by (rewrite <- Ey at 2; symmetry; apply map_length).
  rewrite <- EA, <- EB in Ap.
  destruct (Append_spec _ _ _ _ _ O1 O2 Ap) as (h' & l' & m' & E & O1' & O2' & Ch); [now rewrite Lx, Ly|].
  exists l', m', h'. split; [exact E|]. split; [|split].
  - apply own_shows in O1'. rewrite addrs_app, EA, EB in O1'. unfold vals in *. rewrite map_app, Ex, Ey in O1'. exact O1'.
  - apply own_shows in O2'. exact O2'.
  - intros k C zs S3 A1 A2. destruct (shows_own _ _ _ _ S3) as (O3 & EC & Ez).
    pose proof (own_frame _ _ _ _ _ O3 Ch) as O3'. rewrite EC, EA, EB in O3'.
    apply own_shows in O3'; [now rewrite EC, Ez in O3'|]. intros a Ia Ic. rewrite in_app_iff in Ia. destruct Ia; [now apply (A1 a) | now apply (A2 a)].
Qed.
Print Assumptions C49_append.
Example C49_nonvacuous :
  let h := [mkNode 1 (Some 1%nat) None; mkNode 2 None (Some 0%nat); mkNode 3 None None; mkNode 4 None None] in
  list_shows h (mkList (Some 0%nat) (Some 1%nat) 2) [0; 1]%nat [1; 2] /\ list_shows h (mkList (Some 2%nat) (Some 2%nat) 1) [2]%nat [3] /\
  list_shows h (mkList (Some 3%nat) (Some 3%nat) 1) [3]%nat [4] /\ apart [0; 1]%nat [2]%nat.
Proof.
  cbv zeta. split; [|split; [|split]].
  - split; [|split; [|reflexivity]].
    + apply (forward_node _ _ (mkNode 1 (Some 1%nat) None)); [reflexivity|]. apply (forward_node _ _ (mkNode 2 None (Some 0%nat))); [reflexivity|]. constructor.
    + apply (ListSpec.backward_node _ _ (mkNode 2 None (Some 0%nat))); [reflexivity|]. apply (ListSpec.backward_node _ _ (mkNode 1 (Some 1%nat) None)); [reflexivity|]. constructor.
  - split; [|split; [|reflexivity]].
    + apply (forward_node _ _ (mkNode 3 None None)); [reflexivity|]. constructor.
    + apply (ListSpec.backward_node _ _ (mkNode 3 None None)); [reflexivity|]. constructor.
  - split; [|split; [|reflexivity]].
    + apply (forward_node _ _ (mkNode 4 None None)); [reflexivity|]. constructor.
    + apply (ListSpec.backward_node _ _ (mkNode 4 None None)); [reflexivity|]. constructor.
  - intros a [<-|[<-|[]]] [H|[]]; discriminate.
Qed.
(** A list appended to itself loses its elements; other lists are not affected. *)
Theorem C49_append_self_characterised : forall (T : Type) (h : heap T) l A xs, list_shows h l A xs ->
  exists l' h', AppendSelf l h = Ret (l', h') /\ list_shows h' l' [] [] /\
    forall k C zs, list_shows h k C zs -> apart A C -> list_shows h' k C zs.
Proof.
  intros T h l A xs S1. destruct (shows_own _ _ _ _ S1) as (O1 & EA & Ex).
  destruct (AppendSelf_spec _ _ _ O1) as (h' & l' & E & O' & Ch). exists l', h'. split; [exact E|]. split; [now apply own_shows in O'|].
  intros k C zs S3 A1. destruct (shows_own _ _ _ _ S3) as (O3 & EC & Ez).
  pose proof (own_frame _ _ _ _ _ O3 Ch) as O3'. rewrite EC, EA in O3'. apply own_shows in O3'; [now rewrite EC, Ez in O3' | exact A1].
Qed.
Print Assumptions C49_append_self_characterised.

(** *** C50: iteration *)

(** k calls of Next. *)
Fixpoint nexts {T} (k : nat) (it : LinkedListIter) : M (heap T) (LinkedListIter * list (option T)) :=
  match k with
  | O => mret (it, [])
  | S k' => p <~ Next it ;; q <~ nexts k' (fst p) ;; mret (fst q, snd p :: snd q)
  end.
(** Next delivers the elements from the front on, then None for ever, and changes no
    node; after k calls the iterator stands at the elements from position k on. *)
Theorem C50_next : forall (T : Type) (h : heap T) l A xs k, list_shows h l A xs ->
  exists it, nexts k (IntoIter l) h = Ret (it, map (nth_error xs) (seq 0 k), h) /\ forward h (pointer it) (skipn k A) (skipn k xs).
Proof.
  intros T h l A xs k (F & _ & _). unfold IntoIter. revert F. generalize (head l). clear l. revert A xs.
  induction k as [|k IH]; intros A xs p F; cbn [nexts seq map].
  - exists (mkIter p). split; [reflexivity | exact F].
  - pose proof (Next_spec _ _ _ _ F) as N. destruct xs as [|x xs].
    + rewrite (mb_Ret _ _ _ _ _ _ _ _ N). cbn [fst snd]. destruct (IH A [] p F) as (it & E & F').
      rewrite (mb_Ret _ _ _ _ _ _ _ _ E). cbn [fst snd]. exists it. split.
      * unfold mret. do 4 f_equal. rewrite <- seq_shift, map_map. apply map_ext. intros [|j]; reflexivity.
      * inversion F; subst. rewrite !skipn_nil in *. exact F'.
    + destruct N as (q & A' & N & F' & EA). rewrite (mb_Ret _ _ _ _ _ _ _ _ N). cbn [fst snd]. destruct (IH A' xs q F') as (it & E & F2).
      rewrite (mb_Ret _ _ _ _ _ _ _ _ E). cbn [fst snd]. exists it. split.
      * unfold mret. do 4 f_equal. rewrite <- seq_shift, map_map. reflexivity.
      * subst A. exact F2.
Qed.
Print Assumptions C50_next.

(** An iterator that stands at the elements xs: Map, Filter, Fold and the two Collects
    act on xs, in order, one closure call per element; the result is a new list and no
    old node changes. *)
Definition countable1 {T} (xs : list T) : Prop := Z.of_nat (length xs) < 2 ^ 64.
Lemma fresh_shows : forall T (h h' : heap T) n ys, fresh_list h h' n ys -> extends h h' /\ exists B, list_shows h' n B ys.
Proof. intros T h h' n ys (ds & O & <- & C & _). split; [now apply changes_extends|]. exists (addrs ds). now apply own_shows. Qed.
Theorem C50_combinators_partial : forall (T S : Type) (h : heap T) p A xs (s : S), forward h p A xs -> countable1 xs ->
  (forall f, match each_map f xs s with
     | Ret (ys, s') => exists it' h' B, It_Map (mkIter p) f (h, s) = Ret (it', (h', s')) /\ forward h' (pointer it') B ys /\ extends h h'
     | Panic => It_Map (mkIter p) f (h, s) = Panic | Diverge => It_Map (mkIter p) f (h, s) = Diverge end) /\
  (forall f, match each_filter f xs s with
     | Ret (ys, s') => exists it' h' B, It_Filter (mkIter p) f (h, s) = Ret (it', (h', s')) /\ forward h' (pointer it') B ys /\ extends h h'
     | Panic => It_Filter (mkIter p) f (h, s) = Panic | Diverge => It_Filter (mkIter p) f (h, s) = Diverge end) /\
  (forall f a, It_Fold (mkIter p) a f (h, s) =
     match each_fold f a xs s with Ret (r, s') => Ret (r, (h, s')) | Panic => Panic | Diverge => Diverge end) /\
  It_CollectToVec (mkIter p) h = Ret (xs, h) /\
  (exists n h' B, It_CollectToLinkedList (mkIter p) h = Ret (n, h') /\ list_shows h' n B xs /\ extends h h').
Proof.
  intros T S h p A xs s F Ct. split; [|split; [|split; [|split]]].
  - intros f. pose proof (It_Map_spec S f xs p A h s F Ct) as H. destruct (each_map f xs s) as [[ys s']| |]; auto.
    destruct H as (h' & n' & E & Fl). destruct (fresh_shows _ _ _ _ _ Fl) as (Ex & B & Fw & _). exists (IntoIter n'), h', B. auto.
  - intros f. pose proof (It_Filter_spec S f xs p A h s F Ct) as H. destruct (each_filter f xs s) as [[ys s']| |]; auto.
    destruct H as (h' & n' & E & Fl). destruct (fresh_shows _ _ _ _ _ Fl) as (Ex & B & Fw & _). exists (IntoIter n'), h', B. auto.
  - intros f a. eapply It_Fold_spec; eauto.
  - eapply It_CollectToVec_spec; eauto.
  - destruct (It_CollectToLinkedList_spec _ _ _ _ F Ct) as (h' & n' & E & Fl). destruct (fresh_shows _ _ _ _ _ Fl) as (Ex & B & Sh). exists n', h', B. auto.
Qed.
Print Assumptions C50_combinators_partial.
(** Clone and Eq act element by element. *)
Theorem C50_clone : forall (T : Type) clone (h : heap T) l A xs, list_shows h l A xs -> countable1 xs ->
  exists n h' B, Clone (Some clone) l h = Ret (n, h') /\ list_shows h' n B (map clone xs) /\ apart A B /\ extends h h'.
Proof.
  intros T clone h l A xs (F & _) Ct. destruct (Clone_spec clone _ _ _ _ F Ct) as (h' & n' & E & Fl).
  destruct (fresh_shows _ _ _ _ _ Fl) as (Ex & _). destruct Fl as (ds & O & Ev & C & Fr). exists n', h', (addrs ds). split; [exact E|].
  split; [rewrite <- Ev; now apply own_shows|]. split; [|exact Ex]. intros a I1 I2. apply Fr in I2. pose proof (forward_bound _ _ _ _ F _ I1). lia.
Qed.
Print Assumptions C50_clone.
Theorem C50_eq : forall (T : Type) eqb (h : heap T) l A xs m B ys, list_shows h l A xs -> list_shows h m B ys ->
  exists b, ListModel.Eq (Some eqb) l m h = Ret (b, h) /\ (b = true <-> Forall2 (fun x y => eqb x y = true) xs ys).
Proof.
  intros T eqb h l A xs m B ys (F1 & _ & L1) (F2 & _ & L2). eexists. split; [eapply Eq_spec; eauto|].
  clear. revert ys. induction xs as [|x xs IH]; intros [|y ys]; cbn [same_elements].
  - split; auto.
  - split; [discriminate | inversion 1].
  - split; [discriminate | inversion 1].
  - rewrite andb_true_iff, IH. split; [intros []; now constructor | inversion 1; auto].
Qed.
Print Assumptions C50_eq.
(** Rev gives a new list with the elements in the same order, so it is wrong for every
    sequence that differs from its reverse. *)
Theorem C50_rev_characterised : forall (T : Type) (h : heap T) p A xs, forward h p A xs -> countable1 xs ->
  exists it' h' B, It_Rev (mkIter p) h = Ret (it', h') /\ forward h' (pointer it') B xs /\ extends h h'.
Proof.
  intros T h p A xs F Ct. destruct (It_Rev_spec _ _ _ _ F Ct) as (h' & n' & E & Fl). destruct (fresh_shows _ _ _ _ _ Fl) as (Ex & B & Fw & _).
  exists (IntoIter n'), h', B. auto.
Qed.
Print Assumptions C50_rev_characterised.
Theorem C50_rev_refuted : exists (h : heap Z) l A, list_shows h l A [1; 2] /\
  exists it' h' B, It_Rev (IntoIter l) h = Ret (it', h') /\ forward h' (pointer it') B [1; 2].
Proof.
  destruct C49_nonvacuous as (S & _). eexists _, _, _. split; [exact S|].
  destruct S as (F & _). destruct (C50_rev_characterised _ _ _ _ _ F) as (it' & h' & B & E & F' & _); [now vm_compute|]. exists it', h', B. auto.
Qed.
Print Assumptions C50_rev_refuted.
Example C50_nonvacuous :
  let h := [mkNode 1 (Some 1%nat) None; mkNode 2 (Some 2%nat) (Some 0%nat); mkNode 3 None (Some 1%nat)] in
  (p <- nexts 1 (mkIter (Some 0%nat)) h ;; let '(it, seen, h1) := p in
   r <- It_Map it (fun x (s : list Z) => Ret (x * 10, s ++ [x])) (h1, []) ;; let '(it', (h', s)) := r in
   v <- It_CollectToVec it' h' ;; Ret (seen, fst v, s)) = Ret ([Some 1], [20; 30], [2; 3]).
Proof. vm_compute. reflexivity. Qed.
