(** BTreeIterProps.v -- C80: the iterators of B-tree maps and sets. *)
From Verif Require Import Base Effect CmpSpec VecSpec VecProps DequeSpec HashModel HashSpec HashHistory HashSetProofs
  BTreeModel BTreeSpec BTreeHistory BTreeSetProofs BTreeIterModel BTreeIterSpec BTreeIterProofs BTreeTopProofs BTreeProps.
Local Open Scope Z_scope.

Lemma after_valid {T} n (v : list T) : valid (after n v).
Proof. unfold valid, after. cbn [position vec]. lia. Qed.
Lemma after_rest {T} n (v : list T) : HashSetProofs.rest (after n v) = skipn n v.
Proof.
  unfold HashSetProofs.rest, after. cbn [position vec]. rewrite Nat2Z.id. destruct (Nat.le_gt_cases n (length v)).
  - f_equal. lia.
  - rewrite !skipn_all2 by lia. reflexivity.
Qed.

(** *** Next, of every one of the iterators *)
Theorem C80_next : forall T (v : list T) n,
  nexts n (cursor_of v) = Ret (after n v, map Some (firstn n v) ++ repeat None (n - length v)).
Proof.
  intros T v n. destruct (nexts_spec n (cursor_of v)) as (it & E & _ & Hv & _ & Hp); [unfold valid, cursor_of; cbn [position vec]; lia|].
  rewrite E. change (HashSetProofs.rest (cursor_of v)) with v in *. do 2 f_equal. destruct it as [v' p']. unfold after. cbn [vec position cursor_of] in *. subst. f_equal; lia.
Qed.
Print Assumptions C80_next.

(** *** Map, Filter and Fold of the iterators over a map: they call the closure on
    exactly what is left, in order, and leave the iterator itself spent. *)
Theorem C80_map_filter_fold : forall T S (v : list T) n (f : T -> M S T) (g : T -> M S bool) (h : T -> T -> M S T) (a : T) (s : S),
  p_Map (fun x => off (f x)) (after n v, s) =
    match each_map f (skipn n v) s with Ret (r, s') => Ret (cursor_of r, (spent v, s')) | Panic => Panic | Diverge => Diverge end /\
  p_Filter (fun x => off (g x)) (after n v, s) =
    match each_filter g (skipn n v) s with Ret (r, s') => Ret (cursor_of r, (spent v, s')) | Panic => Panic | Diverge => Diverge end /\
  p_Fold a (fun a x => off (h a x)) (after n v, s) =
    match each_fold h a (skipn n v) s with Ret (r, s') => Ret (r, (spent v, s')) | Panic => Panic | Diverge => Diverge end /\
  Next (spent v) = Ret (spent v, None).
Proof.
  intros T S v n f g h a s. pose proof (after_valid n v) as Hv. rewrite <- (after_rest n v).
  split; [now apply p_Map_off|]. split; [now apply p_Filter_off|]. split; [now apply p_Fold_off|].
  unfold Next, spent. cbn [vec position]. rewrite Z.leb_refl. reflexivity.
Qed.
Print Assumptions C80_map_filter_fold.
(** With a closure that uses the iterator: the call still comes to an end, with the
    iterator spent. *)
Theorem C80_reentrant : forall T S (v : list T) n (f : T -> M (world T S) T) (g : T -> M (world T S) bool) (h : T -> T -> M (world T S) T) (a : T) (s : S),
  (forall x, forward (f x)) -> (forall x, forward (g x)) -> (forall b x, forward (h b x)) ->
  (p_Map f (after n v, s) <> Diverge /\ forall r it s', p_Map f (after n v, s) = Ret (r, (it, s')) -> it = spent v) /\
  (p_Filter g (after n v, s) <> Diverge /\ forall r it s', p_Filter g (after n v, s) = Ret (r, (it, s')) -> it = spent v) /\
  (p_Fold a h (after n v, s) <> Diverge /\ forall r it s', p_Fold a h (after n v, s) = Ret (r, (it, s')) -> it = spent v).
Proof.
  intros T S v n f g h a s Ff Fg Fh.
  assert (L : (length (HashSetProofs.rest (after n v)) < length (vec (after n v)) + 1)%nat) by apply rest_length.
  split; [|split].
  - unfold p_Map, p_loop. cbn [fst]. unfold mbind at 1 3. cbn [fst].
    match goal with |- context [p_rounds ?k ?b ?i ?w] => destruct (p_rounds_forward b (fun acc x => forward_bind _ _ (Ff x) (fun y => forward_ret _)) k (fst w) i (snd w) (after_valid n v) L) as (D & R) end.
    cbn [fst snd] in *. destruct (p_rounds _ _ _ _) as [[r [it s']]| |]; try congruence.
    + split; [discriminate|]. intros r0 it0 s0 E. injection E as <- <- <-. exact (R _ _ _ eq_refl).
    + split; [discriminate|]. intros; discriminate.
  - unfold p_Filter, p_loop. cbn [fst]. unfold mbind at 1 3. cbn [fst].
    match goal with |- context [p_rounds ?k ?b ?i ?w] => destruct (p_rounds_forward b (fun acc x => forward_bind _ _ (Fg x) (fun y => forward_ret _)) k (fst w) i (snd w) (after_valid n v) L) as (D & R) end.
    cbn [fst snd] in *. destruct (p_rounds _ _ _ _) as [[r [it s']]| |]; try congruence.
    + split; [discriminate|]. intros r0 it0 s0 E. injection E as <- <- <-. exact (R _ _ _ eq_refl).
    + split; [discriminate|]. intros; discriminate.
  - unfold p_Fold, p_loop. cbn [fst]. exact (p_rounds_forward h Fh _ _ a s (after_valid n v) L).
Qed.
Print Assumptions C80_reentrant.
(** Map with a closure that takes one more element itself: every other element. *)
Example C80_reentrant_nonvacuous :
  let f x := y <~ p_Next ;; mret (x * 10 + match y with Some z => z | None => 0 end) in
  (forall x, forward (S := unit) (f x)) /\
  p_Map f (after 1 [9; 1; 2; 3; 4; 5], tt) = Ret (cursor_of [12; 34; 50], (spent [9; 1; 2; 3; 4; 5], tt)).
Proof. intros f. split; [intros x; apply forward_bind; [apply forward_Next|intros y; apply forward_ret]|vm_compute; reflexivity]. Qed.

(** *** Methods with value receivers: Map, Filter and Fold of the iterator over a set,
    CollectToLinkedList, Rev and CollectToVec of all of them. *)
Theorem C80_value_receivers_characterised : forall T S (zero : T) (v : list T) n (f : T -> M S T) (g : T -> M S bool) (h : T -> T -> M S T) (a : T) (s : S),
  c_Map (after n v) f s = (r <~ each_map f (skipn n v) ;; mret (cursor_of r)) s /\
  c_Filter (after n v) g s = (r <~ each_filter g (skipn n v) ;; mret (cursor_of r)) s /\
  c_Fold (after n v) a h s = each_fold h a (skipn n v) s /\
  c_CollectToLinkedList (after n v) = Ret (skipn n v) /\
  c_Rev zero (after n v) = Ret (cursor_of (repeat zero (Nat.min n (length v)) ++ rev (skipn n v))) /\
  c_CollectToVec (after n v) = v.
Proof.
  intros T S zero v n f g h a s. pose proof (after_valid n v) as Hv. rewrite <- (after_rest n v).
  split; [now apply c_Map_spec|]. split; [now apply c_Filter_spec|]. split; [now apply c_Fold_spec|]. split; [now apply c_List_spec|].
  split; [|reflexivity]. rewrite c_Rev_spec by exact Hv. unfold after at 1. cbn [position]. rewrite Nat2Z.id. reflexivity.
Qed.
Print Assumptions C80_value_receivers_characterised.
(** After Map the two kinds of iterator differ: that of a map is spent, that of a set
    is where it was. *)
Theorem C80_receiver_refuted : exists (v : list Z) r,
  p_Map (fun x => off (mret x)) (cursor_of v, tt) = Ret (r, (spent v, tt)) /\
  c_Map (cursor_of v) (fun x => mret x) tt = Ret (r, tt) /\
  nexts 1 (spent v) = Ret (spent v, [None]) /\ nexts 1 (cursor_of v) = Ret (after 1 v, [Some 7]).
Proof. exists [7; 8], (cursor_of [7; 8]). repeat split; vm_compute; reflexivity. Qed.
Print Assumptions C80_receiver_refuted.

(** *** From the map to the listing: after a gentle history, the iterators treat the
    entries, the keys and the values in ascending order of the keys. *)
Theorem C80_partial : forall K V (cmp : K -> K -> ordering), total_preorder cmp ->
  forall (ops : list (bop K V)) h0, gentle cmp [] ops ->
  exists m h l, run cmp BTreeMapNew ops h0 = Ret ((m, snd (map_run cmp [] ops)), h) /\
    sorted cmp l /\ (forall q, Get cmp m q h = Ret (get cmp q l)) /\
    bIntoIter m h = Ret (cursor_of l) /\ bKeys m h = Ret (cursor_of (map fst l)) /\ bValues m h = Ret (cursor_of (map snd l)) /\
    (forall n, nexts n (cursor_of l) = Ret (after n l, map Some (firstn n l) ++ repeat None (n - length l))) /\
    forall n (f : K * V -> K * V), p_Map (fun x => off (mret (f x))) (after n l, tt) = Ret (cursor_of (map f (skipn n l)), (spent l, tt)).
Proof.
  intros K V cmp T ops h0 G. destruct (C56_partial K V cmp T ops h0 G) as (m & h & l & E & I1 & I2 & I3 & SO & L & GE).
  exists m, h, l. split; [exact E|]. split; [exact SO|]. split; [exact GE|].
  unfold bIntoIter, bKeys, bValues. rewrite I1, I2, I3. split; [reflexivity|]. split; [reflexivity|]. split; [reflexivity|].
  split; [intros n; apply C80_next|]. intros n f.
  rewrite (p_Map_off (fun x => mret (f x)) (after n l) tt (after_valid n l)), (after_rest n l).
  assert (Em : forall r, each_map (S := unit) (fun x => mret (f x)) r tt = Ret (map f r, tt)).
  { induction r as [|x r IH]; cbn [each_map map]; [reflexivity|]. unfold mbind, mret in *. rewrite IH. reflexivity. }
  rewrite Em. reflexivity.
Qed.
Print Assumptions C80_partial.
Example C80_nonvacuous : exists m h it, run cmpZ BTreeMapNew C54_ops [] = Ret ((m, snd (map_run cmpZ [] C54_ops)), h) /\
  gentle cmpZ [] C54_ops /\ bKeys m h = Ret it /\
  nexts 12 it = Ret (after 12 (vec it), map (fun k => Some (Z.of_nat k)) (seq 1 12)) /\
  p_Filter (fun x => off (mret (Z.even x))) (after 12 (vec it), tt) = Ret (cursor_of [14], (spent (vec it), tt)).
Proof.
  do 3 eexists. split; [vm_compute; reflexivity|]. split; [apply C54_nonvacuous|]. split; [vm_compute; reflexivity|]. split; vm_compute; reflexivity.
Qed.
