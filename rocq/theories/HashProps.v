(** HashProps.v -- C51 .. C53, C72, C73: hash maps and hash sets. *)
From Coq Require Import Permutation.
From Verif Require Import Base Effect VecSpec DequeSpec HashModel HashSpec HashHistory HashProofs HashSetProofs.
Local Open Scope Z_scope.

(** *** C51: a finite map *)
Theorem C51_history : forall K V (keqb : K -> K -> bool) ords ops, equivalence keqb -> (forall i, fair (ords i)) ->
  let r := run keqb ords 0 (HashMapNew (V := V)) ops in
  exists f, mhistory keqb nothing ops f (snd r) /\ forall k, Get keqb (fst r) k = f k.
Proof.
  intros K V keqb ords ops HE Ho r.
  destruct (run_history keqb HE ops ords 0%nat HashMapNew nothing Ho I (fun _ => eq_refl)) as (g & Hh & _ & Hg). eauto.
Qed.
Theorem C51_with_capacity : forall K V (keqb : K -> K -> bool) ords ops capacity,
  run keqb ords 0 (HashMapWithCapacity (V := V) capacity) ops = run keqb ords 0 HashMapNew ops.
Proof. reflexivity. Qed.
(** Reflexivity is needed: a key that is not == itself (NaN) is never found, never
    removed, and takes one more entry each time it is inserted. *)
Theorem C51_nan_characterised : forall K V (keqb : K -> K -> bool),
  (forall a b, keqb a b = true -> keqb b a = true) ->
  (forall a b c, keqb a b = true -> keqb b c = true -> keqb a c = true) ->
  forall k, keqb k k = false -> forall (m : HashMap K V) v,
    Get keqb m k = None /\ ContainsKey keqb m k = false /\ Remove keqb m k = (m, None) /\
    snd (Insert keqb m k v) = None /\ Len (fst (Insert keqb m k v)) = Len m + 1.
Proof.
  intros K V keqb Hs Ht k Hk m v. unfold Get, ContainsKey, Remove, Insert, Len. cbn [fst snd].
  rewrite (nan_lookup keqb Hs Ht m k Hk), (nan_delete keqb Hs Ht m k Hk), (nan_assign keqb Hs Ht m k v Hk), app_length. cbn [length].
  split; [reflexivity|]. split; [reflexivity|]. split; [reflexivity|]. split; [reflexivity|]. lia.
Qed.
Example Zeqb_equivalence : equivalence Z.eqb.
Proof.
  split; [apply Z.eqb_refl|]. split.
  - intros a b H. now rewrite Z.eqb_sym.
  - intros a b c H1 H2. apply Z.eqb_eq in H1, H2. subst. apply Z.eqb_refl.
Qed.
Example rev_fair E : fair (rev (A := E)).
Proof. intros l. apply Permutation_sym, Permutation_rev. Qed.
Example C51_nonvacuous :
  run Z.eqb (fun _ => @rev (Z * Z)) 0 HashMapNew
      [MInsert 1 10; MInsert 2 20; MInsert 1 11; MGet 1; MRemove 2; MContainsKey 2; MInsert 5 50; MLen; MKeys; MEntries; MClear; MIsEmpty]
  = ([], [Value None; Value None; Value (Some 10); Value (Some 11); Value (Some 20); Truth false; Value None; Number 2;
          KeyList [5; 1]; Entries [(5, 50); (1, 11)]; Done; Truth true]).
Proof. vm_compute. reflexivity. Qed.

(** *** C52: iteration *)
Theorem C52_each_entry_once : forall K V (keqb : K -> K -> bool) (m : HashMap K V), equivalence keqb -> reached keqb m ->
  exists es, lists keqb (Get keqb m) es /\ Len m = Z.of_nat (length es) /\
    forall ord, fair ord ->
      Permutation (IntoIter_vec ord m) es /\ Permutation (Keys_vec ord m) (map fst es) /\ Permutation (Values_vec ord m) (map snd es).
Proof.
  intros K V keqb m HE Hm. pose proof (reached_wf keqb m HE Hm) as Hw.
  exists m. split; [now apply lookup_lists|]. split; [reflexivity|]. intros ord Ho.
  rewrite IntoIter_vec_eq, Keys_vec_eq, Values_vec_eq. split; [apply Ho|]. split; apply Permutation_map, Ho.
Qed.
(** The iterator over a buffer delivers it in order, then None for ever. *)
Theorem C52_next : forall T (v : list T) n, exists it',
  nexts n (cursor_of v) = Ret (it', map Some (firstn n v) ++ repeat None (n - length v)).
Proof.
  intros T v n. destruct (nexts_spec n (cursor_of v)) as (it' & E & _); [unfold valid, cursor_of; cbn [position vec]; lia|].
  exists it'. rewrite E. reflexivity.
Qed.
Theorem C52_eq_whatever_order : forall K V (keqb : K -> K -> bool) eqv (m rhs : HashMap K V), equivalence keqb -> reached keqb m -> reached keqb rhs ->
  exists b, (b = true <-> forall k, agree eqv (Get keqb m k) (Get keqb rhs k)) /\
    forall ord, fair ord -> Eq keqb ord (Some eqv) m rhs = Ret b.
Proof.
  intros K V keqb eqv m rhs HE Hm Hr. apply (reached_wf keqb m HE) in Hm. apply (reached_wf keqb rhs HE) in Hr.
  destruct (Eq_spec keqb HE (fun l => l) eqv m rhs (fun l => Permutation_refl l) Hm Hr) as (b & _ & Hb).
  exists b. split; [exact Hb|]. intros ord Ho.
  destruct (Eq_spec keqb HE ord eqv m rhs Ho Hm Hr) as (b' & E & Hb'). rewrite E. f_equal.
  destruct b, b'; try reflexivity.
  - apply Hb', Hb. reflexivity.
  - symmetry. apply Hb, Hb'. reflexivity.
Qed.
(** Values without an Eq: maps of the same size that share a key end in a panic or in
    false, and the order can decide which. *)
Theorem C52_eq_without_value_eq : forall K V (keqb : K -> K -> bool) (m rhs : HashMap K V) ord, equivalence keqb ->
  fair ord -> Len m = Len rhs -> (exists k, ContainsKey keqb m k = true /\ ContainsKey keqb rhs k = true) ->
  Eq keqb ord None m rhs = Panic \/ Eq keqb ord None m rhs = Ret false.
Proof.
  intros K V keqb m rhs ord HE Ho HL (k & H1 & H2). apply (Eq_no_trait keqb ord m rhs Ho HL).
  unfold ContainsKey in *. destruct (lookup keqb m k) as [v|] eqn:E; [|discriminate].
  apply lookup_Some_in in E. destruct E as (k' & Hin & Hk). exists k'. split; [apply in_map_iff; exists (k', v); auto|].
  rewrite (lookup_same keqb HE rhs k' k Hk). destruct (lookup keqb rhs k); congruence.
Qed.
Example C52_nonvacuous :
  let m := fst (run Z.eqb (fun _ => @rev (Z * Z)) 0 HashMapNew [MInsert 1 10; MInsert 2 20]) in
  let w := fst (run Z.eqb (fun _ => @rev (Z * Z)) 0 HashMapNew [MInsert 2 20; MInsert 1 10]) in
  let d := fst (run Z.eqb (fun _ => @rev (Z * Z)) 0 HashMapNew [MInsert 2 20; MInsert 3 10]) in
  IntoIter_vec (@rev (Z * Z)) m = [(2, 20); (1, 10)] /\ Eq Z.eqb (@rev _) (Some Z.eqb) m w = Ret true /\
  Eq Z.eqb (@rev _) (Some Z.eqb) m d = Ret false /\
  Eq Z.eqb (@rev _) None m d = Panic /\ Eq Z.eqb (fun l => l) None m d = Ret false /\ reached Z.eqb m.
Proof.
  split; [reflexivity|]. split; [reflexivity|]. split; [reflexivity|]. split; [reflexivity|]. split; [reflexivity|].
  eexists _, _. split; [|reflexivity]. intros i. apply rev_fair.
Qed.

(** *** C53: set algebra, over histories on any number of sets *)
Theorem C53_history : forall K (keqb : K -> K -> bool) clone ords ops, equivalence keqb ->
  (forall x, keqb (clone x) x = true) -> (forall n i, fair (ords n i)) ->
  exists hs rs ps, srun keqb clone ords 0 [] ops = Ret (hs, rs) /\ shistory keqb [] ops ps rs /\
    length hs = length ps /\
    forall i x, Contains keqb (nth i hs HashSetNew) x = true <-> set ps i x.
Proof.
  intros K keqb clone ords ops HE Hc Ho.
  destruct (srun_history keqb HE clone ords ops Hc Ho 0%nat [] [] (Forall2_nil _)) as (hs & rs & ps & E & Hs & H).
  exists hs, rs, ps. split; [exact E|]. split; [exact Hs|]. split; [clear - H; induction H; cbn [length]; congruence|].
  intros i x. apply (nth_shows keqb hs ps i H).
Qed.
Example C53_nonvacuous :
  srun Z.eqb (fun x => x) (fun _ _ => @rev (Z * unit)) 0 []
    [SFromSlice [1; 2; 5; 2]; SFromSlice [1; 2; 3]; SUnion 0 1; SIntersection 0 1; SSymmetricDifference 0 1;
     SElements 2; SElements 3; SElements 4; SIsSubset 3 0; SIsSubset 0 3; SIsDisjoint 3 4; SEq 0 1; SInsert 0 1; SInsert 0 9;
     SLen 0; SLen 1; SGet 0 9; SGet 1 9; SRemove 1 3; SRemove 1 3; SClone 1; SEq 5 3; SIsSuperset 2 1]
  = Ret ([[(1, tt); (2, tt); (5, tt); (9, tt)]; [(1, tt); (2, tt)]; [(5, tt); (2, tt); (1, tt); (3, tt)]; [(2, tt); (1, tt)]; [(5, tt); (3, tt)]; [(2, tt); (1, tt)]],
     [SDone; SDone; SDone; SDone; SDone;
      SList [3; 1; 2; 5]; SList [1; 2]; SList [3; 5]; STruth true; STruth false; STruth true; STruth false; STruth false; STruth true;
      SNumber 4; SNumber 3; SFound (Some 9); SFound None; STruth true; STruth false; SDone; STruth true; STruth true]).
Proof. vm_compute. reflexivity. Qed.

(** *** C72: the iterators' other methods, after any number n of calls of Next *)
Theorem C72_map_filter_fold_partial : forall T S (v : list T) n f g h (a : T) (s : S), exists it rs,
  nexts n (cursor_of v) = Ret (it, rs) /\
  c_Map it f s = (r <~ each_map f (skipn n v) ;; mret (cursor_of r)) s /\
  c_Filter it g s = (r <~ each_filter g (skipn n v) ;; mret (cursor_of r)) s /\
  c_Fold it a h s = each_fold h a (skipn n v) s /\
  c_CollectToLinkedList it = Ret (skipn n v).
Proof.
  intros T S v n f g h a s.
  destruct (nexts_spec n (cursor_of v)) as (it & E & Hv & _ & Hr & _); [unfold valid, cursor_of; cbn [position vec]; lia|].
  exists it. eexists. split; [exact E|]. change (rest (cursor_of v)) with v in Hr. rewrite <- Hr.
  split; [now apply c_Map_spec|]. split; [now apply c_Filter_spec|]. split; [now apply c_Fold_spec|]. now apply c_List_spec.
Qed.
(** Rev keeps the length of the whole buffer and pads the front with zero values, one
    for each element already taken; CollectToVec gives the whole buffer back. *)
Theorem C72_rev_collect_characterised : forall T (zero : T) (v : list T) n, exists it rs,
  nexts n (cursor_of v) = Ret (it, rs) /\
  c_Rev zero it = Ret (cursor_of (repeat zero (Nat.min n (length v)) ++ rev (skipn n v))) /\
  c_CollectToVec it = v.
Proof.
  intros T zero v n.
  destruct (nexts_spec n (cursor_of v)) as (it & E & Hv & Hvec & Hr & Hp); [unfold valid, cursor_of; cbn [position vec]; lia|].
  exists it. eexists. split; [exact E|]. change (rest (cursor_of v)) with v in *. cbn [cursor_of position] in Hp.
  split.
  - rewrite c_Rev_spec by exact Hv. rewrite Hr, Hp, Z.add_0_l, Nat2Z.id. reflexivity.
  - exact Hvec.
Qed.
Theorem C72_fresh_partial : forall T (zero : T) (v : list T),
  c_Rev zero (cursor_of v) = Ret (cursor_of (rev v)) /\ c_CollectToVec (cursor_of v) = v.
Proof. intros T zero v. split; [|reflexivity]. rewrite c_Rev_spec; [reflexivity|]. unfold valid, cursor_of. cbn [position vec]. lia. Qed.
Theorem C72_refuted : exists (v : list Z) it rs, nexts 1 (cursor_of v) = Ret (it, rs) /\
  c_Rev 0 it <> Ret (cursor_of (rev (skipn 1 v))) /\ c_CollectToVec it <> skipn 1 v.
Proof. exists [7; 8; 9], (mkCursor [7; 8; 9] 1), [Some 7]. split; [reflexivity|]. split; vm_compute; discriminate. Qed.
Example C72_nonvacuous :
  exists it, nexts 2 (cursor_of [1; 2; 3; 4; 5]) = Ret (it, [Some 1; Some 2]) /\
  c_Map it (fun x => mret (x * 10)) tt = Ret (cursor_of [30; 40; 50], tt) /\ c_Rev 0 it = Ret (cursor_of [0; 0; 5; 4; 3]).
Proof. eexists. split; [reflexivity|]. split; vm_compute; reflexivity. Qed.

(** *** C73: Clone and Display, whatever the order *)
Theorem C73_map_clone : forall K V (keqb : K -> K -> bool) ck cv (m : HashMap K V) ord, equivalence keqb -> reached keqb m -> fair ord ->
  (forall k, keqb (ck k) k = true) ->
  exists m', Clone keqb ord (Some ck) (Some cv) m = Ret m' /\ Len m' = Len m /\
    forall k, Get keqb m' k = match Get keqb m k with Some v => Some (cv v) | None => None end.
Proof.
  intros K V keqb ck cv m ord HE Hm Ho Hc. apply (reached_wf keqb m HE) in Hm.
  destruct (Clone_spec keqb HE ord ck cv m Ho Hm Hc) as (m' & E & Hw & HH). exists m'. split; [exact E|]. split; [|exact HH].
  assert (forall m m' : HashMap K V, wf keqb m -> wf keqb m' -> (forall k, lookup keqb m k <> None -> lookup keqb m' k <> None) -> (length m <= length m')%nat) as HD.
  { intros m1 m2 W1 W2 H. apply (domain_included keqb HE m1 m2 W1 W2). intros k Hk. apply H. now apply present_in. }
  unfold Len. f_equal. apply Nat.le_antisymm; apply HD; auto; intros k Hk; specialize (HH k);
    rewrite ?HH in *; destruct (lookup keqb m k); congruence.
Qed.
Theorem C73_set_clone : forall K (keqb : K -> K -> bool) c xs ord, equivalence keqb -> fair ord -> (forall k, keqb (c k) k = true) ->
  exists s', sClone keqb ord (Some c) (HashSetFromSlice keqb xs) = Ret s' /\
    forall k, Contains keqb s' k = Contains keqb (HashSetFromSlice keqb xs) k.
Proof.
  intros K keqb c xs ord HE Ho Hc. pose proof (from_slice_spec keqb HE xs) as Hs.
  destruct (sclone_spec keqb HE ord c _ _ Ho Hs Hc) as (s' & E & Hs'). exists s'. split; [exact E|]. intros k.
  pose proof (proj2 Hs' k) as H1. rewrite <- (proj2 Hs k) in H1. destruct (Contains keqb s' k), (Contains keqb _ k); try reflexivity.
  - symmetry. now apply H1.
  - now apply H1.
Qed.
(** A key or value type without Clone: only the empty container can be cloned. *)
Theorem C73_clone_without_trait : forall K V (keqb : K -> K -> bool) ck cv (m : HashMap K V) (s : HashSet K) ord sord, fair ord -> fair sord ->
  (ck = None \/ cv = None -> Clone keqb ord ck cv m = match m with [] => Ret [] | _ => Panic end) /\
  sClone keqb sord None s = match s with [] => Ret [] | _ => Panic end.
Proof. intros K V keqb ck cv m s ord sord Ho Hs. split; [now apply Clone_missing|now apply sclone_missing]. Qed.
(** "HashMap{k: v, ...}" and "HashSet{k, ...}", each entry once. *)
Theorem C73_display : forall K V (m : HashMap K V) (s : HashSet K) ord sord dk dv, fair ord -> fair sord ->
  exists es xs, Permutation es m /\ Permutation xs (map fst s) /\
    Display ord (fun k => Some (dk k)) (fun v => Some (dv v)) m =
      Ret ([72; 97; 115; 104; 77; 97; 112; 123] ++ comma_separated (map (fun e => dk (fst e) ++ [58; 32] ++ dv (snd e)) es) ++ [125]) /\
    sDisplay sord (fun k => Some (dk k)) s =
      Ret ([72; 97; 115; 104; 83; 101; 116; 123] ++ comma_separated (map dk xs) ++ [125]).
Proof.
  intros K V m s ord sord dk dv Ho Hs. exists (ord m), (map fst (sord s)). split; [apply Ho|].
  split; [apply Permutation_map, Hs|]. split.
  - unfold Display. rewrite (display_fields_spec _ _ (fun e => dk (fst e) ++ [58; 32] ++ dv (snd e))) by (intros; apply format_entry).
    cbn [bind]. now rewrite join_comma.
  - unfold sDisplay. rewrite (display_fields_spec _ _ (fun e => dk (fst e))) by (intros; apply format_one).
    cbn [bind]. now rewrite join_comma, map_map.
Qed.
Example C73_nonvacuous :
  Display (@rev _) (fun k => Some [k]) (fun v => Some [v]) [(65, 97); (66, 98)]
    = Ret [72; 97; 115; 104; 77; 97; 112; 123; 66; 58; 32; 98; 44; 32; 65; 58; 32; 97; 125] /\
  Clone Z.eqb (@rev _) (Some (fun k => k)) (Some (fun v => v)) [(65, 97); (66, 98)] = Ret [(66, 98); (65, 97)] /\
  Clone Z.eqb (@rev _) None (Some (fun v => v)) [(65, 97)] = Panic.
Proof. split; [vm_compute; reflexivity|]. split; reflexivity. Qed.

Print Assumptions C51_history. Print Assumptions C51_with_capacity. Print Assumptions C51_nan_characterised.
Print Assumptions C52_each_entry_once. Print Assumptions C52_next. Print Assumptions C52_eq_whatever_order. Print Assumptions C52_eq_without_value_eq.
Print Assumptions C53_history.
Print Assumptions C72_map_filter_fold_partial. Print Assumptions C72_rev_collect_characterised. Print Assumptions C72_fresh_partial. Print Assumptions C72_refuted.
Print Assumptions C73_map_clone. Print Assumptions C73_set_clone. Print Assumptions C73_clone_without_trait. Print Assumptions C73_display.
