(** VarProps.v -- C104 (assigning operators) and C105 (AsRef). *)
From Coq Require Import List ZArith Lia Floats.SpecFloat.
From Verif Require Import Base BaseLemmas Effect FloatModel ComplexModel IntModel Int128Model VarModel VarSpec VarProofs.
From Verif Require VecModel VecProofs ListModel ListSpec ListProofs VarListProofs HashModel DequeModel DequeProofs BTreeModel VarDequeProofs.
Import ListNotations.
Local Open Scope Z_scope.

(** *** C104: x.AddAssign(y) is x = x.Add(y) *)
(** For every operator, every variable and every right-hand side: either neither x.Add(y) nor
    x.AddAssign(y) compiles, or the variable then holds what x.Add(y) returns and no other
    variable has changed, or both panic. *)
Theorem C104_assign : forall o m p v rhs, nth_error m p = Some v ->
  match method o v rhs with
  | None => OpAssign o m p rhs = None
  | Some (Ret w) => exists m', OpAssign o m p rhs = Some (Ret m') /\ only_changed p w m m'
  | Some Panic => OpAssign o m p rhs = Some Panic
  | Some Diverge => OpAssign o m p rhs = Some Diverge
  end.
Proof.
  intros o m p v rhs N. unfold OpAssign. rewrite (VarProofs.idx_nth _ _ _ N). rewrite (assigned_method o v rhs).
  destruct (method o v rhs) as [[w| |]|]; cbn [bind]; try reflexivity.
  destruct (upd_only m p v w N) as (m' & E & O). exists m'. now rewrite E.
Qed.
Print Assumptions C104_assign.
(** The right-hand side may be the variable itself: x.AddAssign(x), x.SubAssign(x), ... use the
    value from before the assignment twice. *)
Theorem C104_own_operand : forall o m p q v w u, nth_error m p = Some v -> nth_error m q = Some w ->
  method o v w = Some (Ret u) -> exists m', step m (SOpVar o p q) = Some (Ret (m', [])) /\ only_changed p u m m'.
Proof.
  intros o m p q v w u N N' M. cbn [step]. rewrite (idx_nth _ _ _ N').
  pose proof (C104_assign o m p v w N) as H. rewrite M in H. destruct H as (m' & E & O).
  rewrite E. cbn [bind]. exists m'. auto.
Qed.
Print Assumptions C104_own_operand.
(** Bytes compute modulo 256, and division by zero panics. *)
Theorem C104_byte : forall a b, 0 <= a < 256 -> 0 <= b < 256 ->
  method OAdd (VByte a) (VByte b) = Some (Ret (VByte ((a + b) mod 256))) /\
  method OSub (VByte a) (VByte b) = Some (Ret (VByte ((a - b) mod 256))) /\
  method OMul (VByte a) (VByte b) = Some (Ret (VByte ((a * b) mod 256))) /\
  method ODiv (VByte a) (VByte b) = Some (if b =? 0 then Panic else Ret (VByte (a / b))) /\
  method ORem (VByte a) (VByte b) = None.
Proof.
  intros a b A B. repeat split; try reflexivity. cbn [method may Div]. unfold Div. destruct (Z.eqb_spec b 0) as [E|E]; [reflexivity|].
  cbn [bind]. unfold wrap. cbn [signed width]. rewrite Z.quot_div_nonneg by lia. rewrite Z.mod_small; [reflexivity|].
  split; [apply Z.div_pos; lia|]. apply Z.le_lt_trans with a; [|lia]. apply Z.div_le_upper_bound; nia.
Qed.
Print Assumptions C104_byte.
(** Chars compute in 32 bits with a sign: the result is in range and differs from the exact one
    by a multiple of 2^32; division truncates. *)
Definition char_result (x : option (out val)) (exact : Z) : Prop :=
  exists z, x = Some (Ret (VChar z)) /\ -2 ^ 31 <= z < 2 ^ 31 /\ (z - exact) mod 2 ^ 32 = 0.
Lemma char_wrap x : char_result (Some (Ret (VChar (wrap I32 x)))) x.
Proof.
  exists (wrap I32 x). split; [reflexivity|]. unfold wrap. cbn [signed width].
  change (32 - 1) with 31. pose proof (Z.mod_pos_bound (x + 2 ^ 31) (2 ^ 32) ltac:(lia)). split; [lia|].
  rewrite (Z.mod_eq (x + 2 ^ 31) (2 ^ 32)) by lia. set (k := (x + 2 ^ 31) / 2 ^ 32).
  replace (x + 2 ^ 31 - 2 ^ 32 * k - 2 ^ 31 - x) with ((- k) * 2 ^ 32) by ring. apply Z_mod_mult.
Qed.
Theorem C104_char : forall a b, -2 ^ 31 <= a < 2 ^ 31 -> -2 ^ 31 <= b < 2 ^ 31 ->
  char_result (method OAdd (VChar a) (VChar b)) (a + b) /\
  char_result (method OSub (VChar a) (VChar b)) (a - b) /\
  char_result (method OMul (VChar a) (VChar b)) (a * b) /\
  (b <> 0 -> char_result (method ODiv (VChar a) (VChar b)) (Z.quot a b)) /\
  (b = 0 -> method ODiv (VChar a) (VChar b) = Some Panic) /\
  method ORem (VChar a) (VChar b) = None.
Proof.
  intros a b A B. split; [apply char_wrap|]. split; [apply char_wrap|]. split; [apply char_wrap|].
  split; [|split; [|reflexivity]].
  - intros N. cbn [method may]. unfold Div. rewrite (proj2 (Z.eqb_neq b 0) N). cbn [bind]. apply char_wrap.
  - intros ->. reflexivity.
Qed.
Print Assumptions C104_char.
(** Adding strings appends the bytes; strings have no other operator. *)
Theorem C104_string : forall a b, method OAdd (VString a) (VString b) = Some (Ret (VString (a ++ b))) /\
  forall o, o <> OAdd -> method o (VString a) (VString b) = None.
Proof. intros a b. split; [reflexivity|]. intros [] N; congruence || reflexivity. Qed.
Print Assumptions C104_string.
(** Operands of two different types do not compile: nothing is ever converted silently. *)
Theorem C104_typed : forall o v w u, method o v w = Some u ->
  match v, w with
  | VInt t _, VInt t' _ => t = t'
  | VI128 _, VI128 _ | VU128 _, VU128 _ | VF32 _, VF32 _ | VF64 _, VF64 _ | VByte _, VByte _ | VChar _, VChar _
  | VString _, VString _ | VComplex64 _, VComplex64 _ | VComplex128 _, VComplex128 _ => True
  | _, _ => False
  end.
Proof.
  intros o v w u H. destruct v, w; try exact I; try discriminate H. cbn [method] in H.
  destruct (ity_eqb t t0) eqn:E; [|discriminate]. now apply ity_eqb_ok.
Qed.
Print Assumptions C104_typed.
(** Exchanging two variables, or one with itself. *)
Theorem C104_swap : forall m p q x y, nth_error m p = Some x -> nth_error m q = Some y ->
  exists m', Swap m p q = Ret m' /\ length m' = length m /\ nth_error m' p = Some y /\ nth_error m' q = Some x /\
    forall i, i <> p -> i <> q -> nth_error m' i = nth_error m i.
Proof.
  intros m p q x y P Q. unfold Swap. rewrite (idx_nth _ _ _ P), (idx_nth _ _ _ Q). cbn [bind].
  destruct (upd_only m p x y P) as (m1 & E1 & A1 & B1 & C1). rewrite E1. cbn [bind].
  assert (Q1 : exists z, nth_error m1 q = Some z). { destruct (Nat.eq_dec q p) as [->|N]; [eauto|]. rewrite C1 by auto. eauto. }
  destruct Q1 as (z & Q1). destruct (upd_only m1 q z x Q1) as (m2 & E2 & A2 & B2 & C2). rewrite E2.
  exists m2. split; [reflexivity|]. split; [lia|]. split.
  - destruct (Nat.eq_dec p q) as [->|N]; [congruence|]. rewrite C2 by auto. exact A1.
  - split; [exact A2|]. intros i I1 I2. rewrite C2 by auto. now apply C1.
Qed.
Print Assumptions C104_swap.
Example C104_nonvacuous :
  let m := [VInt I8 100; VByte 250; VString [97; 98]; VChar 7; VInt U32 0] in
  run m [SOpVar OAdd 0 0; SOp OAdd 1 (VByte 10); SOp OAdd 2 (VString [99]); SOpVar OMul 3 3; SRead 0; SRead 1; SRead 2; SRead 3]
    = Some (Ret ([VInt I8 (-56); VByte 4; VString [97; 98; 99]; VChar 49; VInt U32 0],
                 [VInt I8 (-56); VByte 4; VString [97; 98; 99]; VChar 49])) /\
  OpAssign ODiv m 4 (VInt U32 0) = Some Panic /\ OpAssign OAdd m 0 (VInt I16 1) = None /\
  Swap m 0 2 = Ret [VString [97; 98]; VByte 250; VInt I8 100; VChar 7; VInt U32 0].
Proof. vm_compute. repeat split. Qed.

(** *** C105: AsRef *)
(** It does not give a reference to the variable it is called on ... *)
Theorem C105_refuted : exists (m m' : vars) (p r : nat), AsRef m p = Ret (m', r) /\ ~ refers_to m' r p.
Proof.
  exists [VInt I32 1], [VInt I32 1; VInt I32 1], 0%nat, 1%nat. split; [reflexivity|]. intros H.
  specialize (H [SOp OAdd 1%nat (VInt I32 1)] [VInt I32 1; VInt I32 2] [] eq_refl). discriminate.
Qed.
Print Assumptions C105_refuted.
(** ... but to a new variable with the same value; from then on each is changed only by what is
    done through it, whatever the program does. *)
Theorem C105_characterised : forall m p v, nth_error m p = Some v ->
  exists m' r, AsRef m p = Ret (m', r) /\ nth_error m' r = Some v /\ r <> p /\
    nth_error m r = None /\ (forall q w, nth_error m q = Some w -> nth_error m' q = Some w) /\
    forall prog m2 a, run m' prog = Some (Ret (m2, a)) ->
      (leaves_alone prog p -> nth_error m2 p = Some v) /\ (leaves_alone prog r -> nth_error m2 r = Some v).
Proof.
  intros m p v N. assert (L : (p < length m)%nat) by (apply nth_error_Some; congruence).
  unfold AsRef. rewrite (idx_nth _ _ _ N). cbn [bind]. exists (m ++ [v]), (length m). split; [reflexivity|].
  assert (R : nth_error (m ++ [v]) (length m) = Some v) by (rewrite nth_error_app2, Nat.sub_diag by lia; reflexivity).
  split; [exact R|]. split; [lia|]. split; [apply nth_error_None; lia|]. split.
  - intros q w Q. rewrite nth_error_app1; auto. apply nth_error_Some. congruence.
  - intros prog m2 a E. split; intros W; rewrite (run_keeps prog _ _ _ _ E W); auto.
    + rewrite nth_error_app1 by auto. exact N.
    + rewrite app_length. lia.
    + rewrite app_length. cbn. lia.
Qed.
Print Assumptions C105_characterised.

(** Vectors: the reference has its own length but the same elements.  Whatever overwrites
    elements in place is seen by both ... *)
Theorem C105_vec_in_place_partial : forall (T : Type) (m m' : VecModel.mem T) v f, VecProofs.valid m v ->
  VecModel.in_place m (Vec_AsRef v) f = Ret m' -> (forall d e, f d = Ret e -> length e = length d) ->
  f (VecModel.contents m v) = Ret (VecModel.contents m' v).
Proof.
  intros T m m' v f V E F. unfold Vec_AsRef, VecModel.in_place in E. destruct (f (VecModel.contents m v)) as [d| |] eqn:D; try discriminate.
  cbn [bind] in E. inversion E; subst. f_equal. symmetry. apply VecProofs.store_spec; auto. rewrite (F _ _ D). now apply VecProofs.contents_length.
Qed.
Print Assumptions C105_vec_in_place_partial.
(** ... an element pushed through the reference is not seen through the variable, and is
    overwritten by the next element pushed through the variable if there was room for it ... *)
Theorem C105_vec_push_characterised : forall (T : Type) (zero : T) extra (m : VecModel.mem T) v x y, VecProofs.valid m v ->
  let (m1, r) := VecModel.Push zero extra m (Vec_AsRef v) x in
  VecModel.contents m1 r = VecModel.contents m v ++ [x] /\ VecModel.contents m1 v = VecModel.contents m v /\
  let (m2, v2) := VecModel.Push zero extra m1 v y in
  VecModel.contents m2 v2 = VecModel.contents m v ++ [y] /\
  VecModel.contents m2 r = VecModel.contents m v ++ [if Nat.ltb (VecModel.Len v) (VecModel.Capacity m v) then y else x].
Proof.
  intros T zero extra m v x y V. unfold Vec_AsRef. pose proof (append_twice zero extra m v x y V) as H.
  pose proof (VecProofs.append_spec zero extra m v [x] V) as S. pose proof (append_other zero extra m v [x] V) as O.
  unfold VecModel.Push in *. destruct (VecModel.append zero extra m v [x]) as [m1 r]. cbn [fst] in O. split; [apply S|]. split; [exact O|].
  destruct (VecModel.append zero extra m1 v [y]) as [m2 v2]. exact H.
Qed.
Print Assumptions C105_vec_push_characterised.
(** ... and an element popped through the reference stays in the variable until one pushed
    through the reference replaces it. *)
Theorem C105_vec_pop_characterised : forall (T : Type) (zero : T) extra (m : VecModel.mem T) v x, VecProofs.valid m v -> VecModel.Len v <> 0%nat ->
  exists y r, VecModel.Pop m (Vec_AsRef v) = Ret (r, Some y) /\ VecModel.contents m v = VecModel.contents m r ++ [y] /\
    VecModel.contents (fst (VecModel.Push zero extra m r x)) v = VecModel.contents m r ++ [x].
Proof. intros. now apply pop_push. Qed.
Print Assumptions C105_vec_pop_characterised.

(** Linked lists: the reference has its own ends and length but the same nodes.  A list that is
    not empty shows, walking forward, what was pushed to the back through the reference,
    although its length does not count it; pushing through the variable then makes both lose
    it walking forward, and the reference show one thing forward and another backward. *)
Theorem C105_list_push_back_characterised : forall (T : Type) (h : ListModel.heap T) l A xs x y,
  ListSpec.list_shows h l A xs -> xs <> [] -> Z.of_nat (length xs) + 1 < 2 ^ 64 ->
  exists h' r a, ListModel.PushBack (List_AsRef l) x h = Ret (r, h') /\ ListSpec.list_shows h' r (A ++ [a]) (xs ++ [x]) /\
    ListModel.Len l = Z.of_nat (length xs) /\
    ListSpec.forward h' (ListModel.head l) (A ++ [a]) (xs ++ [x]) /\ ListSpec.backward h' (ListModel.tail l) (rev A) (rev xs) /\
    exists h2 l2 b, ListModel.PushBack l y h' = Ret (l2, h2) /\ ListSpec.list_shows h2 l2 (A ++ [b]) (xs ++ [y]) /\
      ListSpec.forward h2 (ListModel.head r) (A ++ [b]) (xs ++ [y]) /\
      ListSpec.backward h2 (ListModel.tail r) (rev (A ++ [a])) (rev (xs ++ [x])).
Proof.
  intros T h l A xs x y S N B. destruct (VarListProofs.push_back_copy h l A xs x y S N B) as (h' & r & a & H1 & H2 & H3 & H4 & H5).
  exists h', r, a. split; [exact H1|]. split; [exact H2|]. split; [apply S|]. auto.
Qed.
Print Assumptions C105_list_push_back_characterised.
(** An empty list stays empty. *)
Theorem C105_list_empty_characterised : forall (T : Type) (h : ListModel.heap T) l x, ListSpec.list_shows h l [] [] ->
  exists h' r a, ListModel.PushBack (List_AsRef l) x h = Ret (r, h') /\ ListSpec.list_shows h' r [a] [x] /\ ListSpec.list_shows h' l [] [].
Proof. intros. now apply VarListProofs.push_back_copy_empty. Qed.
Print Assumptions C105_list_empty_characterised.
(** What is pushed to the front through the reference is seen walking backward only. *)
Theorem C105_list_push_front_characterised : forall (T : Type) (h : ListModel.heap T) l A xs x,
  ListSpec.list_shows h l A xs -> xs <> [] -> Z.of_nat (length xs) + 1 < 2 ^ 64 ->
  exists h' r a, ListModel.PushFront (List_AsRef l) x h = Ret (r, h') /\ ListSpec.list_shows h' r (a :: A) (x :: xs) /\
    ListSpec.forward h' (ListModel.head l) A xs /\ ListSpec.backward h' (ListModel.tail l) (rev (a :: A)) (rev (x :: xs)).
Proof. intros. now apply VarListProofs.push_front_copy. Qed.
Print Assumptions C105_list_push_front_characterised.
(** An element taken from the back through the reference can be taken once more through the
    variable. *)
Theorem C105_list_pop_characterised : forall (T : Type) (h : ListModel.heap T) l A t xs y,
  ListSpec.list_shows h l (A ++ [t]) (xs ++ [y]) -> Z.of_nat (length xs) + 1 < 2 ^ 64 ->
  exists h' r, ListModel.PopBack (List_AsRef l) h = Ret (r, Some y, h') /\ ListSpec.list_shows h' r A xs /\
    ListModel.PopBack l h' = Ret (r, Some y, h').
Proof. intros. now apply VarListProofs.pop_back_copy with (t := t). Qed.
Print Assumptions C105_list_pop_characterised.

(** Hash maps: until one of the two is cleared, the reference and the variable (and the map that
    AsMap returns) are the same map: every history that goes through both gets the answers of
    the history that goes through the variable alone. *)
Theorem C105_hash_partial : forall (K V : Type) (keqb : K -> K -> bool) (m : list (HashModel.HashMap K V)) v d ops,
  nth_error m v = Some d -> (forall b, ~ In (b, HClear) ops) -> AsMap v = v /\
  exists m1 m2 l, hrun keqb m v (Hash_AsRef v) ops = Ret (m1, v, v, l) /\ hrun keqb m v v (all_direct ops) = Ret (m2, v, v, l).
Proof.
  intros K V keqb m v d ops N C. split; [reflexivity|]. destruct (hrun_shared keqb ops m v d N C) as (m1 & E).
  destruct (hrun_shared keqb (all_direct ops) m v d N) as (m2 & E2).
  { intros b I. unfold all_direct in I. apply in_map_iff in I. destruct I as ([c o] & Q & I). cbn [snd] in Q. inversion Q; subst. exact (C c I). }
  exists m1, m2, (solos keqb d ops). split; [exact E|]. rewrite E2. unfold all_direct. now rewrite solos_relabel.
Qed.
Print Assumptions C105_hash_partial.
(** Clear makes a new map: after Clear through the reference the variable keeps its entries, and
    from then on the two answer like two separate maps, one that was never cleared and a new
    one. *)
Theorem C105_hash_cleared_characterised : forall (K V : Type) (keqb : K -> K -> bool) (m : list (HashModel.HashMap K V)) v d ops,
  nth_error m v = Some d ->
  exists m1 v1 r1 l, hrun keqb m v (Hash_AsRef v) ((true, HClear) :: ops) = Ret (m1, v1, r1, HDone :: l) /\
    (exists s, hrun keqb m v v (only false ops) = Ret (s, answers false ops l)) /\
    (exists s, hrun keqb [HashModel.HashMapNew] 0 0 (only true ops) = Ret (s, answers true ops l)).
Proof.
  intros K V keqb m v d ops N. assert (L : (v < length m)%nat) by (apply nth_error_Some; congruence).
  unfold Hash_AsRef. cbn [hrun]. unfold hstep. rewrite (idx_nth _ _ _ N). cbn [bind].
  destruct (hrun_apart keqb ops (m ++ [HashModel.HashMapNew]) v (length m) d HashModel.HashMapNew) as (m1 & v1 & r1 & l & E & A & B).
  - lia.
  - rewrite nth_error_app1; auto.
  - rewrite nth_error_app2, Nat.sub_diag by lia. reflexivity.
  - rewrite E. cbn [bind]. exists m1, v1, r1, l. split; [reflexivity|]. rewrite A, B. split.
    + destruct (hrun_false keqb (only false ops) m v v d N) as (m2 & v2 & E2); [apply only_all|]. rewrite E2. eauto.
    + destruct (hrun_true keqb (only true ops) [HashModel.HashMapNew] 0 0 HashModel.HashMapNew eq_refl) as (m2 & v2 & E2); [apply only_all|]. rewrite E2. eauto.
Qed.
Print Assumptions C105_hash_cleared_characterised.

(** Deques: the buffer is shared until one of the two has to grow.  What is pushed to the back
    through the reference is not seen through the variable, and the next element pushed through
    the variable replaces it in the reference ... *)
Theorem C105_deque_push_characterised : forall (T : Type) (zero : T) limit (d : DequeModel.VecDeque T) xs c x y, 7 <= limit < 2 ^ 63 ->
  DequeProofs.rep limit d xs c -> (length xs < c)%nat ->
  exists r, DequeModel.PushBack zero limit (Deque_AsRef d) x = Ret r /\ DequeProofs.rep limit r (xs ++ [x]) c /\
    DequeProofs.rep limit (Deque_seen d r) xs c /\
  exists v, DequeModel.PushBack zero limit (Deque_seen d r) y = Ret v /\ DequeProofs.rep limit v (xs ++ [y]) c /\
    DequeProofs.rep limit (Deque_seen r v) (xs ++ [y]) c.
Proof. intros. now apply VarDequeProofs.deque_push_back. Qed.
Print Assumptions C105_deque_push_characterised.
(** ... if the deque is full the two part for good ... *)
Theorem C105_deque_full_characterised : forall (T : Type) (zero : T) limit (d : DequeModel.VecDeque T) xs x, 7 <= limit < 2 ^ 63 ->
  DequeProofs.rep limit d xs (length xs) -> 2 * Z.of_nat (length xs) <= limit ->
  exists r, DequeModel.PushBack zero limit (Deque_AsRef d) x = Ret r /\ DequeProofs.rep limit r (xs ++ [x]) (2 * length xs) /\ Deque_seen d r = d.
Proof. intros. now apply VarDequeProofs.deque_push_full. Qed.
Print Assumptions C105_deque_full_characterised.
(** ... and an element popped through the reference stays in the variable until one pushed
    through the reference replaces it. *)
Theorem C105_deque_pop_characterised : forall (T : Type) (zero : T) limit (d : DequeModel.VecDeque T) xs x c y, 7 <= limit < 2 ^ 63 ->
  DequeProofs.rep limit d (xs ++ [x]) c ->
  exists r r2, DequeModel.PopBack (Deque_AsRef d) = Ret (r, Some x) /\ DequeProofs.rep limit r xs c /\ DequeProofs.rep limit (Deque_seen d r) (xs ++ [x]) c /\
    DequeModel.PushBack zero limit r y = Ret r2 /\ DequeProofs.rep limit r2 (xs ++ [y]) c /\ DequeProofs.rep limit (Deque_seen d r2) (xs ++ [y]) c.
Proof. intros. now apply VarDequeProofs.deque_pop_push. Qed.
Print Assumptions C105_deque_pop_characterised.

(** B-tree maps share their nodes.  An insertion through the reference is seen by every reading
    through the variable, except that Len counts only what went through the variable ... *)
Theorem C105_btree_insert_partial : forall (K V : Type) (cmp : K -> K -> ordering) (m : BTreeModel.BTreeMap) r nd k v (h h' : BTreeModel.heap K V) m' o,
  BTreeModel.root m = Some r -> nth_error h r = Some nd -> BTreeModel.n nd <> BTreeModel.cap ->
  BTreeModel.Insert cmp (BTree_AsRef m) k v h = Ret (m', o, h') ->
  BTreeModel.IntoIter_vec m h' = BTreeModel.IntoIter_vec m' h' /\
  BTreeModel.Keys_vec m h' = BTreeModel.Keys_vec m' h' /\ BTreeModel.Values_vec m h' = BTreeModel.Values_vec m' h' /\
  (forall q, BTreeModel.ContainsKey cmp m q h' = BTreeModel.ContainsKey cmp m' q h') /\
  (forall q, BTreeModel.Get cmp m q h' = BTreeModel.Get cmp m' q h') /\
  BTreeModel.Len m' = match o with Some _ => BTreeModel.Len m | None => (BTreeModel.Len m + 1) mod 2 ^ 64 end.
Proof.
  intros K V cmp m r nd k v h h' m' o R N C H. unfold BTree_AsRef in H. pose proof (VarDequeProofs.insert_root cmp m k v h m' o h' H) as Q.
  rewrite R in Q. destruct Q as [[Q1 Q2]|(nd' & r' & A & B & _)]; [|congruence].
  unfold BTreeModel.IntoIter_vec, BTreeModel.Keys_vec, BTreeModel.Values_vec, BTreeModel.ContainsKey, BTreeModel.Get. rewrite Q1, R.
  repeat split; auto.
Qed.
Print Assumptions C105_btree_insert_partial.
(** ... but a map that was empty, or whose root was full, gets a new root that the variable does
    not know. *)
Theorem C105_btree_root_characterised : forall (K V : Type) (cmp : K -> K -> ordering) (m : BTreeModel.BTreeMap) k v (h h' : BTreeModel.heap K V) m' o,
  BTreeModel.Insert cmp (BTree_AsRef m) k v h = Ret (m', o, h') ->
  BTreeModel.root m' = BTreeModel.root m \/
  (o = None /\ BTreeModel.root m = None /\ BTreeModel.IntoIter_vec m h' = Ret [] /\ BTreeModel.Len m = BTreeModel.len m) \/
  (o = None /\ exists r nd r', BTreeModel.root m = Some r /\ nth_error h r = Some nd /\ BTreeModel.n nd = 11%nat /\
     BTreeModel.root m' = Some r' /\ nth_error h r' = None).
Proof.
  intros K V cmp m k v h h' m' o H. unfold BTree_AsRef in H. pose proof (VarDequeProofs.insert_root cmp m k v h m' o h' H) as Q.
  destruct (BTreeModel.root m) as [r|] eqn:R.
  - destruct Q as [[Q1 Q2]|(nd & r' & A & B & C & D & E)]; [left; congruence|]. right. right. split; [exact C|].
    exists r, nd, r'. auto 10.
  - right. left. destruct Q as [Q1 Q2]. split; [exact Q2|]. split; [reflexivity|]. split; [|reflexivity].
    unfold BTreeModel.IntoIter_vec. now rewrite R.
Qed.
Print Assumptions C105_btree_root_characterised.
(** The keys 1 to 11 inserted into a map, then 0 through the reference: the reference has all
    twelve, and the variable has lost the key 11. *)
Definition cmpZ (a b : Z) : ordering := if a <? b then Less else if b <? a then Greater else Equal.
Fixpoint insert_all (l : list Z) (m : BTreeModel.BTreeMap) (h : BTreeModel.heap Z Z) : out (BTreeModel.BTreeMap * BTreeModel.heap Z Z) :=
  match l with
  | [] => Ret (m, h)
  | k :: l' => x <- BTreeModel.Insert cmpZ m k k h ;; insert_all l' (fst (fst x)) (snd x)
  end.
Theorem C105_btree_refuted : exists m m' h h', insert_all (map Z.of_nat (seq 1 11)) BTreeModel.BTreeMapNew [] = Ret (m, h) /\
  BTreeModel.ContainsKey cmpZ m 11 h = Ret true /\
  BTreeModel.Insert cmpZ (BTree_AsRef m) 0 0 h = Ret (m', None, h') /\
  BTreeModel.Keys_vec m' h' = Ret (map Z.of_nat (seq 0 12)) /\ BTreeModel.Keys_vec m h' = Ret (map Z.of_nat (seq 0 11)) /\ BTreeModel.Len m = 11.
Proof. do 4 eexists. split; [vm_compute; reflexivity|]. split; [vm_compute; reflexivity|]. split; [vm_compute; reflexivity|]. vm_compute. repeat split. Qed.
Print Assumptions C105_btree_refuted.

(** v = [1, 2, 3]; r = v.AsRef(); r.Pop(); r.Push(9): v is [1, 2, 9].  A list of 1 and 2, 3
    pushed through the reference: the variable counts 2 and collects three.  A map with one
    entry: an insertion through the reference is seen, a Clear is not. *)
Example C105_nonvacuous :
  (let v := VecModel.mkSlice 0 3 in let m := [[1; 2; 3]] in
   p <- VecModel.Pop m (Vec_AsRef v) ;; let (m', r) := VecModel.Push 0 (fun _ _ => 0%nat) m (fst p) 9 in
   Ret (VecModel.contents m' v, VecModel.contents m' r)) = Ret ([1; 2; 9], [1; 2; 9]) /\
  (p <- ListModel.PushBack ListModel.LinkedListNew 1 [] ;; q <- ListModel.PushBack (fst p) 2 (snd p) ;;
   r <- ListModel.PushBack (List_AsRef (fst q)) 3 (snd q) ;;
   w <- ListModel.It_CollectToVec (ListModel.IntoIter (fst q)) (snd r) ;;
   Ret (ListModel.Len (fst q), fst w)) = Ret (2, [1; 2; 3]) /\
  (x <- hrun Z.eqb [[(1, 10)]] 0 (Hash_AsRef 0) [(true, HInsert 2 20); (false, HGet 2); (true, HClear); (true, HLen); (false, HLen)] ;;
   Ret (snd x)) = Ret [HVal None; HVal (Some 20); HDone; HNumber 0; HNumber 2] /\
  (d <- DequeModel.VecDequeNew 0 1000 ;; d <- DequeModel.PushBack 0 1000 d 1 ;; r <- DequeModel.PushBack 0 1000 (Deque_AsRef d) 2 ;;
   v <- DequeModel.PushBack 0 1000 (Deque_seen d r) 3 ;; a <- DequeModel.Get (Deque_seen d r) 1 ;; b <- DequeModel.Get (Deque_seen r v) 1 ;; Ret (a, b)) = Ret (None, Some 3).
Proof. vm_compute. repeat split. Qed.
