(** BTreeShowProps.v -- C81: Display and Eq of B-tree maps and sets; and histories of one
    set (C58). *)
From Verif Require Import Base BaseLemmas Effect StringModel CmpSpec VecSpec VecProps TextSpec HashModel HashSetProofs BTreeModel BTreeSpec BTreeHistory BTreeProofs
  BTreeMapProofs BTreeSepProofs BTreeGentleProofs BTreeSetProofs BTreeTwoProofs BTreeTopProofs BTreeShowSpec BTreeShowProofs BTreeSetRun BTreeSetRunProofs BTreeProps.
From Verif Require BTreeIterSpec BTreeIterProps HashHistory.
From Verif Require Import BTreeIterModel.
Local Open Scope nat_scope.

(** *** Histories of one set: Insert, Remove, Contains, Len, IsEmpty, Clear *)
(** Missing: more than eleven elements, and taking out the greatest of several. *)
Theorem C58_history_partial : forall K (cmp : K -> K -> ordering), total_preorder cmp ->
  forall ops h, set_mild_all cmp [] ops ->
  exists s h', srun cmp BTreeSetNew ops h = Ret ((s, set_run cmp [] ops), h').
Proof. intros K cmp T ops h. exact (set_history cmp T ops h). Qed.
Print Assumptions C58_history_partial.
Definition C58_ops : list (sop (K := Z)) :=
  [SNone; SAdd 4; SAdd 2; SAdd 4; SAdd 9; SCount; STake 4; SHas 4; STake 4; SHas 9; SCount; STake 2; STake 9; SNone; SAdd 1; SWipe; SCount]%Z.
Example C58_history_nonvacuous : set_mild_all cmpZ [] C58_ops /\
  set_run cmpZ [] C58_ops = [STruth true; STruth true; STruth true; STruth false; STruth true; SNumber 3; STruth true; STruth false; STruth false; STruth true; SNumber 2;
    STruth true; STruth true; STruth true; STruth true; SDone; SNumber 0]%Z.
Proof.
  split; [|vm_compute; reflexivity]. cbv [C58_ops set_mild_all]. cbn.
  repeat (first [split | exact I | (left; reflexivity) | (right; lia) | (right; left; reflexivity) | (right; right; exists 9%Z; split; [tauto|reflexivity])]).
Qed.
(** The greatest of several elements stays in the set, and Remove says true each time. *)
Theorem C58_remove_refuted : exists s h rs,
  srun cmpZ BTreeSetNew [SAdd 1; SAdd 2; STake 2; SHas 2; STake 2; SCount]%Z [] = Ret ((s, rs), h) /\
  skipn 2 rs = [STruth true; STruth true; STruth true; SNumber 0]%Z /\
  skipn 2 (set_run cmpZ [] [SAdd 1; SAdd 2; STake 2; SHas 2; STake 2; SCount]%Z) = [STruth true; STruth false; STruth false; SNumber 1]%Z.
Proof. do 3 eexists. split; [vm_compute; reflexivity|]. split; vm_compute; reflexivity. Qed.
Print Assumptions C58_remove_refuted.

(** *** C81: Display *)
(** "BTreeMap{k: v, ...}" with the entries in ascending order of the keys.  Missing:
    histories that are not gentle. *)
Theorem C81_display_partial : forall K V (cmp : K -> K -> ordering), total_preorder cmp ->
  forall (ops : list (bop K V)) h dk dv, gentle cmp [] ops ->
  exists m h' l, run cmp BTreeMapNew ops h = Ret ((m, snd (map_run cmp [] ops)), h') /\
    sorted cmp l /\ (forall q, Get cmp m q h' = Ret (get cmp q l)) /\
    Display cmp (fun k => Some (dk k)) (fun v => Some (dv v)) m h' =
      Ret (zs "BTreeMap{" ++ comma_separated (map (fun e => dk (fst e) ++ zs ": " ++ dv (snd e)) l) ++ zs "}").
Proof.
  intros K V cmp T ops h dk dv G. destruct (C56_partial K V cmp T ops h G) as (m & h' & l & E & _ & EK & _ & SO & _ & GE).
  exists m, h', l. split; [exact E|]. split; [exact SO|]. split; [exact GE|].
  rewrite (Display_eq cmp dk dv m h' _ _ EK GE). rewrite (shown_sorted cmp T) by exact SO. reflexivity.
Qed.
Print Assumptions C81_display_partial.
(** In every state in which Keys and Get answer: the keys that Keys lists and Get finds. *)
Theorem C81_display_characterised : forall K V (cmp : K -> K -> ordering) (m : BTreeMap) (h : heap K V) dk dv ks g,
  Keys_vec m h = Ret ks -> (forall q, Get cmp m q h = Ret (g q)) ->
  Display cmp (fun k => Some (dk k)) (fun v => Some (dv v)) m h = Ret (zs "BTreeMap{" ++ comma_separated (shown dk dv g ks) ++ zs "}").
Proof. intros K V cmp m h dk dv ks g EK G. rewrite (Display_eq cmp dk dv m h ks g EK G). reflexivity. Qed.
Print Assumptions C81_display_characterised.
(** A set that is not empty; the empty one panics. *)
Theorem C81_set_display_partial : forall K (cmp : K -> K -> ordering), total_preorder cmp ->
  forall xs h dk, gentle cmp [] (map (fun x => BInsert x tt) xs) ->
  exists s h' l, add_all cmp xs BTreeSetNew h = Ret (s, h') /\
    ascending cmp l /\ (forall x, mem cmp x l = mem cmp x xs) /\
    sDisplay (fun k => Some (dk k)) s h' = match xs with [] => Panic | _ => Ret (zs "BTreeSet{" ++ comma_separated (map dk l) ++ zs "}") end.
Proof.
  intros K cmp T xs h dk G.
  destruct (add_all_run cmp T (length h) xs h BTreeSetNew [] (building_new cmp h) G) as (h' & s & E & B & _).
  assert (HO : holds cmp h' s (after cmp [] xs)) by apply B.
  destruct (holds_shows cmp T h' s (after cmp [] xs) (fun x => mem cmp x xs) HO) as (_ & l & A & M & _ & _ & EI).
  { intros x. apply (mem_after_nil cmp T). }
  exists s, h', l. split; [exact E|]. split; [exact A|]. split; [exact M|]. unfold sDisplay. rewrite EI.
  destruct l as [|y l].
  - destruct xs as [|x xs]; [reflexivity|]. specialize (M x). cbn [mem existsb] in M. rewrite (cmp_refl cmp T) in M. discriminate.
  - destruct xs as [|x xs]; [specialize (M y); cbn [mem existsb] in M; rewrite (cmp_refl cmp T) in M; discriminate|].
    cbn [bind]. rewrite (display_fields_spec _ _ dk) by (intros; apply format_one). cbn [bind app]. now rewrite join_comma.
Qed.
Print Assumptions C81_set_display_partial.
(** The iterator over such a set delivers its elements in ascending order, each once,
    then None; over the empty one there is none (the call panics). *)
Theorem C80_set_partial : forall K (cmp : K -> K -> ordering), total_preorder cmp ->
  forall xs h, gentle cmp [] (map (fun x => BInsert x tt) xs) ->
  exists s h' l, add_all cmp xs BTreeSetNew h = Ret (s, h') /\
    ascending cmp l /\ (forall x, mem cmp x l = mem cmp x xs) /\
    bsIntoIter s h' = match xs with [] => Panic | _ => Ret (cursor_of l) end /\
    (forall n, HashHistory.nexts n (cursor_of l) = Ret (BTreeIterSpec.after n l, map Some (firstn n l) ++ repeat None (n - length l))).
Proof.
  intros K cmp T xs h G.
  destruct (add_all_run cmp T (length h) xs h BTreeSetNew [] (building_new cmp h) G) as (h' & s & E & B & _).
  assert (HO : holds cmp h' s (after cmp [] xs)) by apply B.
  destruct (holds_shows cmp T h' s (after cmp [] xs) (fun x => mem cmp x xs) HO) as (_ & l & A & M & _ & _ & EI).
  { intros x. apply (mem_after_nil cmp T). }
  exists s, h', l. split; [exact E|]. split; [exact A|]. split; [exact M|]. split; [|intros n; apply BTreeIterProps.C80_next].
  unfold bsIntoIter. rewrite EI. destruct l as [|y l].
  - destruct xs as [|x xs]; [reflexivity|]. specialize (M x). cbn [mem existsb] in M. rewrite (cmp_refl cmp T) in M. discriminate.
  - destruct xs as [|x xs]; [specialize (M y); cbn [mem existsb] in M; rewrite (cmp_refl cmp T) in M; discriminate|reflexivity].
Qed.
Print Assumptions C80_set_partial.
Example C80_set_nonvacuous : exists s h, add_all cmpZ [5; 2; 9; 2]%Z BTreeSetNew [] = Ret (s, h) /\
  gentle cmpZ [] (map (fun x => BInsert x tt) [5; 2; 9; 2]%Z) /\ bsIntoIter s h = Ret (cursor_of [2; 5; 9]%Z).
Proof. do 2 eexists. split; [vm_compute; reflexivity|]. split; [cbn; repeat split; lia|vm_compute; reflexivity]. Qed.
(** A key or a value without Display: Format panics, as soon as there is an entry. *)
Theorem C81_display_without_trait : forall K V (cmp : K -> K -> ordering) (m : BTreeMap) (h : heap K V) ks g dk dv,
  Keys_vec m h = Ret ks -> (forall q, Get cmp m q h = Ret (g q)) -> (forall k, dk k = None) \/ (forall v, dv v = None) ->
  Display cmp dk dv m h = match flat_map (fun k => match g k with Some _ => [k] | None => [] end) ks with [] => Ret (zs "BTreeMap{}") | _ => Panic end.
Proof.
  intros K V cmp m h ks g dk dv EK G N. unfold Display. rewrite EK. cbn [bind].
  enough (H : display_loop cmp dk dv m h ks [] = match flat_map (fun k => match g k with Some _ => [k] | None => [] end) ks with [] => Ret [] | _ => Panic end).
  { rewrite H. destruct (flat_map _ ks); reflexivity. }
  clear EK. induction ks as [|k ks IH]; [reflexivity|]. cbn [display_loop flat_map]. rewrite G. cbn [bind]. destruct (g k) as [v|]; [|exact IH].
  cbn [app]. destruct N as [N|N]; rewrite N; unfold Format; cbn; [reflexivity|]. destruct (dk k); reflexivity.
Qed.
Print Assumptions C81_display_without_trait.

(** *** C81: Eq *)
(** Two maps, with a history each: Eq says whether they have the same keys with equal
    values.  Missing: histories that are not gentle. *)
Theorem C81_eq_partial : forall K V (cmp : K -> K -> ordering), total_preorder cmp ->
  forall (ops1 ops2 : list (bop K V)) h (eq : V -> V -> bool), gentle cmp [] ops1 -> gentle cmp [] ops2 ->
  exists m1 h1 m2 h2 l1 l2 b,
    run cmp BTreeMapNew ops1 h = Ret ((m1, snd (map_run cmp [] ops1)), h1) /\
    run cmp BTreeMapNew ops2 h1 = Ret ((m2, snd (map_run cmp [] ops2)), h2) /\
    (forall q, Get cmp m1 q h2 = Ret (get cmp q l1)) /\ (forall q, Get cmp m2 q h2 = Ret (get cmp q l2)) /\
    Eq cmp (Some eq) m1 m2 h2 = Ret b /\ (b = true <-> agree cmp eq l1 l2).
Proof.
  intros K V cmp T ops1 ops2 h eq G1 G2.
  destruct (C56_partial K V cmp T ops1 h G1) as (m1 & h1 & l1 & E1 & I1 & _ & _ & S1 & L1 & GE1).
  destruct (C56_partial K V cmp T ops2 h1 G2) as (m2 & h2 & l2 & E2 & _ & _ & _ & S2 & L2 & GE2).
  assert (AP : apart h1 m1 BTreeMapNew).
  { assert (AP0 : apart h BTreeMapNew BTreeMapNew) by apply apart_new. destruct (apart_run cmp ops1 h _ _ _ _ _ AP0 E1) as (A & _). now apply apart_sym. }
  destruct (apart_run cmp ops2 h1 m1 BTreeMapNew m2 _ h2 AP E2) as (_ & KE).
  assert (GE1' : forall q, Get cmp m1 q h2 = Ret (get cmp q l1)).
  { intros q. specialize (KE (BGet q) ((m1, Value (get cmp q l1)), h1) I). cbn [exec] in KE. unfold asking in KE. rewrite (GE1 q) in KE. specialize (KE eq_refl).
    destruct (Get cmp m1 q h2) as [g| |]; cbn [bind fst] in KE; congruence. }
  assert (I1' : IntoIter_vec m1 h2 = Ret l1).
  { specialize (KE BEntries ((m1, Entries l1), h1) I). cbn [exec] in KE. unfold asking in KE. rewrite I1 in KE. specialize (KE eq_refl).
    destruct (IntoIter_vec m1 h2) as [g| |]; cbn [bind fst] in KE; congruence. }
  exists m1, h1, m2, h2, l1, l2. eexists. split; [exact E1|]. split; [exact E2|]. split; [exact GE1'|]. split; [exact GE2|].
  split; [exact (Eq_eq cmp eq m1 m2 h2 l1 _ I1' GE2)|]. rewrite L1, L2. now apply agree_iff.
Qed.
Print Assumptions C81_eq_partial.
(** In every state in which the iterator and Get answer. *)
Theorem C81_eq_characterised : forall K V (cmp : K -> K -> ordering) (m other : BTreeMap) (h : heap K V) es g eq,
  IntoIter_vec m h = Ret es -> (forall q, Get cmp other q h = Ret (g q)) ->
  Eq cmp (Some eq) m other h =
    Ret ((Len m =? Len other)%Z && forallb (fun e => match g (fst e) with Some w => eq w (snd e) | None => false end) es) /\
  Eq cmp None m other h =
    if (Len m =? Len other)%Z then match es with [] => Ret true | e :: _ => match g (fst e) with Some _ => Panic | None => Ret false end end else Ret false.
Proof. intros K V cmp m other h es g eq EI G. split; [now apply Eq_eq|now apply Eq_none]. Qed.
Print Assumptions C81_eq_characterised.
(** With twelve keys a map is not equal to itself, and Display leaves one out. *)
Theorem C81_refuted : exists m h rs, run cmpZ BTreeMapNew (ascending_inserts 12)%Z [] = Ret ((m, rs), h) /\
  Eq cmpZ (Some Z.eqb) m m h = Ret false /\
  Display cmpZ (fun k => Some [k + 64]%Z) (fun v => Some [33%Z]) m h =
    Ret (zs "BTreeMap{A: !, B: !, C: !, D: !, E: !, F: !, G: !, H: !, I: !, J: !, K: !}") /\ Len m = 12%Z.
Proof. do 3 eexists. split; [vm_compute; reflexivity|]. split; [vm_compute; reflexivity|]. split; vm_compute; reflexivity. Qed.
Print Assumptions C81_refuted.
Theorem C81_empty_set_refuted : sDisplay (K := Z) (fun k => Some [k]) BTreeSetNew [] = Panic.
Proof. reflexivity. Qed.
Print Assumptions C81_empty_set_refuted.
Example C81_nonvacuous : exists m1 h1 m2 h2 rs1 rs2 s h3,
  run cmpZ BTreeMapNew [BInsert 66 98; BInsert 65 97]%Z [] = Ret ((m1, rs1), h1) /\
  run cmpZ BTreeMapNew [BInsert 65 97; BInsert 66 99; BInsert 66 98]%Z h1 = Ret ((m2, rs2), h2) /\
  Eq cmpZ (Some Z.eqb) m1 m2 h2 = Ret true /\ Eq cmpZ None m1 m2 h2 = Panic /\
  Display cmpZ (fun k => Some [k]) (fun v => Some [v]) m1 h2 = Ret (zs "BTreeMap{A: a, B: b}") /\
  add_all cmpZ [67; 66; 67]%Z BTreeSetNew [] = Ret (s, h3) /\ sDisplay (fun k => Some [k]) s h3 = Ret (zs "BTreeSet{B, C}").
Proof. do 8 eexists. repeat (split; [vm_compute; reflexivity|]). vm_compute. reflexivity. Qed.
