(** BTreeProps.v -- C54 .. C59 and C74: the B-tree map and the B-tree set.
    A map lives in a heap of nodes; [run cmp m ops h] performs the operations [ops] on
    the map m in the heap h and lists their answers; [map_run] is what an ordered map
    answers. *)
From Verif Require Import Base BaseLemmas Effect CmpSpec VecSpec HashModel BTreeModel BTreeSpec BTreeHistory BTreeProofs BTreeMapProofs BTreeSafeProofs
  BTreeGrowProofs BTreeGentleProofs BTreeSepProofs BTreeSetProofs BTreeRemoveProofs BTreeTwoProofs BTreeTopProofs VecProps.
Local Open Scope nat_scope.

(** *** The specification is an ordered map *)
Theorem C54_specification : forall K V (cmp : K -> K -> ordering), total_preorder cmp ->
  forall (ops : list (bop K V)), let l := fst (map_run cmp [] ops) in
  sorted cmp l /\
  (forall q k v, get cmp q (put cmp k v l) = match cmp q k with Equal => Some v | _ => get cmp q l end) /\
  (forall q k, get cmp q (drop cmp k l) = match cmp q k with Equal => None | _ => get cmp q l end).
Proof.
  intros K V cmp T ops l. assert (SO : sorted cmp l) by (apply run_sorted; [exact T|exact I]).
  split; [exact SO|]. split; [intros; apply get_put; auto|intros; apply get_drop; auto].
Qed.
Print Assumptions C54_specification.

(** *** C54: Insert and Get *)
(** Missing: histories that are not gentle, see [C54_refuted] and what follows it. *)
Theorem C54_partial : forall K V (cmp : K -> K -> ordering), total_preorder cmp ->
  forall (ops : list (bop K V)) h, gentle cmp [] ops ->
  exists m' h', run cmp BTreeMapNew ops h = Ret ((m', snd (map_run cmp [] ops)), h').
Proof.
  intros K V cmp T ops h G. destruct (tree_run cmp T ops h BTreeMapNew [] (tree_new cmp h) G) as (h' & m' & E & _). eauto.
Qed.
Print Assumptions C54_partial.
(** In particular: any history of the operations other than Remove on at most eleven
    different keys. *)
Theorem C54_eleven_keys_partial : forall K V (cmp : K -> K -> ordering), total_preorder cmp ->
  forall (ops : list (bop K V)) ks h, length ks <= 11 ->
  (forall k v, In (BInsert k v) ops -> exists k', In k' ks /\ cmp k k' = Equal) -> (forall k, ~ In (BRemove k) ops) ->
  exists m' h', run cmp BTreeMapNew ops h = Ret ((m', snd (map_run cmp [] ops)), h').
Proof.
  intros K V cmp T ops ks h L KS NR. apply C54_partial; auto. eapply gentle_few; eauto; [exact I|intros k []].
Qed.
Print Assumptions C54_eleven_keys_partial.
Definition ascending_inserts (n : nat) : list (bop Z Z) := map (fun i => BInsert (Z.of_nat i) (Z.of_nat i * 10)%Z) (seq 1 n).
Definition descending_inserts (n : nat) : list (bop Z Z) := rev (ascending_inserts n).
Definition C54_ops : list (bop Z Z) :=
  descending_inserts 15 ++ [BInsert 4 44; BGet 4; BGet 15; BGet 16; BContainsKey 9; BLen; BIsEmpty; BKeys]%Z.
Example C54_nonvacuous : total_preorder cmpZ /\ gentle cmpZ [] C54_ops /\
  skipn 15 (snd (map_run cmpZ [] C54_ops)) =
    [Value (Some 40); Value (Some 44); Value (Some 150); Value None; Truth true; Number 15; Truth false; KeyList [1; 2; 3; 4; 5; 6; 7; 8; 9; 10; 11; 12; 13; 14; 15]]%Z.
Proof.
  split; [exact cmpZ_preorder|]. split; [|vm_compute; reflexivity].
  assert (D : forall ops l, (fix chk l (ops : list (bop Z Z)) : bool := match ops with [] => true | o :: r =>
      (match o with BRemove _ => false | BInsert k _ => match get cmpZ k l with Some _ => true | None =>
         (length l <=? 10) || ((length l <=? 20) && match nth_error l 10 with Some e => match cmpZ k (fst e) with Less => true | _ => false end | None => false end) end | _ => true end)
      && chk (fst (map_step cmpZ l o)) r end) l ops = true -> gentle cmpZ l ops).
  { induction ops as [|o ops IH]; intros l H; [exact I|]. apply andb_true_iff in H. destruct H as (A & B). split; [|apply IH, B].
    destruct o; cbn [allowed]; auto; [|discriminate]. intros G LE. rewrite G in A. apply orb_true_iff in A.
    destruct A as [A|A]; [apply Nat.leb_le in A; lia|]. apply andb_true_iff in A. destruct A as (A1 & A2). apply Nat.leb_le in A1. split; [auto|].
    destruct (nth_error l 10) as [e|]; [|discriminate]. exists e. split; auto. destruct (cmpZ k (fst e)); congruence. }
  apply D. vm_compute. reflexivity.
Qed.
Example C54_eleven_keys_nonvacuous : exists m h, run cmpZ BTreeMapNew [BInsert 5 50; BInsert 3 30; BInsert 5 55; BGet 5; BLen; BEntries]%Z [] =
  Ret ((m, [Value None; Value None; Value (Some 50); Value (Some 55); Number 2; Entries [(3, 30); (5, 55)]]%Z), h).
Proof. do 2 eexists. vm_compute. reflexivity. Qed.

(** Twelve keys in ascending order: the last one is lost; inserting it again answers
    None again, brings back the lost value instead of the new one, and Len counts it
    twice. *)
Theorem C54_refuted : exists m h rs,
  run cmpZ BTreeMapNew (ascending_inserts 12 ++ [BGet 12; BContainsKey 12; BLen; BInsert 12 7; BGet 12; BLen]%Z) [] = Ret ((m, rs), h) /\
  skipn 12 rs = [Value None; Truth false; Number 12; Value None; Value (Some 120); Number 13]%Z /\
  skipn 12 (snd (map_run cmpZ [] (ascending_inserts 12 ++ [BGet 12; BContainsKey 12; BLen; BInsert 12 7; BGet 12; BLen]%Z))) =
    [Value (Some 120); Truth true; Number 12; Value (Some 120); Value (Some 7); Number 12]%Z.
Proof. do 3 eexists. split; [vm_compute; reflexivity|]. split; vm_compute; reflexivity. Qed.
Print Assumptions C54_refuted.
(** It is so for every map of eleven keys and every key above them: what each operation
    then answers. *)
Theorem C54_twelfth_key_characterised : forall K V (cmp : K -> K -> ordering), total_preorder cmp ->
  forall (ops : list (bop K V)) h front mx k v,
  gentle cmp [] ops -> fst (map_run cmp [] ops) = front ++ [mx] -> length front = 10 -> cmp k (fst mx) = Greater ->
  exists m1 h1 m' h', run cmp BTreeMapNew ops h = Ret ((m1, snd (map_run cmp [] ops)), h1) /\
    Insert cmp m1 k v h1 = Ret ((m', None), h') /\ Len m' = 12%Z /\
    (forall q, Get cmp m' q h' = Ret (get cmp q (front ++ [mx])) /\ ContainsKey cmp m' q h' = Ret (is_some (get cmp q (front ++ [mx])))) /\
    IntoIter_vec m' h' = Ret (front ++ [mx; mx; (k, v)]) /\
    Keys_vec m' h' = Ret (map fst front ++ [fst mx]) /\
    Values_vec m' h' = Ret (map snd front ++ [snd mx; snd mx; v]).
Proof.
  intros K V cmp T ops h front mx k v G EL LF C.
  destruct (twelfth cmp T ops h front mx k v G EL LF C) as (h1 & m1 & h' & m' & E & EI & LE & X1 & X2 & X3 & X4).
  rewrite map_app in X2, X3. exists m1, h1, m', h'. repeat (split; [first [assumption]|]). assumption.
Qed.
Print Assumptions C54_twelfth_key_characterised.
Example C54_twelfth_key_nonvacuous : gentle cmpZ [] (ascending_inserts 11) /\
  fst (map_run cmpZ [] (ascending_inserts 11)) = map (fun i => (Z.of_nat i, Z.of_nat i * 10)%Z) (seq 1 10) ++ [(11, 110)%Z] /\ cmpZ 12 11 = Greater.
Proof.
  split; [|split; vm_compute; reflexivity]. apply (gentle_few cmpZ cmpZ_preorder (map Z.of_nat (seq 1 11))); [vm_compute; lia|intros k I| |exact I|intros k []].
  - apply in_map_iff in I. destruct I as (i & E & _). discriminate.
  - intros k v I. apply in_map_iff in I. destruct I as (i & E & I). injection E as <- <-. exists (Z.of_nat i).
    split; [now apply in_map|]. apply cmpZ_preorder.
Qed.
(** Whatever the history (removals included), no operation answers with an entry that was
    never inserted.  The heap contains no other map here. *)
Theorem C54_never_invents : forall K V (cmp : K -> K -> ordering), total_preorder cmp ->
  forall (ops : list (bop K V)) m' rs h', run cmp BTreeMapNew ops [] = Ret ((m', rs), h') ->
  Forall2 (truthful (fun k v => exists k', In (BInsert k' v) ops /\ cmp k k' = Equal)) ops rs.
Proof.
  intros K V cmp T ops m' rs h' E. set (P := fun k v => exists k', In (BInsert k' v) ops /\ cmp k k' = Equal).
  assert (PE : forall k k' v, cmp k k' = Equal -> P k v <-> P k' v).
  { intros k k' v C. unfold P. split; intros (q & I & D); exists q; split; auto.
    - rewrite <- (Equal_cmp cmp T _ _ q C). exact D.
    - rewrite (Equal_cmp cmp T _ _ q C). exact D. }
  assert (TR : triple P (run cmp BTreeMapNew ops) (fun r => Forall2 (honest P) ops (snd r))).
  { apply triple_run; auto. intros k v I. exists k. split; auto. apply (cmp_refl cmp T). }
  assert (AG : all_good P (@nil (node K V))) by (intros a nd X; destruct a; discriminate).
  specialize (TR [] AG). rewrite E in TR. apply TR.
Qed.
Print Assumptions C54_never_invents.
Example C54_never_invents_nonvacuous : exists m h, run cmpZ BTreeMapNew [BInsert 5 50; BInsert 3 30; BRemove 5; BGet 5; BRemove 3]%Z [] =
  Ret ((m, [Value None; Value None; Value (Some 50); Value (Some 50); Value (Some 30)]%Z), h).
Proof. do 2 eexists. vm_compute. reflexivity. Qed.

(** *** C55: Remove *)
(** Up to eleven keys the map is exactly a machine of eleven slots, which is described in
    BTreeSpec.v ([slot_step]): a removed greatest key stays behind in its slot. *)
Theorem C55_characterised : forall K V (cmp : K -> K -> ordering), total_preorder cmp ->
  forall (ops : list (bop K V)) s' rs h, slot_run cmp no_slots ops = Some (s', rs) ->
  exists m' h', run cmp BTreeMapNew ops h = Ret ((m', rs), h').
Proof.
  intros K V cmp T ops s' rs h E. destruct (run_sim cmp T ops h BTreeMapNew no_slots s' rs (rep_new h) E) as (h' & m' & R & _). eauto.
Qed.
Print Assumptions C55_characterised.
Example C55_characterised_nonvacuous : exists s' : slots Z Z,
  slot_run cmpZ no_slots [BInsert 5 50; BInsert 3 30; BInsert 4 40; BRemove 5; BGet 5; BContainsKey 5; BLen; BKeys; BEntries; BRemove 3; BEntries; BRemove 5; BRemove 5; BRemove 5; BLen]%Z =
    Some (s', [Value None; Value None; Value None; Value (Some 50); Value (Some 50); Truth true; Number 2; KeyList [3; 4]; Entries [(3, 30); (4, 40); (5, 50)];
               Value (Some 40); Entries [(4, 40); (5, 50)]; Value None; Value None; Value None; Number 1]%Z).
Proof. eexists. vm_compute. reflexivity. Qed.
(** When no Remove takes the greatest of several keys, and a new key finds at most ten
    others, everything is as it should be but for the value that Remove returns: it is
    that of the next key.  Missing: the other histories. *)
Theorem C55_partial : forall K V (cmp : K -> K -> ordering), total_preorder cmp ->
  forall (ops : list (bop K V)) h, mild_all cmp [] ops ->
  exists m' h', run cmp BTreeMapNew ops h = Ret ((m', snd (mild_run cmp [] ops)), h').
Proof.
  intros K V cmp T ops h G. destruct (mild_slots cmp T ops no_slots [] (ok_new cmp) G) as (s' & E & _).
  eapply C55_characterised; eauto.
Qed.
Print Assumptions C55_partial.
Definition C55_ops : list (bop Z Z) := [BInsert 5 50; BInsert 3 30; BInsert 4 40; BRemove 3; BGet 3; BLen; BKeys; BRemove 9; BEntries; BRemove 4; BRemove 5; BIsEmpty]%Z.
Example C55_nonvacuous : mild_all cmpZ [] C55_ops /\
  snd (mild_run cmpZ [] C55_ops) = [Value None; Value None; Value None; Value (Some 40); Value None; Number 2; KeyList [4; 5]; Value None; Entries [(4, 40); (5, 50)];
    Value (Some 50); Value (Some 50); Truth true]%Z.
Proof.
  split; [|vm_compute; reflexivity]. cbv [C55_ops mild_all]. cbn.
  repeat (first [split | exact I | (intros; cbn; lia) | (left; reflexivity) | (right; right; discriminate) | (right; left; reflexivity)]).
Qed.
(** The value that Remove returns is wrong, and the greatest key stays; removing it
    again drops Len again. *)
Theorem C55_refuted : exists m h rs,
  run cmpZ BTreeMapNew [BInsert 3 30; BInsert 4 40; BInsert 5 50; BRemove 3; BRemove 5; BGet 5; BRemove 5; BRemove 5; BLen]%Z [] = Ret ((m, rs), h) /\
  skipn 3 rs = [Value (Some 40); Value (Some 50); Value (Some 50); Value (Some 50); Value (Some 50); Number (2 ^ 64 - 1)]%Z /\
  skipn 3 (snd (map_run cmpZ [] [BInsert 3 30; BInsert 4 40; BInsert 5 50; BRemove 3; BRemove 5; BGet 5; BRemove 5; BRemove 5; BLen]%Z)) =
    [Value (Some 30); Value (Some 50); Value None; Value None; Value None; Number 1]%Z.
Proof. do 3 eexists. split; [vm_compute; reflexivity|]. split; vm_compute; reflexivity. Qed.
Print Assumptions C55_refuted.
(** In general: after a mild history, removing the greatest of several keys changes the
    answers of Len and Keys alone. *)
Theorem C55_greatest_characterised : forall K V (cmp : K -> K -> ordering), total_preorder cmp ->
  forall (ops : list (bop K V)) h front e k,
  mild_all cmp [] ops -> fst (mild_run cmp [] ops) = front ++ [e] -> front <> [] -> cmp k (fst e) = Equal ->
  exists m1 h1 m' h', run cmp BTreeMapNew ops h = Ret ((m1, snd (mild_run cmp [] ops)), h1) /\
    Remove cmp m1 k h1 = Ret ((m', Some (snd e)), h') /\
    Len m' = Z.of_nat (length front) /\ Keys_vec m' h' = Ret (map fst front) /\
    IntoIter_vec m' h' = Ret (front ++ [e]) /\ Values_vec m' h' = Ret (map snd (front ++ [e])) /\
    forall q, Get cmp m' q h' = Ret (get cmp q (front ++ [e])) /\ ContainsKey cmp m' q h' = Ret (is_some (get cmp q (front ++ [e]))).
Proof. exact @greatest_stays. Qed.
Print Assumptions C55_greatest_characterised.
Example C55_greatest_nonvacuous : mild_all cmpZ [] [BInsert 3 30; BInsert 4 40; BInsert 5 50]%Z /\
  fst (mild_run cmpZ [] [BInsert 3 30; BInsert 4 40; BInsert 5 50]%Z) = [(3, 30); (4, 40)]%Z ++ [(5, 50)]%Z /\ cmpZ 5 5 = Equal.
Proof. split; [|split; reflexivity]. cbn. repeat split; intros; lia. Qed.

(** *** C56: listings *)
(** Missing: histories that are not gentle; [C54_twelfth_key_characterised] and
    [C55_greatest_characterised] say what can happen then. *)
Theorem C56_partial : forall K V (cmp : K -> K -> ordering), total_preorder cmp ->
  forall (ops : list (bop K V)) h, gentle cmp [] ops ->
  exists m' h' l, run cmp BTreeMapNew ops h = Ret ((m', snd (map_run cmp [] ops)), h') /\
    IntoIter_vec m' h' = Ret l /\ Keys_vec m' h' = Ret (map fst l) /\ Values_vec m' h' = Ret (map snd l) /\
    sorted cmp l /\ Len m' = Z.of_nat (length l) /\ forall q, Get cmp m' q h' = Ret (get cmp q l).
Proof. exact @listings. Qed.
Print Assumptions C56_partial.
Example C56_nonvacuous : exists m h, run cmpZ BTreeMapNew C54_ops [] = Ret ((m, snd (map_run cmpZ [] C54_ops)), h) /\
  IntoIter_vec m h = Ret [(1, 10); (2, 20); (3, 30); (4, 44); (5, 50); (6, 60); (7, 70); (8, 80); (9, 90); (10, 100); (11, 110); (12, 120); (13, 130); (14, 140); (15, 150)]%Z.
Proof. do 2 eexists. split; vm_compute; reflexivity. Qed.
(** Twelve keys in ascending order: thirteen entries, one of them twice, and eleven keys. *)
Theorem C56_refuted : exists m h rs, run cmpZ BTreeMapNew (ascending_inserts 12 ++ [BEntries; BKeys])%Z [] = Ret ((m, rs), h) /\
  skipn 12 rs = [Entries [(1, 10); (2, 20); (3, 30); (4, 40); (5, 50); (6, 60); (7, 70); (8, 80); (9, 90); (10, 100); (11, 110); (11, 110); (12, 120)];
                 KeyList [1; 2; 3; 4; 5; 6; 7; 8; 9; 10; 11]]%Z.
Proof. do 3 eexists. split; vm_compute; reflexivity. Qed.
Print Assumptions C56_refuted.

(** *** C57: Insert and panics *)
(** Any 21 insertions succeed.  Missing: more of them. *)
Theorem C57_partial : forall K V (cmp : K -> K -> ordering), total_preorder cmp ->
  forall (kvs : list (K * V)), length kvs <= 21 -> exists r, run cmp BTreeMapNew (map (fun e => BInsert (fst e) (snd e)) kvs) [] = Ret r.
Proof. intros K V cmp T kvs L. apply (insert_up_to_21 cmp T kvs L). Qed.
Print Assumptions C57_partial.
(** Insertions of different keys succeed exactly if there are at most 21 of them. *)
Theorem C57_characterised : forall K V (cmp : K -> K -> ordering), total_preorder cmp ->
  forall (kvs : list (K * V)), ForallOrdPairs (fun a b => cmp a b <> Equal) (map fst kvs) ->
  let r := run cmp BTreeMapNew (map (fun e => BInsert (fst e) (snd e)) kvs) [] in
  (length kvs <= 21 -> returns r) /\ (22 <= length kvs -> r = Panic).
Proof.
  intros K V cmp T kvs D r. split; intros L.
  - destruct (insert_up_to_21 cmp T kvs L) as (x & E). unfold r. exists x. exact E.
  - apply (insert_22 cmp T kvs (map fst kvs)); auto. now rewrite map_length.
Qed.
Print Assumptions C57_characterised.
(** With repeated keys as well: 22 different keys always panic. *)
Theorem C57_refuted : forall K V (cmp : K -> K -> ordering), total_preorder cmp ->
  forall (kvs : list (K * V)) ks, (forall k, In k ks -> In k (map fst kvs)) -> ForallOrdPairs (fun a b => cmp a b <> Equal) ks -> 22 <= length ks ->
  run cmp BTreeMapNew (map (fun e => BInsert (fst e) (snd e)) kvs) [] = Panic.
Proof. intros K V cmp T kvs ks IN D L. apply (insert_22 cmp T kvs ks IN D L). Qed.
Print Assumptions C57_refuted.
Example C57_nonvacuous : ForallOrdPairs (fun a b => cmpZ a b <> Equal) (map Z.of_nat (seq 1 22)) /\
  run cmpZ BTreeMapNew (ascending_inserts 22) [] = Panic /\ returns (run cmpZ BTreeMapNew (ascending_inserts 21) []).
Proof.
  split; [|split; [vm_compute; reflexivity|eexists; vm_compute; reflexivity]].
  cbv [map seq]. repeat (constructor; [repeat (constructor; [vm_compute; discriminate|]); constructor|]). constructor.
Qed.

(** *** C58: sets *)
(** [adds xs] are the insertions of xs; at most eleven different elements are always gentle. *)
Theorem C58_eleven_gentle : forall K (cmp : K -> K -> ordering), total_preorder cmp ->
  forall xs, length (distinct cmp xs) <= 11 -> gentle cmp [] (map (fun x => BInsert x tt) xs).
Proof. intros K cmp T xs L. apply gentle_small; auto; [exact I|]. rewrite after_length; auto. Qed.
Print Assumptions C58_eleven_gentle.
(** Insert says whether the element is new, and the set has the elements inserted. *)
Theorem C58_insert_partial : forall K (cmp : K -> K -> ordering), total_preorder cmp ->
  forall xs x h, gentle cmp [] (map (fun x => BInsert x tt) (xs ++ [x])) ->
  exists s h1 s' h2, add_all cmp xs BTreeSetNew h = Ret (s, h1) /\ shows cmp h1 s (fun y => mem cmp y xs) /\
    sInsert cmp s x h1 = Ret ((s', negb (mem cmp x xs)), h2) /\ shows cmp h2 s' (fun y => mem cmp y (xs ++ [x])).
Proof. intros K cmp T. exact (set_insert cmp T). Qed.
Print Assumptions C58_insert_partial.
(** Comparing two sets, the first of which is not empty. *)
Theorem C58_compare_partial : forall K (cmp : K -> K -> ordering), total_preorder cmp ->
  forall xs ys h, gentle cmp [] (map (fun x => BInsert x tt) xs) -> gentle cmp [] (map (fun x => BInsert x tt) ys) -> xs <> [] -> ys <> [] ->
  exists s o h', add_both cmp xs ys h = Ret ((s, o), h') /\
    shows cmp h' s (fun x => mem cmp x xs) /\ shows cmp h' o (fun x => mem cmp x ys) /\
    IsSubset cmp s o h' = Ret (forallb (fun x => mem cmp x ys) xs) /\
    IsSuperset cmp s o h' = Ret (forallb (fun y => mem cmp y xs) ys) /\
    IsDisjoint cmp s o h' = Ret (forallb (fun x => negb (mem cmp x ys)) xs) /\
    sEq cmp s o h' = Ret (forallb (fun x => mem cmp x ys) xs && forallb (fun y => mem cmp y xs) ys).
Proof. intros K cmp T. exact (set_compare cmp T). Qed.
Print Assumptions C58_compare_partial.
(** Combining two sets that are not empty, when the result has at most eleven elements.
    The operands stay as they are. *)
Theorem C58_combine_partial : forall K (cmp : K -> K -> ordering), total_preorder cmp ->
  forall xs ys h, gentle cmp [] (map (fun x => BInsert x tt) xs) -> gentle cmp [] (map (fun x => BInsert x tt) ys) -> xs <> [] -> ys <> [] ->
  exists s o h', add_both cmp xs ys h = Ret ((s, o), h') /\
  forall op p, (op, p) = (Intersection cmp s o, fun x => mem cmp x xs && mem cmp x ys) \/
               (op, p) = (Union cmp s o, fun x => mem cmp x xs || mem cmp x ys) \/
               (op, p) = (SymmetricDifference cmp s o, fun x => xorb (mem cmp x xs) (mem cmp x ys)) ->
  length (distinct cmp (filter p (xs ++ ys))) <= 11 ->
  exists u h'', op h' = Ret (u, h'') /\ shows cmp h'' u p /\
    shows cmp h'' s (fun x => mem cmp x xs) /\ shows cmp h'' o (fun x => mem cmp x ys).
Proof. intros K cmp T. exact (set_combine cmp T). Qed.
Print Assumptions C58_combine_partial.
Example C58_nonvacuous : exists s o u i d h h1 h2 h3, add_both cmpZ [5; 1; 3; 1]%Z [4; 5]%Z [] = Ret ((s, o), h) /\
  Union cmpZ s o h = Ret (u, h1) /\ sIntoIter_vec u h1 = Ret [1; 3; 4; 5]%Z /\
  Intersection cmpZ s o h = Ret (i, h2) /\ sIntoIter_vec i h2 = Ret [5]%Z /\
  SymmetricDifference cmpZ s o h = Ret (d, h3) /\ sIntoIter_vec d h3 = Ret [1; 3; 4]%Z /\
  length (distinct cmpZ [5; 1; 3; 1; 4; 5]%Z) = 4 /\ IsSubset cmpZ i s h2 = Ret true.
Proof. do 9 eexists. repeat (split; [vm_compute; reflexivity|]). vm_compute. reflexivity. Qed.
(** Everything that iterates over an empty set panics. *)
Theorem C58_empty_characterised : forall K (cmp : K -> K -> ordering), total_preorder cmp ->
  forall xs h, gentle cmp [] (map (fun x => BInsert x tt) xs) ->
  exists s o h', add_both cmp [] xs h = Ret ((s, o), h') /\
    sIntoIter_vec s h' = Panic /\ IsSubset cmp s o h' = Panic /\ IsSuperset cmp o s h' = Panic /\ IsDisjoint cmp s o h' = Panic /\
    Intersection cmp s o h' = Panic /\ Union cmp s o h' = Panic /\ SymmetricDifference cmp s o h' = Panic /\
    sEq cmp s o h' = (match xs with [] => Panic | _ => Ret false end) /\
    (length (distinct cmp xs) <= 11 -> Union cmp o s h' = Panic /\ SymmetricDifference cmp o s h' = Panic) /\
    (xs <> [] -> IsSubset cmp o s h' = Ret false /\
                 IsDisjoint cmp o s h' = Ret true /\ sEq cmp o s h' = Ret false).
Proof. intros K cmp T. exact (set_empty cmp T). Qed.
Print Assumptions C58_empty_characterised.
(** So the algebra fails on the empty set, and beyond eleven elements: the union of
    {1..6} and {7..12} has lost 12. *)
Theorem C58_refuted :
  (exists s o h, add_both cmpZ [] [1%Z] [] = Ret ((s, o), h) /\ Union cmpZ s o h = Panic /\ IsSubset cmpZ s o h = Panic) /\
  (exists s o h u h', add_both cmpZ [1; 2; 3; 4; 5; 6]%Z [7; 8; 9; 10; 11; 12]%Z [] = Ret ((s, o), h) /\
     Union cmpZ s o h = Ret (u, h') /\ Contains cmpZ u 12%Z h' = Ret false /\ Contains cmpZ o 12%Z h' = Ret true).
Proof.
  split.
  - do 3 eexists. split; [vm_compute; reflexivity|]. split; vm_compute; reflexivity.
  - do 5 eexists. split; [vm_compute; reflexivity|]. split; [vm_compute; reflexivity|]. split; vm_compute; reflexivity.
Qed.
Print Assumptions C58_refuted.

(** *** C59: Clone of a set *)
(** Never returns: it panics on an empty set and on elements without Clone, and otherwise
    takes the first element again and again.  [clone_rounds r] gives up after r rounds. *)
Theorem C59_characterised : forall K (cmp : K -> K -> ordering), total_preorder cmp ->
  forall xs h, gentle cmp [] (map (fun x => BInsert x tt) xs) ->
  exists s h', add_all cmp xs BTreeSetNew h = Ret (s, h') /\
    (xs = [] -> forall r c, clone_rounds cmp (S r) c s BTreeSetNew h' = Panic) /\
    (xs <> [] -> forall r, clone_rounds cmp (S r) None s BTreeSetNew h' = Panic) /\
    (xs <> [] -> forall r c, clone_rounds cmp r (Some c) s BTreeSetNew h' = Diverge).
Proof. intros K cmp T. exact (set_clone cmp T). Qed.
Print Assumptions C59_characterised.
Theorem C59_refuted : exists s h, add_all cmpZ [1; 2]%Z BTreeSetNew [] = Ret (s, h) /\
  forall r, clone_rounds cmpZ r (Some (fun x => x)) s BTreeSetNew h = Diverge.
Proof.
  destruct (C59_characterised Z cmpZ cmpZ_preorder [1; 2]%Z []) as (s & h & E & _ & _ & D).
  - apply C58_eleven_gentle; [exact cmpZ_preorder|]. vm_compute. lia.
  - exists s, h. split; [exact E|]. intros r. apply D. discriminate.
Qed.
Print Assumptions C59_refuted.

(** *** C74: two maps do not disturb each other *)
(** After any interleaving of operations on two maps in one heap, an operation on one of
    them leaves every answer of the other as it was. *)
Theorem C74_maps_are_separate : forall K V (cmp : K -> K -> ordering) (ops : list (bool * bop K V)) h0 a b h o a' r h' q b' x h'',
  run2 cmp BTreeMapNew BTreeMapNew ops h0 = Ret ((a, b), h) ->
  exec cmp a o h = Ret ((a', r), h') -> reads q -> exec cmp b q h = Ret ((b', x), h'') ->
  exec cmp b q h' = Ret ((b', x), h').
Proof.
  intros K V cmp ops h0 a b h o a' r h' q b' x h'' E EA RD EB.
  pose proof (apart_run2 cmp ops h0 _ _ _ _ _ (apart_new h0) E) as AP.
  destruct (apart_exec cmp h a b o a' r h' AP EA) as (_ & W). exact (W q _ RD EB).
Qed.
Print Assumptions C74_maps_are_separate.
Example C74_nonvacuous : exists a b h a' h', run2 cmpZ BTreeMapNew BTreeMapNew [(true, BInsert 1 10); (false, BInsert 1 11); (true, BInsert 2 20)]%Z [] = Ret ((a, b), h) /\
  exec cmpZ a (BInsert 1 12)%Z h = Ret ((a', Value (Some 10%Z)), h') /\
  exec cmpZ b (BGet 1)%Z h = Ret ((b, Value (Some 11%Z)), h) /\ exec cmpZ b (BGet 1)%Z h' = Ret ((b, Value (Some 11%Z)), h').
Proof. do 5 eexists. split; [vm_compute; reflexivity|]. split; [vm_compute; reflexivity|]. split; vm_compute; reflexivity. Qed.
