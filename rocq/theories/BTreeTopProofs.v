(** BTreeTopProofs.v -- the last steps to the theorems of BTreeProps.v. *)
From Verif Require Import Base BaseLemmas Effect CmpSpec VecSpec HashModel BTreeModel BTreeSpec BTreeHistory BTreeProofs BTreeMapProofs BTreeSafeProofs
  BTreeSplitProofs BTreeGrowProofs BTreeLowProofs BTreeGentleProofs BTreeTwelfthProofs BTreeSepProofs BTreeSetProofs BTreeRemoveProofs.
Local Open Scope nat_scope.

Section Maps.
  Context {K V : Type}.
  Variable cmp : K -> K -> ordering.
  Hypothesis lawful : total_preorder cmp.
  Implicit Types (l : list (K * V)).

  (** *** The specification is a map *)
  Lemma get_put q k v l : sorted cmp l -> get cmp q (put cmp k v l) = match cmp q k with Equal => Some v | _ => get cmp q l end.
  Proof.
    induction l as [|[k' v'] l IH]; intros SO; cbn [get put]; [destruct (cmp q k); reflexivity|].
    destruct SO as (S1 & S2). destruct (cmp k k') eqn:C; cbn [get].
    - destruct (cmp q k); reflexivity.
    - rewrite (Equal_cmp_r cmp lawful _ _ q C). destruct (cmp q k') eqn:D; reflexivity.
    - rewrite (IH S2). destruct (cmp q k') eqn:D; auto. destruct (cmp q k) eqn:E; auto.
      assert (cmp k k' = Equal); [|congruence]. rewrite <- (Equal_cmp cmp lawful _ _ k' E). exact D.
  Qed.
  Lemma get_drop q k l : sorted cmp l -> get cmp q (drop cmp k l) = match cmp q k with Equal => None | _ => get cmp q l end.
  Proof.
    induction l as [|[k' v'] l IH]; intros SO; cbn [get drop]; [destruct (cmp q k); reflexivity|].
    destruct SO as (S1 & S2).
    assert (NO : forall q, cmp q k' = Equal -> get cmp q l = None).
    { intros q0 E. apply (get_less cmp). intros x I. rewrite (Equal_cmp cmp lawful _ _ (fst x) E). now apply (S1 x). }
    destruct (cmp k k') eqn:C; cbn [get].
    - rewrite (IH S2). destruct (cmp q k') eqn:D; auto. destruct (cmp q k) eqn:E; auto.
      assert (cmp k k' = Equal); [|congruence]. rewrite <- (Equal_cmp cmp lawful _ _ k' E). exact D.
    - rewrite (Equal_cmp_r cmp lawful _ _ q C). destruct (cmp q k') eqn:D; auto.
    - rewrite (IH S2). destruct (cmp q k') eqn:D; auto. destruct (cmp q k) eqn:E; auto.
      assert (cmp k k' = Equal); [|congruence]. rewrite <- (Equal_cmp cmp lawful _ _ k' E). exact D.
  Qed.
  Lemma get_first k v l : sorted cmp ((k, v) :: l) -> get cmp k l = None.
  Proof. intros (S1 & _). apply (get_less cmp). intros x I. now apply (S1 x). Qed.
  Lemma step_sorted l o : sorted cmp l -> sorted cmp (fst (map_step cmp l o)).
  Proof.
    intros SO. destruct o; cbn [map_step fst]; auto; [now apply put_sorted| |exact I].
    destruct l as [|[k' v'] l]; [exact I|]. apply drop_sorted; auto.
  Qed.
  Lemma run_sorted ops : forall l, sorted cmp l -> sorted cmp (fst (map_run cmp l ops)).
  Proof.
    induction ops as [|o ops IH]; intros l SO; [exact SO|]. cbn [map_run]. pose proof (IH _ (step_sorted l o SO)) as Q.
    destruct (map_step cmp l o) as [l' a]. cbn [fst] in Q. destruct (map_run cmp l' ops). exact Q.
  Qed.

  (** *** Few keys *)
  Lemma pairs_sorted l : sorted cmp l -> ForallOrdPairs (fun a b => cmp a b <> Equal) (map fst l).
  Proof.
    induction l as [|e l IH]; intros SO; cbn; constructor.
    - apply Forall_forall. intros k I. apply in_map_iff in I. destruct I as (e' & <- & I). rewrite (proj1 SO e' I). discriminate.
    - apply IH, SO.
  Qed.
  Lemma In_put e k v l : In e (put cmp k v l) -> e = (k, v) \/ (exists k0, In k0 (map fst l) /\ fst e = k0).
  Proof.
    induction l as [|[k' v'] l IH]; cbn [put]; [intros [<-|[]]; auto|]. destruct (cmp k k').
    - intros [<-|I]; [auto|]. right. exists (fst e). split; auto. now apply (in_map fst) in I.
    - intros [<-|I]; right; [exists k'; cbn; auto|]. exists (fst e). split; auto. cbn. right. now apply (in_map fst) in I.
    - intros [<-|I]; [right; exists k'; cbn; auto|]. destruct (IH I) as [->|(k0 & J & E)]; [auto|right; exists k0; cbn; auto].
  Qed.
  Lemma gentle_few ks ops : length ks <= 11 -> (forall k, ~ In (BRemove k) ops) ->
    (forall k v, In (BInsert k v) ops -> exists k', In k' ks /\ cmp k k' = Equal) ->
    forall l, sorted cmp l -> (forall k, In k (map fst l) -> exists k', In k' ks /\ cmp k k' = Equal) -> gentle cmp l ops.
  Proof.
    intros L11. induction ops as [|o ops IH]; intros NR KS l SO KL; [exact I|]. cbn [gentle].
    assert (KL' : forall k, In k (map fst (fst (map_step cmp l o))) -> exists k', In k' ks /\ cmp k k' = Equal).
    { intros k J. destruct o; cbn [map_step fst] in J; auto.
      - apply in_map_iff in J. destruct J as (e & <- & J). apply In_put in J. destruct J as [->|(k0' & J & ->)]; [|auto].
        cbn [fst]. apply (KS _ v). cbn; auto.
      - exfalso. apply (NR k0). cbn; auto.
      - destruct J. }
    split.
    - destruct o; cbn [allowed]; auto; [|apply (NR k); cbn; auto].
      intros G LE. exfalso. pose proof (pigeon cmp lawful (map fst (put cmp k v l)) ks (pairs_sorted _ (put_sorted cmp lawful k v l SO)) KL') as Q.
      rewrite map_length, (put_length cmp lawful), G in Q by auto. lia.
    - apply IH; [intros k J; apply (NR k); cbn; auto| |apply step_sorted; auto|auto].
      intros k v J. apply (KS k v). cbn; auto.
  Qed.

  (** *** The twelfth key *)
  Lemma twelfth (ops : list (bop K V)) h (front : list (K * V)) mx k v : gentle cmp [] ops -> fst (map_run cmp [] ops) = front ++ [mx] -> length front = 10 -> cmp k (fst mx) = Greater ->
    exists h1 m1 h' m', run cmp BTreeMapNew ops h = Ret ((m1, snd (map_run cmp [] ops)), h1) /\ Insert cmp m1 k v h1 = Ret ((m', None), h') /\ len m' = 12%Z /\
      IntoIter_vec m' h' = Ret (front ++ [mx; mx; (k, v)]) /\ Keys_vec m' h' = Ret (map fst (front ++ [mx])) /\
      Values_vec m' h' = Ret (map snd (front ++ [mx; mx; (k, v)])) /\
      forall q, Get cmp m' q h' = Ret (get cmp q (front ++ [mx])) /\ ContainsKey cmp m' q h' = Ret (is_some (get cmp q (front ++ [mx]))).
  Proof.
    intros G EL LF C. destruct (tree_run cmp lawful ops h BTreeMapNew [] (tree_new cmp h) G) as (h1 & m1 & E & T).
    rewrite EL in T. exists h1, m1. destruct T as [(s & R & O)|LT].
    - destruct (lost_reads cmp lawful h1 m1 s _ mx front k v R O eq_refl LF C) as (h' & m' & X). rewrite <- !app_assoc in X.
      exists h', m'. split; [exact E|]. exact X.
    - apply low_length in LT. rewrite app_length in LT. cbn in LT. lia.
  Qed.

  (** *** Listings *)
  Lemma tree_asks h m l : tree cmp h m l ->
    IntoIter_vec m h = Ret l /\ Keys_vec m h = Ret (map fst l) /\ Values_vec m h = Ret (map snd l) /\
    sorted cmp l /\ Len m = Z.of_nat (length l) /\ forall q, Get cmp m q h = Ret (get cmp q l).
  Proof.
    intros T.
    assert (W : forall A (f : out A) (g : A -> banswer K V) x h' m', (a <- f ;; Ret ((m, g a), h)) = Ret ((m', g x), h') -> (forall a b, g a = g b -> a = b) -> f = Ret x).
    { intros A f g x h' m' E INJ. destruct f as [a| |]; cbn [bind] in E; try discriminate. injection E as _ E _. now rewrite (INJ _ _ E). }
    destruct (tree_step cmp lawful h m l BEntries T I) as (h1 & m1 & E1 & _).
    destruct (tree_step cmp lawful h m l BKeys T I) as (h2 & m2 & E2 & _).
    destruct (tree_step cmp lawful h m l BValues T I) as (h3 & m3 & E3 & _).
    destruct (tree_step cmp lawful h m l BLen T I) as (h4 & m4 & E4 & _).
    cbn [exec map_step snd] in E1, E2, E3, E4. unfold asking in E1, E2, E3.
    split; [eapply W; [exact E1|congruence]|]. split; [eapply W; [exact E2|congruence]|]. split; [eapply W; [exact E3|congruence]|].
    split; [destruct T as [(s0 & _ & O)|LT]; [apply O|eapply low_length; eauto]|].
    split; [unfold mret in E4; congruence|].
    intros q. destruct (tree_step cmp lawful h m l (BGet q) T I) as (h5 & m5 & E5 & _). cbn [exec map_step snd] in E5. unfold asking in E5.
    eapply W; [exact E5|congruence].
  Qed.
End Maps.

Theorem listings : forall K V (cmp : K -> K -> ordering), total_preorder cmp ->
  forall (ops : list (bop K V)) h, gentle cmp [] ops ->
  exists m' h' l, run cmp BTreeMapNew ops h = Ret ((m', snd (map_run cmp [] ops)), h') /\
    IntoIter_vec m' h' = Ret l /\ Keys_vec m' h' = Ret (map fst l) /\ Values_vec m' h' = Ret (map snd l) /\
    sorted cmp l /\ Len m' = Z.of_nat (length l) /\ forall q, Get cmp m' q h' = Ret (get cmp q l).
Proof.
  intros K V cmp T ops h G. destruct (tree_run cmp T ops h BTreeMapNew [] (tree_new cmp h) G) as (h' & m' & E & TR).
  exists m', h', (fst (map_run cmp [] ops)). split; [exact E|]. apply tree_asks; auto.
Qed.
Lemma seek_some {K V} (cmp : K -> K -> ordering) (T : total_preorder cmp) k (l : list (K * V)) m : sorted cmp l ->
  is_some (seek cmp k (map Some l ++ gaps m) 0) = is_some (get cmp k l).
Proof.
  intros SO. destruct l as [|e l']; [destruct m; reflexivity|]. set (l := e :: l') in *.
  destruct (key_cases cmp T k (snd e) l m SO) as [(a & k0 & v0 & b & H)|(a & b & H)].
  - destruct H as (_ & _ & -> & -> & _). reflexivity.
  - destruct H as (_ & -> & -> & _). reflexivity.
Qed.
Theorem greatest_stays : forall K V (cmp : K -> K -> ordering), total_preorder cmp ->
  forall (ops : list (bop K V)) h front e k,
  mild_all cmp [] ops -> fst (mild_run cmp [] ops) = front ++ [e] -> front <> [] -> cmp k (fst e) = Equal ->
  exists m1 h1 m' h', run cmp BTreeMapNew ops h = Ret ((m1, snd (mild_run cmp [] ops)), h1) /\
    Remove cmp m1 k h1 = Ret ((m', Some (snd e)), h') /\
    Len m' = Z.of_nat (length front) /\ Keys_vec m' h' = Ret (map fst front) /\
    IntoIter_vec m' h' = Ret (front ++ [e]) /\ Values_vec m' h' = Ret (map snd (front ++ [e])) /\
    forall q, Get cmp m' q h' = Ret (get cmp q (front ++ [e])) /\ ContainsKey cmp m' q h' = Ret (is_some (get cmp q (front ++ [e]))).
Proof.
  intros K V cmp T ops h front e k G EL NE C.
  destruct (mild_slots cmp T ops no_slots [] (ok_new cmp) G) as (s & E & O). rewrite EL in O.
  destruct (run_sim cmp T ops h BTreeMapNew no_slots _ _ (rep_new h) E) as (h1 & m1 & ER & R & _).
  destruct (remove_greatest cmp T s _ front e O eq_refl NE k C) as (s' & ES & L' & A' & C').
  destruct (step_sim cmp T h1 m1 s (BRemove k) s' _ R ES) as (h' & m' & EX & R' & _).
  exists m1, h1, m', h'. split; [exact ER|].
  assert (ASK : forall o s'' a, slot_step cmp s' o = Some (s'', a) -> exists h2 m2, exec cmp m' o h' = Ret ((m2, a), h2)).
  { intros o s'' a ST. destruct (step_sim cmp T h' m' s' o s'' a R' ST) as (h2 & m2 & X & _). eauto. }
  assert (W : forall A (f : out A) (g : A -> banswer K V) (x : A) (hx h2 : heap K V) m2, (a <- f ;; Ret ((m', g a), hx)) = Ret ((m2, g x), h2) -> (forall a b, g a = g b -> a = b) -> f = Ret x).
  { intros A f g x hx h2 m2 X INJ. destruct f as [a| |]; cbn [bind] in X; try discriminate. injection X as _ X _. now rewrite (INJ _ _ X). }
  pose proof (ok_all cmp s _ O) as AL.
  assert (SM : somes (all_slots s') = front ++ [e]).
  { rewrite A', AL. clear. assert (Q : forall (a : list (K * V)) b, somes (map Some a ++ b) = a ++ somes b) by (intros a b; induction a; cbn; congruence).
    rewrite Q, somes_gaps. apply app_nil_r. }
  split.
  { cbn [exec] in EX. unfold mbind in EX. destruct (Remove cmp m1 k h1) as [[[m2 w] h2]| |]; cbn in EX; try discriminate. unfold mret in EX. congruence. }
  split.
  { destruct R' as (LE & _). unfold Len. rewrite LE, C'. destruct O as (_ & _ & -> & _). rewrite app_length. cbn. lia. }
  split.
  { destruct (ASK BKeys s' (KeyList (map fst (live s'))) eq_refl) as (h2 & m2 & X). cbn [exec] in X. unfold asking in X. rewrite L' in X.
    eapply W; [exact X|congruence]. }
  split.
  { destruct (ASK BEntries s' (Entries (somes (all_slots s'))) eq_refl) as (h2 & m2 & X). cbn [exec] in X. unfold asking in X. rewrite SM in X.
    eapply W; [exact X|congruence]. }
  split.
  { destruct (ASK BValues s' (ValueList (map snd (somes (all_slots s')))) eq_refl) as (h2 & m2 & X). cbn [exec] in X. unfold asking in X. rewrite SM in X.
    eapply W; [exact X|congruence]. }
  intros q.
  assert (SO : sorted cmp (front ++ [e])) by apply O.
  destruct (ASK (BGet q) s' _ eq_refl) as (h2 & m2 & X2). destruct (ASK (BContainsKey q) s' _ eq_refl) as (h3 & m3 & X3).
  cbn [slot_step] in X2, X3. rewrite A', AL in X2, X3. rewrite (seek_get cmp T) in X2 by exact SO. rewrite seek_some in X3 by auto.
  cbn [exec] in X2, X3. unfold asking in X2, X3. split; [eapply W; [exact X2|congruence]|eapply W; [exact X3|congruence]].
Qed.

Section SetTop.
  Context {K : Type}.
  Variable cmp : K -> K -> ordering.
  Hypothesis lawful : total_preorder cmp.
  Notation ukv := (list (K * unit)).

  Lemma holds_shows h s (l : ukv) p : holds cmp h s l -> (forall x, mem cmp x (map fst l) = p x) -> shows cmp h s p.
  Proof.
    intros T P. split; [intros x; rewrite <- P; eapply holds_contains; eauto|].
    exists (map fst l). split; [apply sorted_ascending; eapply holds_sorted; eauto|]. split; [exact P|].
    pose proof (holds_len cmp _ _ _ T) as LEN.
    split; [unfold sLen, Len; now rewrite map_length|]. split.
    - unfold sIsEmpty, IsEmpty. rewrite LEN. destruct l; [reflexivity|]. cbn [length map]. apply Z.eqb_neq. lia.
    - destruct l as [|e l]; [eapply holds_iter_empty; eauto|]. rewrite (holds_iter cmp lawful _ _ _ T) by discriminate. reflexivity.
  Qed.
  Lemma mem_after_nil x xs : mem cmp x (map fst (after cmp [] xs)) = mem cmp x xs.
  Proof. rewrite (mem_after cmp lawful) by exact I. cbn. apply orb_false_r. Qed.
  Lemma after_empty xs : after cmp [] xs = [] -> xs = [].
  Proof.
    destruct xs as [|x xs]; auto. intros E. pose proof (mem_after_nil x (x :: xs)) as Q. rewrite E in Q. cbn in Q.
    rewrite (cmp_refl cmp lawful) in Q. discriminate.
  Qed.
  Lemma both_hold xs ys h : gentle cmp [] (adds xs) -> gentle cmp [] (adds ys) ->
    exists s o h', add_both cmp xs ys h = Ret ((s, o), h') /\ holds cmp h' s (after cmp [] xs) /\ holds cmp h' o (after cmp [] ys).
  Proof.
    intros GX GY. destruct (add_all_run cmp lawful (length h) xs h BTreeSetNew [] (building_new cmp h) GX) as (h1 & s & E1 & B1 & K1).
    destruct (add_all_run cmp lawful (length h1) ys h1 BTreeSetNew [] (building_new cmp h1) GY) as (h2 & o & E2 & B2 & K2).
    exists s, o, h2. split; [|split].
    - unfold add_both. rewrite (mbind_Ret _ _ _ _ _ E1), (mbind_Ret _ _ _ _ _ E2). reflexivity.
    - eapply holds_same; [apply B1|]. apply mine_keeps. exact K2.
    - apply B2.
  Qed.
  Lemma forallb_after (f : K -> bool) xs : (forall x y, cmp x y = Equal -> f x = f y) -> forallb f (map fst (after cmp [] xs)) = forallb f xs.
  Proof. intros H. apply (forallb_ext_mem cmp lawful); auto. intros x. apply mem_after_nil. Qed.
  Lemma mem_mem (xs : list K) x y : cmp x y = Equal -> mem cmp x xs = mem cmp y xs.
  Proof. apply mem_equal; auto. Qed.
  Lemma mem_filter x (f : K -> bool) l : (forall x y, cmp x y = Equal -> f x = f y) -> mem cmp x (filter f l) = f x && mem cmp x l.
  Proof.
    intros H. induction l as [|y l IH]; [cbn; now rewrite andb_false_r|]. cbn [filter mem existsb]. fold (mem cmp x l).
    destruct (f y) eqn:F.
    - cbn [existsb mem]. fold (mem cmp x (filter f l)). rewrite IH. destruct (cmp x y) eqn:C; try reflexivity. rewrite (H x y C), F. reflexivity.
    - fold (mem cmp x (filter f l)). rewrite IH. destruct (cmp x y) eqn:C; try reflexivity. rewrite (H x y C), F. reflexivity.
  Qed.
  Lemma mem_app x a b : mem cmp x (a ++ b) = mem cmp x a || mem cmp x b.
  Proof. apply existsb_app. Qed.
  Lemma eq_sets xs ys : (length (after cmp [] xs) =? length (after cmp [] ys)) && forallb (fun x => mem cmp x (map fst (after cmp [] ys))) (map fst (after cmp [] xs)) =
    forallb (fun x => mem cmp x ys) xs && forallb (fun y => mem cmp y xs) ys.
  Proof.
    rewrite (forallb_ext (fun x => mem cmp x (map fst (after cmp [] ys))) (fun x => mem cmp x ys)) by (intros; apply mem_after_nil).
    rewrite forallb_after by (intros; now apply mem_mem). rewrite !(after_length cmp lawful).
    destruct (forallb (fun x => mem cmp x ys) xs) eqn:A; [|now rewrite andb_false_r]. rewrite andb_true_r, andb_true_l.
    rewrite forallb_forall in A.
    destruct (forallb (fun y => mem cmp y xs) ys) eqn:B.
    - rewrite forallb_forall in B. apply Nat.eqb_eq, Nat.le_antisymm; (apply (same_length cmp lawful); [apply distinct_pairs|]); intros x I;
        rewrite (mem_distinct cmp lawful); [apply A|apply B]; eapply distinct_In; eauto.
    - apply Nat.eqb_neq. intros EQ. assert (~ exists y, In y ys /\ mem cmp y xs = false).
      { intros (y & I & M).
        assert (S (length (distinct cmp xs)) <= length (distinct cmp ys)); [|lia].
        change (S (length (distinct cmp xs))) with (length (y :: distinct cmp xs)). apply (same_length cmp lawful).
        - constructor; [|apply distinct_pairs]. apply Forall_forall. intros z J C. apply distinct_In in J.
          assert (mem cmp y xs = true) by (apply mem_In; eauto). congruence.
        - intros x [<-|J]; rewrite (mem_distinct cmp lawful); [now apply (In_mem cmp lawful)|]. apply A. eapply distinct_In; eauto. }
      apply H. clear -B. induction ys as [|y ys IH]; [discriminate|]. cbn in B. destruct (mem cmp y xs) eqn:M; [|exists y; cbn; auto].
      destruct (IH B) as (z & I & Z). exists z. cbn; auto.
  Qed.

  Theorem set_insert xs x h : gentle cmp [] (adds (xs ++ [x])) ->
    exists s h1 s' h2, add_all cmp xs BTreeSetNew h = Ret (s, h1) /\ shows cmp h1 s (fun y => mem cmp y xs) /\
      sInsert cmp s x h1 = Ret ((s', negb (mem cmp x xs)), h2) /\ shows cmp h2 s' (fun y => mem cmp y (xs ++ [x])).
  Proof.
    intros G.
    assert (GA : forall l0, gentle cmp l0 (adds (xs ++ [x])) -> gentle cmp l0 (adds xs) /\ allowed cmp (after cmp l0 xs) (BInsert x tt)).
    { clear. induction xs as [|y xs IH]; intros l0 GG; [split; [exact I|apply GG]|]. cbn [app adds map gentle] in GG. destruct GG as (AD & GG).
      destruct (IH _ GG) as (G1 & G2). rewrite after_cons. split; [split; auto|auto]. }
    destruct (GA [] G) as (G1 & AD).
    destruct (add_all_run cmp lawful (length h) xs h BTreeSetNew [] (building_new cmp h) G1) as (h1 & s & E1 & B1 & K1).
    destruct (building_insert cmp lawful (length h) h1 s _ x B1 AD) as (h2 & s' & E2 & B2 & K2).
    exists s, h1, s', h2. split; [exact E1|]. split; [eapply holds_shows; [apply B1|intros ?; apply mem_after_nil]|].
    rewrite mem_after_nil in E2. split; [exact E2|]. eapply holds_shows; [apply B2|]. intros y.
    change (put cmp x tt (after cmp [] xs)) with (after cmp (after cmp [] xs) [x]). rewrite <- after_app. apply mem_after_nil.
  Qed.
  Lemma after_ne xs : xs <> [] -> after cmp [] xs <> [].
  Proof. intros NE E. apply NE. now apply after_empty. Qed.
  Theorem set_compare xs ys h : gentle cmp [] (adds xs) -> gentle cmp [] (adds ys) -> xs <> [] -> ys <> [] ->
    exists s o h', add_both cmp xs ys h = Ret ((s, o), h') /\
      shows cmp h' s (fun x => mem cmp x xs) /\ shows cmp h' o (fun x => mem cmp x ys) /\
      IsSubset cmp s o h' = Ret (forallb (fun x => mem cmp x ys) xs) /\
      IsSuperset cmp s o h' = Ret (forallb (fun y => mem cmp y xs) ys) /\
      IsDisjoint cmp s o h' = Ret (forallb (fun x => negb (mem cmp x ys)) xs) /\
      sEq cmp s o h' = Ret (forallb (fun x => mem cmp x ys) xs && forallb (fun y => mem cmp y xs) ys).
  Proof.
    intros GX GY NX NY. destruct (both_hold xs ys h GX GY) as (s & o & h' & E & HS & HO). exists s, o, h'.
    split; [exact E|]. split; [eapply holds_shows; [exact HS|intros ?; apply mem_after_nil]|]. split; [eapply holds_shows; [exact HO|intros ?; apply mem_after_nil]|].
    assert (SUB : forall a b la lb, holds cmp h' a (after cmp [] la) -> holds cmp h' b (after cmp [] lb) -> la <> [] -> IsSubset cmp a b h' = Ret (forallb (fun x => mem cmp x lb) la)).
    { intros a b la lb HA HB NA. rewrite (subset_run cmp lawful _ _ _ _ _ HA HB (after_ne _ NA)). f_equal.
      rewrite (forallb_ext _ (fun x => mem cmp x lb)) by (intros; apply mem_after_nil). apply forallb_after. intros; now apply mem_mem. }
    split; [apply SUB; auto|]. split; [apply SUB; auto|]. split.
    - rewrite (disjoint_run cmp lawful _ _ _ _ _ HS HO (after_ne _ NX)). f_equal.
      rewrite (forallb_ext _ (fun x => negb (mem cmp x ys))) by (intros; now rewrite mem_after_nil). apply forallb_after. intros; f_equal; now apply mem_mem.
    - rewrite (sEq_run cmp lawful _ _ _ _ _ HS HO (after_ne _ NX)). f_equal. apply eq_sets.
  Qed.
  Lemma distinct_same xs ys : (forall x, mem cmp x xs = mem cmp x ys) -> length (distinct cmp xs) = length (distinct cmp ys).
  Proof.
    intros H. apply Nat.le_antisymm; (apply (same_length cmp lawful); [apply distinct_pairs|]); intros x J; apply distinct_In in J;
      rewrite (mem_distinct cmp lawful); [rewrite <- H|rewrite H]; now apply (In_mem cmp lawful).
  Qed.
  Theorem set_combine xs ys h : gentle cmp [] (adds xs) -> gentle cmp [] (adds ys) -> xs <> [] -> ys <> [] ->
    exists s o h', add_both cmp xs ys h = Ret ((s, o), h') /\
    forall op p, (op, p) = (Intersection cmp s o, fun x => mem cmp x xs && mem cmp x ys) \/
                 (op, p) = (Union cmp s o, fun x => mem cmp x xs || mem cmp x ys) \/
                 (op, p) = (SymmetricDifference cmp s o, fun x => xorb (mem cmp x xs) (mem cmp x ys)) ->
    length (distinct cmp (filter p (xs ++ ys))) <= 11 ->
    exists u h'', op h' = Ret (u, h'') /\ shows cmp h'' u p /\
      shows cmp h'' s (fun x => mem cmp x xs) /\ shows cmp h'' o (fun x => mem cmp x ys).
  Proof.
    intros GX GY NX NY. destruct (both_hold xs ys h GX GY) as (s & o & h' & E & HS & HO). exists s, o, h'. split; [exact E|].
    assert (FIN : forall (op : M (heap K unit) BTreeSet) (p : K -> bool) zs, (forall x, mem cmp x zs = p x) ->
      (forall x y, cmp x y = Equal -> p x = p y) -> (forall x, p x = true -> mem cmp x (xs ++ ys) = true) ->
      length (distinct cmp (filter p (xs ++ ys))) <= 11 ->
      (gentle cmp [] (adds zs) -> exists h'' u, op h' = Ret (u, h'') /\ holds cmp h'' u (after cmp [] zs) /\ (forall a, a < length h' -> nth_error h'' a = nth_error h' a)) ->
      exists u h'', op h' = Ret (u, h'') /\ shows cmp h'' u p /\ shows cmp h'' s (fun x => mem cmp x xs) /\ shows cmp h'' o (fun x => mem cmp x ys)).
    { intros op p zs MZ PE PI L RUN. destruct RUN as (h'' & u & EO & HU & SAME).
      - apply gentle_small; auto; [exact I|]. rewrite (after_length cmp lawful).
        rewrite (distinct_same zs (filter p (xs ++ ys))); auto. intros x. rewrite mem_filter by auto. rewrite MZ.
        destruct (p x) eqn:PX; auto. symmetry. cbn. now apply PI.
      - exists u, h''. split; [exact EO|]. split; [eapply holds_shows; [exact HU|]; intros x; rewrite mem_after_nil; apply MZ|].
        split; (eapply holds_shows; [eapply holds_same; [eassumption|exact SAME]|intros ?; apply mem_after_nil]). }
    assert (PX : forall zs x, mem cmp x (map fst (after cmp [] zs)) = mem cmp x zs) by (intros; apply mem_after_nil).
    intros op p [Q|[Q|Q]] L; injection Q as -> ->.
    - apply (FIN _ _ (filter (fun x => mem cmp x (map fst (after cmp [] ys))) (map fst (after cmp [] xs)))); auto.
      + intros x. rewrite mem_filter by (intros; rewrite !PX; now apply mem_mem). rewrite !PX. apply andb_comm.
      + intros x y C. f_equal; now apply mem_mem.
      + intros x H. apply andb_true_iff in H. rewrite mem_app. now rewrite (proj1 H).
      + intros G. apply intersection_run; auto. now apply after_ne.
    - apply (FIN _ _ (map fst (after cmp [] xs) ++ map fst (after cmp [] ys))); auto.
      + intros x. rewrite mem_app, !PX. reflexivity.
      + intros x y C. f_equal; now apply mem_mem.
      + intros x H. rewrite mem_app. exact H.
      + intros G. apply union_run; auto; now apply after_ne.
    - apply (FIN _ _ (filter (fun x => negb (mem cmp x (map fst (after cmp [] ys)))) (map fst (after cmp [] xs)) ++
                      filter (fun x => negb (mem cmp x (map fst (after cmp [] xs)))) (map fst (after cmp [] ys)))); auto.
      + intros x. rewrite mem_app, !mem_filter by (intros; rewrite !PX; f_equal; now apply mem_mem). rewrite !PX.
        destruct (mem cmp x xs), (mem cmp x ys); reflexivity.
      + intros x y C. f_equal; now apply mem_mem.
      + intros x H. rewrite mem_app. destruct (mem cmp x xs), (mem cmp x ys); auto.
      + intros G. apply symdiff_run; auto; now apply after_ne.
  Qed.
  Lemma empty_root h s : holds cmp h s [] -> root s = None /\ len s = 0%Z.
  Proof.
    intros T. pose proof (holds_root cmp _ _ _ T) as R. pose proof (holds_len cmp _ _ _ T) as L. destruct (root s); [congruence|auto].
  Qed.
  Theorem set_empty xs h : gentle cmp [] (adds xs) ->
    exists s o h', add_both cmp [] xs h = Ret ((s, o), h') /\
      sIntoIter_vec s h' = Panic /\ IsSubset cmp s o h' = Panic /\ IsSuperset cmp o s h' = Panic /\ IsDisjoint cmp s o h' = Panic /\
      Intersection cmp s o h' = Panic /\ Union cmp s o h' = Panic /\ SymmetricDifference cmp s o h' = Panic /\
      sEq cmp s o h' = (match xs with [] => Panic | _ => Ret false end) /\
      (length (distinct cmp xs) <= 11 -> Union cmp o s h' = Panic /\ SymmetricDifference cmp o s h' = Panic) /\
    (xs <> [] -> IsSubset cmp o s h' = Ret false /\
                   IsDisjoint cmp o s h' = Ret true /\ sEq cmp o s h' = Ret false).
  Proof.
    intros G. destruct (both_hold [] xs h I G) as (s & o & h' & E & HS & HO). cbn [after] in HS. exists s, o, h'. split; [exact E|].
    change (after cmp [] []) with (@nil (K * unit)) in HS.
    pose proof (holds_iter_empty cmp _ _ HS) as IT. destruct (empty_root _ _ HS) as (R0 & L0). pose proof (holds_len cmp _ _ _ HO) as LO.
    assert (SB : IsSubset cmp s o h' = Panic).
    { unfold IsSubset, sLen, Len. rewrite L0, LO. replace (_ <? 0)%Z with false by (symmetry; apply Z.ltb_ge; lia). now rewrite IT. }
    split; [exact IT|]. split; [exact SB|]. split; [exact SB|].
    split; [unfold IsDisjoint; now rewrite IT|].
    split; [unfold Intersection, mbind, reading; now rewrite IT|].
    split; [unfold Union, mbind, reading; now rewrite IT|].
    split; [unfold SymmetricDifference, mbind, reading; now rewrite IT|].
    split.
    { unfold sEq, sLen, Len. rewrite L0, LO. destruct xs as [|x xs].
      - change (length (after cmp [] [])) with 0. cbn. now rewrite IT.
      - destruct (after cmp [] (x :: xs)) eqn:EA; [exfalso; apply (after_ne (x :: xs)); auto; discriminate|]. cbn [length].
        replace (0 =? _)%Z with false by (symmetry; apply Z.eqb_neq; lia). reflexivity. }
    split.
    { intros L11. destruct xs as [|x0 xs0].
      { pose proof (holds_iter_empty cmp _ _ HO) as IO. split; [unfold Union|unfold SymmetricDifference]; unfold mbind, reading; now rewrite IO. }
      set (xs := x0 :: xs0) in *. assert (NA : after cmp [] xs <> []) by (apply after_ne; discriminate).
      pose proof (holds_iter cmp lawful _ _ _ HO NA) as IO.
      assert (LOOP : forall p pb, (forall x h2, keeps (mine (length h')) h' h2 -> p x h2 = Ret (pb x)) -> (forall x y, cmp x y = Equal -> pb x = pb y) ->
        exists h2 u, insert_loop cmp p (map fst (after cmp [] xs)) BTreeSetNew h' = Ret (u, h2) /\ sIntoIter_vec s h2 = Panic).
      { intros p pb P PE.
        destruct (insert_loop_run cmp lawful (length h') p pb (map fst (after cmp [] xs)) h' BTreeSetNew [] (building_new cmp h')) as (h2 & u & EU & _ & KE); auto.
        - apply gentle_small; auto; [exact I|]. rewrite (after_length cmp lawful). etransitivity; [|exact L11].
          apply (same_length cmp lawful); [apply distinct_pairs|]. intros x J. apply distinct_In in J. apply filter_In in J. destruct J as (J & _).
          rewrite (mem_distinct cmp lawful), <- mem_after_nil. now apply (In_mem cmp lawful).
        - exists h2, u. split; [exact EU|]. apply (holds_iter_empty cmp). eapply holds_same; [exact HS|]. now apply mine_keeps. }
      split.
      - unfold Union. erewrite mbind_Ret by (unfold reading; rewrite IO; reflexivity).
        destruct (LOOP (fun _ _ => Ret true) (fun _ => true)) as (h2 & u & EU & IT2); auto.
        rewrite (mbind_Ret _ _ _ _ _ EU). unfold mbind, reading. now rewrite IT2.
      - unfold SymmetricDifference. erewrite mbind_Ret by (unfold reading; rewrite IO; reflexivity).
        destruct (LOOP (fun x h => c <- Contains cmp s x h ;; Ret (negb c)) (fun x => negb (mem cmp x []))) as (h2 & u & EU & IT2); auto.
        { intros x h2 KE. rewrite (holds_contains cmp lawful h2 s []); [reflexivity|]. eapply holds_same; [exact HS|]. now apply mine_keeps. }
        rewrite (mbind_Ret _ _ _ _ _ EU). unfold mbind, reading. now rewrite IT2. }
    intros NE. pose proof (after_ne _ NE) as NA. pose proof (holds_iter cmp lawful _ _ _ HO NA) as IO.
    assert (POS : (0 < Z.of_nat (length (after cmp [] xs)))%Z) by (destruct (after cmp [] xs); [congruence|cbn; lia]).
    split; [|split].
    - rewrite (subset_run cmp lawful _ _ _ _ _ HO HS NA). destruct (after cmp [] xs); [congruence|]. reflexivity.
    - rewrite (disjoint_run cmp lawful _ _ _ _ _ HO HS NA). f_equal. apply forallb_forall. reflexivity.
    - rewrite (sEq_run cmp lawful _ _ _ _ _ HO HS NA). destruct (after cmp [] xs); [congruence|]. reflexivity.
  Qed.
  Theorem set_clone xs h : gentle cmp [] (adds xs) ->
    exists s h', add_all cmp xs BTreeSetNew h = Ret (s, h') /\
      (xs = [] -> forall r c, clone_rounds cmp (S r) c s BTreeSetNew h' = Panic) /\
      (xs <> [] -> forall r, clone_rounds cmp (S r) None s BTreeSetNew h' = Panic) /\
      (xs <> [] -> forall r c, clone_rounds cmp r (Some c) s BTreeSetNew h' = Diverge).
  Proof.
    intros G. destruct (add_all_run cmp lawful (length h) xs h BTreeSetNew [] (building_new cmp h) G) as (h1 & s & E1 & B1 & K1).
    destruct B1 as (_ & _ & HS). exists s, h1. split; [exact E1|]. split; [|split].
    - intros -> r c. eapply clone_empty; eauto.
    - intros NE r. eapply clone_none; eauto. now apply after_ne.
    - intros NE r c. eapply clone_forever; eauto. now apply after_ne.
  Qed.
End SetTop.
