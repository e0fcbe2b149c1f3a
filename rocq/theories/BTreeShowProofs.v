(** BTreeShowProofs.v -- Display and Eq of B-tree containers. *)
From Verif Require Import Base BaseLemmas Effect StringModel CmpSpec VecSpec HashModel HashSetProofs BTreeModel BTreeSpec BTreeHistory BTreeProofs BTreeMapProofs BTreeSepProofs
  BTreeGentleProofs BTreeSetProofs BTreeTwoProofs BTreeTopProofs BTreeShowSpec.
Local Open Scope nat_scope.

Section Show.
  Context {K V : Type}.
  Variable cmp : K -> K -> ordering.
  Implicit Types (h : heap K V) (m : BTreeMap).

  Lemma Contains_Get m q h g : Get cmp m q h = Ret g -> ContainsKey cmp m q h = Ret (is_some g).
  Proof.
    unfold Get, ContainsKey. destruct (root m) as [r|]; [|intros E; injection E as <-; reflexivity].
    destruct (search cmp (fuel h) h r q) as [[[a i]|]| |]; cbn [bind]; try discriminate.
    - destruct (value_at h a i) as [v| |]; cbn [bind]; try discriminate. intros E. injection E as <-. reflexivity.
    - intros E. injection E as <-. reflexivity.
  Qed.
  Lemma display_loop_eq dk dv m h (g : K -> option V) : (forall q, Get cmp m q h = Ret (g q)) -> forall ks fields,
    display_loop cmp (fun k => Some (dk k)) (fun v => Some (dv v)) m h ks fields = Ret (fields ++ shown dk dv g ks).
  Proof.
    intros G. induction ks as [|k ks IH]; intros fields; cbn [display_loop shown flat_map].
    - now rewrite app_nil_r.
    - rewrite G. cbn [bind]. destruct (g k) as [v|]; [|apply IH].
      rewrite format_entry. cbn [bind]. rewrite IH, <- app_assoc. reflexivity.
  Qed.
  Lemma Display_eq dk dv m h ks g : Keys_vec m h = Ret ks -> (forall q, Get cmp m q h = Ret (g q)) ->
    Display cmp (fun k => Some (dk k)) (fun v => Some (dv v)) m h = Ret ([66; 84; 114; 101; 101; 77; 97; 112; 123]%Z ++ comma_separated (shown dk dv g ks) ++ [125]%Z).
  Proof.
    intros EK G. unfold Display. rewrite EK. cbn [bind]. rewrite (display_loop_eq dk dv m h g G). cbn [bind app]. now rewrite join_comma.
  Qed.
  Lemma eq_loop_eq eq other h (g : K -> option V) : (forall q, Get cmp other q h = Ret (g q)) -> forall es,
    eq_loop cmp (Some eq) es other h = Ret (forallb (fun e => match g (fst e) with Some w => eq w (snd e) | None => false end) es).
  Proof.
    intros G. induction es as [|[k v] es IH]; cbn [eq_loop forallb fst snd]; [reflexivity|].
    rewrite (Contains_Get _ _ _ _ (G k)). cbn [bind]. rewrite G. cbn [bind].
    destruct (g k) as [w|]; cbn [is_some negb of_option bind]; [|reflexivity].
    destruct (eq w v); cbn [negb andb]; [apply IH|reflexivity].
  Qed.
  Lemma Eq_eq eq m other h es g : IntoIter_vec m h = Ret es -> (forall q, Get cmp other q h = Ret (g q)) ->
    Eq cmp (Some eq) m other h = Ret ((Len m =? Len other)%Z && forallb (fun e => match g (fst e) with Some w => eq w (snd e) | None => false end) es).
  Proof.
    intros EI G. unfold Eq. change (len m =? len other)%Z with (Len m =? Len other)%Z.
    destruct (Len m =? Len other)%Z; cbn [negb andb]; [|reflexivity].
    rewrite EI. cbn [bind]. now apply eq_loop_eq.
  Qed.
  Lemma Eq_none m other h es g : IntoIter_vec m h = Ret es -> (forall q, Get cmp other q h = Ret (g q)) ->
    Eq cmp None m other h =
      if (Len m =? Len other)%Z then match es with [] => Ret true | e :: _ => match g (fst e) with Some _ => Panic | None => Ret false end end else Ret false.
  Proof.
    intros EI G. unfold Eq. change (len m =? len other)%Z with (Len m =? Len other)%Z.
    destruct (Len m =? Len other)%Z; cbn [negb]; [|reflexivity].
    rewrite EI. cbn [bind]. destruct es as [|[k v] es]; cbn [eq_loop fst]; [reflexivity|].
    rewrite (Contains_Get _ _ _ _ (G k)). cbn [bind]. rewrite G. destruct (g k); reflexivity.
  Qed.

  Hypothesis lawful : total_preorder cmp.
  Lemma get_equal q q' (l : list (K * V)) : cmp q q' = Equal -> get cmp q l = get cmp q' l.
  Proof.
    intros E. induction l as [|[k v] l IH]; [reflexivity|]. cbn [get]. rewrite (Equal_cmp cmp lawful q q' k E). destruct (cmp q' k); auto.
  Qed.
  Lemma get_entry (l : list (K * V)) e : sorted cmp l -> In e l -> get cmp (fst e) l = Some (snd e).
  Proof.
    induction l as [|[k v] l IH]; intros SO I; [destruct I|]. destruct SO as (F & SO). cbn [get]. destruct I as [<- |I].
    - cbn [fst]. rewrite (cmp_refl cmp lawful). reflexivity.
    - specialize (F e I). cbn [fst] in F. destruct (cmp (fst e) k) eqn:C; auto.
      rewrite (tp_flip cmp lawful), F in C. discriminate.
  Qed.
  Lemma get_mem q (l : list (K * V)) : is_some (get cmp q l) = mem cmp q (map fst l).
  Proof. induction l as [|[k v] l IH]; [reflexivity|]. cbn [get map mem existsb fst]. destruct (cmp q k); cbn [is_some orb]; auto. Qed.
  Lemma shown_sorted dk dv (l : list (K * V)) : sorted cmp l ->
    shown dk dv (fun q => get cmp q l) (map fst l) = map (fun e => dk (fst e) ++ [58; 32]%Z ++ dv (snd e)) l.
  Proof.
    intros SO. assert (H : forall l', (forall e, In e l' -> In e l) ->
      shown dk dv (fun q => get cmp q l) (map fst l') = map (fun e => dk (fst e) ++ [58; 32]%Z ++ dv (snd e)) l').
    { induction l' as [|e l' IH]; intros S; [reflexivity|]. cbn [shown flat_map map]. rewrite (get_entry l e SO (S e (or_introl eq_refl))).
      cbn [app]. f_equal. apply IH. intros e' I. apply S. now right. }
    apply H. auto.
  Qed.
  Lemma sorted_pairs (l : list (K * V)) : sorted cmp l -> ForallOrdPairs (fun a b => cmp a b <> Equal) (map fst l).
  Proof.
    induction l as [|e l IH]; intros SO; [constructor|]. destruct SO as (F & SO). cbn [map]. constructor; [|apply IH, SO].
    apply Forall_forall. intros k I. apply in_map_iff in I. destruct I as (e' & <- & I). rewrite (F e' I). discriminate.
  Qed.
  Lemma agree_iff eq (l1 l2 : list (K * V)) : sorted cmp l1 -> sorted cmp l2 ->
    ((Z.of_nat (length l1) =? Z.of_nat (length l2))%Z && forallb (fun e => match get cmp (fst e) l2 with Some w => eq w (snd e) | None => false end) l1 = true
     <-> agree cmp eq l1 l2).
  Proof.
    intros S1 S2. rewrite andb_true_iff, Z.eqb_eq, forallb_forall. split.
    - intros (L & A) q. apply Nat2Z.inj in L. destruct (get cmp q l1) as [v|] eqn:G1.
      + assert (M : mem cmp q (map fst l1) = true) by (rewrite <- get_mem, G1; reflexivity).
        apply existsb_exists in M. destruct M as (k & I & C). destruct (cmp q k) eqn:C'; try discriminate. clear C. rename C' into C.
        apply in_map_iff in I. destruct I as (e & <- & I). specialize (A e I).
        rewrite (get_equal q (fst e) l2 C). rewrite (get_equal q (fst e) l1 C), (get_entry l1 e S1 I) in G1. injection G1 as <-.
        destruct (get cmp (fst e) l2); [exact A|discriminate].
      + destruct (get cmp q l2) as [w|] eqn:G2; [|exact I].
        assert (Q : S (length l1) <= length l2); [|lia].
        rewrite <- (map_length fst l1), <- (map_length fst l2). change (S (length (map fst l1))) with (length (q :: map fst l1)).
        apply (same_length cmp lawful).
        * constructor; [|now apply sorted_pairs]. apply Forall_forall. intros k I C. apply in_map_iff in I. destruct I as (e & <- & I).
          rewrite (get_equal q (fst e) l1 C), (get_entry l1 e S1 I) in G1. discriminate.
        * intros k [<- |I]; [rewrite <- get_mem, G2; reflexivity|]. apply in_map_iff in I. destruct I as (e & <- & I). specialize (A e I).
          rewrite <- get_mem. destruct (get cmp (fst e) l2); [reflexivity|discriminate].
    - intros AG. split.
      + f_equal. apply Nat.le_antisymm; rewrite <- (map_length fst l1), <- (map_length fst l2);
          (apply (same_length cmp lawful); [now apply sorted_pairs|]); intros k I; apply in_map_iff in I; destruct I as (e & <- & I);
          specialize (AG (fst e)); rewrite <- get_mem.
        * rewrite (get_entry l1 e S1 I) in AG. destruct (get cmp (fst e) l2); [reflexivity|destruct AG].
        * rewrite (get_entry l2 e S2 I) in AG. destruct (get cmp (fst e) l1); [reflexivity|destruct AG].
      + intros e I. specialize (AG (fst e)). rewrite (get_entry l1 e S1 I) in AG. destruct (get cmp (fst e) l2); [exact AG|destruct AG].
  Qed.

  (** *** A second history leaves the first map as it was *)
  Lemma apart_run (ops : list (bop K V)) : forall h a b b' rs h', apart h a b -> run cmp b ops h = Ret ((b', rs), h') ->
    apart h' a b' /\ forall q x, reads q -> exec cmp a q h = Ret x -> exec cmp a q h' = Ret (fst x, h').
  Proof.
    induction ops as [|o ops IH]; intros h a b b' rs h' AP E; cbn [run] in E.
    - unfold mret in E. injection E as <- <- <-. split; [exact AP|]. intros q x RD EX.
      rewrite EX. destruct x as [y hx]. f_equal. f_equal.
      destruct q; cbn [exec reads] in *; try tauto; unfold asking, mret in EX;
        try (match type of EX with (a <- ?f ;; _) = _ => destruct f; cbn [bind] in EX end); congruence.
    - unfold mbind in E. destruct (exec cmp b o h) as [[[b1 r] h1]| |] eqn:EE; try discriminate. cbn [fst snd] in E.
      destruct (run cmp b1 ops h1) as [[[b2 rs2] h2]| |] eqn:ER; try discriminate. unfold mret in E. injection E as <- <- <-.
      destruct (apart_exec cmp h b a o b1 r h1 (apart_sym _ _ _ AP) EE) as (AP1 & K1).
      destruct (IH h1 a b1 b2 rs2 h2 (apart_sym _ _ _ AP1) ER) as (AP2 & K2). split; [exact AP2|].
      intros q x RD EX. pose proof (K1 q x RD EX) as E1. specialize (K2 q _ RD E1). exact K2.
  Qed.
End Show.
