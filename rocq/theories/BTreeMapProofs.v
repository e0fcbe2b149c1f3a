(** BTreeMapProofs.v -- the slot machine without Remove is an ordered map. *)
From Verif Require Import Base BaseLemmas Effect CmpSpec VecSpec HashModel BTreeModel BTreeSpec BTreeHistory BTreeProofs.
Local Open Scope nat_scope.

Section Map.
  Context {K V : Type}.
  Variable cmp : K -> K -> ordering.
  Hypothesis lawful : total_preorder cmp.
  Implicit Types (l a b : list (K * V)) (e : K * V) (k : K) (v : V) (s : slots K V).

  (** *** Consequences of the laws *)
  Lemma cmp_refl k : cmp k k = Equal. Proof. apply lawful. Qed.
  Lemma cmp_flip (a b : K) : cmp b a = flip (cmp a b). Proof. apply lawful. Qed.
  Lemma Less_trans (a b c : K) : cmp a b = Less -> cmp b c = Less -> cmp a c = Less.
  Proof.
    intros E1 E2. assert (N : cmp a c <> Greater) by (eapply (tp_trans _ lawful); [rewrite E1|rewrite E2]; discriminate).
    destruct (cmp a c) eqn:E; try congruence.
    exfalso. assert (F : cmp c a = Equal) by (rewrite cmp_flip, E; reflexivity).
    assert (G : cmp b a <> Greater) by (eapply (tp_trans _ lawful); [rewrite E2|rewrite F]; discriminate).
    rewrite cmp_flip, E1 in G. now apply G.
  Qed.
  Lemma Equal_cmp (a b c : K) : cmp a b = Equal -> cmp a c = cmp b c.
  Proof.
    intros E. assert (E' : cmp b a = Equal) by (rewrite cmp_flip, E; reflexivity).
    destruct (cmp b c) eqn:B.
    - destruct (cmp a c) eqn:A; auto.
      + assert (cmp c b <> Greater).
        { eapply (tp_trans _ lawful); [|rewrite E; discriminate]. rewrite cmp_flip, A. discriminate. }
        rewrite cmp_flip, B in H. now destruct H.
      + exfalso. assert (cmp a c <> Greater) by (eapply (tp_trans _ lawful); [rewrite E|rewrite B]; discriminate). congruence.
    - destruct (cmp a c) eqn:A; auto.
      + exfalso. assert (cmp c a <> Greater).
        { eapply (tp_trans _ lawful); [|rewrite E'; discriminate]. rewrite cmp_flip, B. discriminate. }
        rewrite cmp_flip, A in H. now destruct H.
      + exfalso. assert (cmp a c <> Greater) by (eapply (tp_trans _ lawful); [rewrite E|rewrite B]; discriminate). congruence.
    - destruct (cmp a c) eqn:A; auto.
      + exfalso. assert (cmp b c <> Greater) by (eapply (tp_trans _ lawful); [rewrite E'|rewrite A]; discriminate). congruence.
      + exfalso. assert (cmp b c <> Greater) by (eapply (tp_trans _ lawful); [rewrite E'|rewrite A]; discriminate). congruence.
  Qed.
  Lemma Equal_cmp_r (a b c : K) : cmp a b = Equal -> cmp c a = cmp c b.
  Proof. intros E. rewrite (cmp_flip a c), (cmp_flip b c). now rewrite (Equal_cmp _ _ _ E). Qed.

  (** *** Ordered lists *)
  Lemma sorted_app a b : sorted cmp (a ++ b) <->
    sorted cmp a /\ sorted cmp b /\ (forall x y, In x a -> In y b -> cmp (fst x) (fst y) = Less).
  Proof.
    induction a as [|e a IH]; cbn [app sorted].
    - split; [|tauto]. intros H. repeat split; auto. intros x y [].
    - rewrite IH. split.
      + intros (H & A & B & C). repeat split; auto.
        * intros e' I. apply H, in_app_iff. auto.
        * intros x y [<-|I] J; [apply H, in_app_iff; auto|auto].
      + intros ((H & A) & B & C). repeat split; auto.
        * intros e' I. apply in_app_iff in I. destruct I; [auto|apply C; cbn; auto].
        * intros x y I J. apply C; cbn; auto.
  Qed.
  (** Where a key belongs. *)
  Lemma split_at k l : sorted cmp l ->
    exists a b, l = a ++ b /\ (forall x, In x a -> cmp k (fst x) = Greater) /\
      match b with
      | [] => True
      | e :: b' => cmp k (fst e) <> Greater /\ (forall x, In x b' -> cmp k (fst x) = Less)
      end.
  Proof.
    induction l as [|e l IH]; intros H.
    - exists [], []. repeat split. intros x [].
    - destruct H as (H1 & H2). destruct (cmp k (fst e)) eqn:C.
      1, 2: exists [], (e :: l); split; [reflexivity|]; split; [intros x []|]; split; [congruence|];
            intros x I; specialize (H1 _ I); first [now rewrite (Equal_cmp _ _ _ C)|eapply Less_trans; eauto].
      destruct (IH H2) as (a & b & -> & A & B). exists (e :: a), b. split; [reflexivity|]. split; [|auto].
      intros x [<-|I]; auto.
  Qed.
  Lemma get_app_greater k a b : (forall x, In x a -> cmp k (fst x) = Greater) -> get cmp k (a ++ b) = get cmp k b.
  Proof.
    induction a as [|[k0 v0] a IH]; intros H; cbn; auto.
    rewrite (H (k0, v0) (or_introl eq_refl) : cmp k k0 = _). apply IH. intros x I. apply H. cbn; auto.
  Qed.
  Lemma put_app_greater k v a b : (forall x, In x a -> cmp k (fst x) = Greater) -> put cmp k v (a ++ b) = a ++ put cmp k v b.
  Proof.
    induction a as [|[k0 v0] a IH]; intros H; cbn; auto.
    rewrite (H (k0, v0) (or_introl eq_refl) : cmp k k0 = _). f_equal. apply IH. intros x I. apply H. cbn; auto.
  Qed.
  Lemma drop_app_greater k a b : (forall x, In x a -> cmp k (fst x) = Greater) -> drop cmp k (a ++ b) = a ++ drop cmp k b.
  Proof.
    induction a as [|[k0 v0] a IH]; intros H; cbn; auto.
    rewrite (H (k0, v0) (or_introl eq_refl) : cmp k k0 = _). f_equal. apply IH. intros x I. apply H. cbn; auto.
  Qed.
  Lemma get_less k b : (forall x, In x b -> cmp k (fst x) = Less) -> get cmp k b = None.
  Proof.
    induction b as [|[k0 v0] b IH]; intros H; cbn; auto.
    rewrite (H (k0, v0) (or_introl eq_refl) : cmp k k0 = _). apply IH. intros x I. apply H. cbn; auto.
  Qed.
  Lemma seek_app_greater k a t i : (forall x, In x a -> cmp k (fst x) = Greater) ->
    seek cmp k (map Some a ++ t) i = seek cmp k t (i + length a).
  Proof.
    revert i; induction a as [|e a IH]; intros i H; cbn; [now rewrite Nat.add_0_r|].
    rewrite (H e) by (cbn; auto). rewrite IH by (intros x I; apply H; cbn; auto). f_equal. lia.
  Qed.
  Lemma place_app e a b : (forall x, In x a -> cmp (fst x) (fst e) <> Greater) -> (forall x, In x b -> cmp (fst x) (fst e) = Greater) ->
    place cmp e (a ++ b) = a ++ e :: b.
  Proof.
    intros A B. unfold place. rewrite rev_app_distr.
    assert (G : forall r, (forall x, In x r -> cmp (fst x) (fst e) = Greater) -> place_rev cmp e (r ++ rev a) = r ++ e :: rev a).
    { induction r as [|x r IH]; intros H; cbn [app place_rev].
      - destruct (rev a) as [|y ra] eqn:Er; cbn [place_rev]; auto.
        assert (In y a) by (apply in_rev; rewrite Er; cbn; auto). apply A in H0.
        destruct (cmp (fst y) (fst e)); congruence.
      - rewrite (H x) by (cbn; auto). f_equal. apply IH. intros y I. apply H. cbn; auto. }
    rewrite G by (intros x I; apply B, in_rev; auto).
    rewrite rev_app_distr. cbn [rev]. rewrite !rev_involutive, <- app_assoc. reflexivity.
  Qed.

  Definition gaps (m : nat) : list (option (K * V)) := repeat None m.
  Lemma seek_gaps k m i : seek cmp k (gaps m) i = None.
  Proof. destruct m; reflexivity. Qed.

  (** Everything about one key, by where it belongs. *)
  Lemma key_cases k v l m : sorted cmp l ->
    (exists a k0 v0 b, l = a ++ (k0, v0) :: b /\ cmp k k0 = Equal /\ seek cmp k (map Some l ++ gaps m) 0 = Some (length a) /\
       get cmp k l = Some v0 /\ put cmp k v l = a ++ (k0, v) :: b /\ drop cmp k l = a ++ b /\
       sorted cmp (a ++ (k0, v) :: b) /\ sorted cmp (a ++ b)) \/
    (exists a b, l = a ++ b /\ seek cmp k (map Some l ++ gaps m) 0 = None /\ get cmp k l = None /\ put cmp k v l = a ++ (k, v) :: b /\
       (forall x, In x a -> cmp (fst x) k = Less) /\ (forall x, In x b -> cmp k (fst x) = Less) /\
       place cmp (k, v) l = a ++ (k, v) :: b /\ sorted cmp (a ++ (k, v) :: b) /\ drop cmp k l = l).
  Proof.
    intros SO. destruct (split_at k l SO) as (a & b & -> & A & B).
    assert (SO' := SO). apply sorted_app in SO'. destruct SO' as (SA & SB & SAB).
    assert (AL : forall x, In x a -> cmp (fst x) k = Less) by (intros x I; apply (Greater_Less cmp lawful); auto).
    destruct b as [|[k0 v0] b].
    - right. exists a, []. rewrite app_nil_r in *. split; [reflexivity|].
      split; [rewrite seek_app_greater by auto; apply seek_gaps|].
      split; [rewrite <- (app_nil_r a), get_app_greater by auto; reflexivity|].
      split; [rewrite <- (app_nil_r a) at 1; rewrite put_app_greater by auto; reflexivity|].
      split; [auto|]. split; [intros x []|].
      split; [rewrite <- (app_nil_r a) at 1; apply place_app; [intros x I; cbn; rewrite AL by auto; discriminate|intros x []]|].
      split.
      + apply sorted_app. split; [auto|]. split; [cbn; split; auto; intros ? []|]. intros x y I [<-|[]]. auto.
      + rewrite <- (app_nil_r a) at 1. rewrite drop_app_greater by auto. apply app_nil_r.
    - destruct B as (B1 & B2). cbn [fst] in B1.
      destruct (cmp k k0) eqn:C; [| |congruence].
      + right. exists a, ((k0, v0) :: b). split; [reflexivity|].
        assert (BL : forall x, In x ((k0, v0) :: b) -> cmp k (fst x) = Less) by (intros x [<-|I]; auto).
        split; [rewrite map_app, <- app_assoc, seek_app_greater by auto; cbn; now rewrite C|].
        split; [rewrite get_app_greater by auto; now apply get_less|].
        split; [rewrite put_app_greater by auto; cbn; now rewrite C|].
        split; [auto|]. split; [auto|].
        split; [apply place_app; intros x I; cbn [fst]; [rewrite AL by auto; discriminate|apply (Greater_Less cmp lawful); auto]|].
        split.
        * apply sorted_app. split; [auto|]. split; [split; auto|]. intros x y I [<-|J]; auto.
        * rewrite drop_app_greater by auto. f_equal.
          assert (G : forall q : list (K * V), (forall x, In x q -> cmp k (fst x) = Less) -> drop cmp k q = q).
          { induction q as [|[k1 v1] q IHq]; intros H; cbn; auto. rewrite (H (k1, v1) (or_introl eq_refl) : cmp k k1 = _).
            f_equal. apply IHq. intros x I. apply H. cbn; auto. }
          now apply G.
      + left. exists a, k0, v0, b. split; [reflexivity|]. split; [auto|].
        split; [rewrite map_app, <- app_assoc, seek_app_greater by auto; cbn; now rewrite C|].
        split; [rewrite get_app_greater by auto; cbn; now rewrite C|].
        split; [rewrite put_app_greater by auto; cbn; now rewrite C|].
        split; [rewrite drop_app_greater by auto; cbn; now rewrite C|].
        destruct SB as (SB1 & SB2). split.
        * apply sorted_app. split; [auto|]. split; [split; auto|].
          intros x y I [<-|J]; [apply (SAB x (k0, v0)); cbn; auto|apply SAB; cbn; auto].
        * apply sorted_app. split; [auto|]. split; [auto|]. intros x y I J. apply SAB; cbn; auto.
  Qed.

  Lemma put_sorted k v l : sorted cmp l -> sorted cmp (put cmp k v l).
  Proof. intros SO. destruct (key_cases k v l 0 SO) as [(a & k0 & v0 & b & H)|(a & b & H)]; decompose [and] H; congruence. Qed.
  Lemma drop_sorted k l : V -> sorted cmp l -> sorted cmp (drop cmp k l).
  Proof. intros v SO. destruct (key_cases k v l 0 SO) as [(a & k0 & v0 & b & H)|(a & b & H)]; decompose [and] H; congruence. Qed.

  (** *** The machine and the map *)
  Definition ok s l : Prop :=
    live s = l /\ rest s = gaps (11 - length l) /\ count s = Z.of_nat (length l) /\ sorted cmp l /\ length l <= 11.
  Lemma ok_all s l : ok s l -> all_slots s = map Some l ++ gaps (11 - length l).
  Proof. intros (<- & E & _). unfold all_slots. now rewrite E. Qed.
  Lemma ok_new : ok no_slots [].
  Proof. repeat split. cbn. lia. Qed.
  Lemma somes_gaps m : somes (gaps m) = [].
  Proof. induction m; cbn; auto. Qed.

  Lemma seek_get k l m : sorted cmp l ->
    match seek cmp k (map Some l ++ gaps m) 0 with Some i => slot_value (map Some l ++ gaps m) i | None => None end = get cmp k l.
  Proof.
    intros SO. destruct l as [|e l']; [destruct m; reflexivity|]. set (l := e :: l') in *.
    destruct (key_cases k (snd e) l m SO) as [(a & k0 & v0 & b & H)|(a & b & H)]; decompose [and] H.
    - rewrite H1, H3. rewrite H0. unfold slot_value. rewrite nth_error_app1 by (rewrite map_length, app_length; cbn; lia).
      rewrite nth_error_map, nth_error_app2 by lia. rewrite Nat.sub_diag. reflexivity.
    - rewrite H2. congruence.
  Qed.

  Lemma step_map s l o : ok s l -> (forall k, o <> BRemove k) -> length (fst (map_step cmp l o)) <= 11 ->
    exists s', slot_step cmp s o = Some (s', snd (map_step cmp l o)) /\ ok s' (fst (map_step cmp l o)).
  Proof.
    intros OK NR. assert (OK' := OK). destruct OK' as (E1 & E2 & E3 & E4 & E5). rewrite <- E1 in *. clear l E1. set (l := live s) in *.
    assert (EA := ok_all _ _ OK). fold l in EA.
    assert (W : forall z, (0 <= z <= 12)%Z -> wrap64 z = z) by (intros z Hz; unfold wrap64; apply Z.mod_small; lia).
    destruct o; cbn [map_step fst snd slot_step]; intros LE; try rewrite EA.
    - destruct (key_cases k v l (11 - length l) E4) as [(a & k0 & v0 & b & H)|(a & b & H)].
      + destruct H as (EL & CE & SK & G & P & _ & SO & _). rewrite SK, G.
        eexists. split; [f_equal; f_equal; f_equal|].
        { unfold slot_value. rewrite nth_error_app1 by (rewrite map_length, EL, app_length; cbn; lia).
          rewrite nth_error_map, EL, nth_error_app2 by lia. rewrite Nat.sub_diag. reflexivity. }
        rewrite P in *. unfold revalue. fold l.
        replace (length a <? length l) with true by (symmetry; apply Nat.ltb_lt; rewrite EL, app_length; cbn; lia).
        replace (nth_error l (length a)) with (Some (k0, v0)) by (rewrite EL, nth_error_app2 by lia; rewrite Nat.sub_diag; reflexivity).
        cbn [fst]. replace (list_set l (length a) (k0, v)) with (a ++ (k0, v) :: b)
          by (rewrite EL, list_set_app2 by lia; rewrite Nat.sub_diag; reflexivity).
        assert (LL : length (a ++ (k0, v) :: b) = length l) by (rewrite EL, !app_length; reflexivity).
        unfold ok. cbn [live rest count]. rewrite LL. auto.
      + destruct H as (EL & SK & G & P & _ & _ & PL & SO & _). rewrite SK, G.
        assert (LL : length (a ++ (k, v) :: b) = S (length l)) by (rewrite EL, !app_length; cbn; lia).
        rewrite P, LL in LE. fold l.
        destruct (Nat.eqb_spec (length l) 11); [lia|].
        eexists. split; [reflexivity|]. rewrite P. unfold ok. cbn [live rest count]. rewrite PL, LL.
        split; [reflexivity|]. split.
        { rewrite E2. replace (11 - length l) with (S (11 - S (length l))) by lia. reflexivity. }
        split; [|split; [auto|lia]].
        destruct l eqn:Hl; [reflexivity|]. rewrite <- Hl in *. rewrite E3, W by lia. lia.
    - exfalso. now apply (NR k).
    - exists s. split; [|auto]. do 3 f_equal. apply seek_get; auto.
    - exists s. split; [|auto]. do 3 f_equal. pose proof (seek_get k l (11 - length l) E4) as G.
      destruct (seek _ _ _ _) as [i|] eqn:SK; rewrite <- G; auto.
      destruct (seek_slot_value _ _ _ _ SK) as (e & _ & ->). reflexivity.
    - exists s. rewrite E3. auto.
    - exists s. rewrite E3. split; [|auto]. do 3 f_equal. fold l. destruct (length l); reflexivity.
    - exists no_slots. split; [reflexivity|apply ok_new].
    - exists s. split; [|auto]. rewrite somes_app, somes_map_Some, somes_gaps, app_nil_r. reflexivity.
    - exists s. auto.
    - exists s. split; [|auto]. rewrite somes_app, somes_map_Some, somes_gaps, app_nil_r. reflexivity.
  Qed.
End Map.
