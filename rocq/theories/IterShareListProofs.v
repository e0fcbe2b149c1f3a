(** IterShareListProofs.v -- linked-list iterators and later calls on the lists. *)
From Verif Require Import Base BaseLemmas Effect VecSpec ListModel ListProofs ListIterProofs ListRunProofs.
From Verif Require Import ListHistory IterShareSpec IterShareModel.
From Verif Require ListSpec.
Import ListSpec(apart, lstep, countable).

Section Lists.
  Context {T : Type}.
  Variable eqb : T -> T -> bool.
  Variable clone : T -> T.
  Implicit Types (h : heap T) (cs ds : list (nat * T)) (css : list (list (nat * T))).

  (** Following next from p over ds arrives at q. *)
  Fixpoint chain (h : heap T) (p : option nat) ds (q : option nat) : Prop :=
    match ds with
    | [] => p = q
    | (b, x) :: r => p = Some b /\ exists n, nth_error h b = Some n /\ value n = x /\ chain h (next n) r q
    end.
  Lemma chain_same : forall h h' ds p q, chain h p ds q -> (forall b, In b (addrs ds) -> nth_error h' b = nth_error h b) -> chain h' p ds q.
  Proof.
    induction ds as [|[b x] ds IH]; intros p q C S; cbn [chain addrs map fst] in *; auto.
    destruct C as (E & n & N & V & C). split; [auto|]. exists n. rewrite S by now left. split; [auto|]. split; [auto|].
    apply IH; auto. intros c Hc. apply S. now right.
  Qed.
  Lemma chain_app : forall h ds es p q r, chain h p ds q -> chain h q es r -> chain h p (ds ++ es) r.
  Proof.
    induction ds as [|[b x] ds IH]; intros es p q r C C'; cbn [chain app] in *; [now subst|].
    destruct C as (E & n & N & V & C). split; [auto|]. exists n. eauto.
  Qed.
  Lemma dll_chain : forall h ds p q, dll h p ds q -> chain h (first_or ds q) ds q.
  Proof.
    induction ds as [|[b x] ds IH]; intros p q D; cbn [dll chain first_or] in *; auto. destruct D as [D1 D2].
    split; [auto|]. eexists. split; [exact D1|]. split; [reflexivity|]. cbn [next]. eauto.
  Qed.

  Definition addr_at css (v k : nat) : option nat :=
    match nth_error css v with Some cs => option_map fst (nth_error cs k) | None => None end.
  Definition loose (h : heap T) css ds : Prop :=
    forall b, In b (addrs ds) -> (b < length h)%nat /\ forall i cs, nth_error css i = Some cs -> ~ In b (addrs cs).
  (** What an iterator points to. *)
  Definition rests (h : heap T) css (it : LinkedListIter) (r : lrest) : Prop :=
    exists ds, vals ds = fst r /\ loose h css ds /\
      match snd r with
      | None => chain h (pointer it) ds None
      | Some (v, k) => exists q, addr_at css v k = Some q /\ chain h (pointer it) ds (Some q)
      end.

  (** The lists' nodes from one call to the next. *)
  Lemma shape_old : forall n css o css' b, shape n css o css' ->
    (forall i cs, nth_error css i = Some cs -> ~ In b (addrs cs)) -> b < n ->
    forall i cs, nth_error css' i = Some cs -> ~ In b (addrs cs).
  Proof.
    intros n css o css' b Sh Old Lt i ds Hi Hb.
    assert (Set1 : forall v cs cs', nth_error css v = Some cs -> (forall c, In c (addrs cs') -> In c (addrs cs) \/ n <= c) ->
              css' = list_set css v cs' -> False).
    { intros v cs cs' Hv Sub ->. destruct (Nat.eq_dec v i) as [<-|N].
      - rewrite (nth_set_eq _ _ _ _ _ Hv) in Hi. injection Hi as <-. destruct (Sub b Hb) as [I|I]; [|lia]. exact (Old v cs Hv I).
      - rewrite nth_error_list_set_neq in Hi by auto. exact (Old i ds Hi Hb). }
    assert (Add : forall cs', (forall c, In c (addrs cs') -> n <= c) -> css' = css ++ [cs'] -> False).
    { intros cs' Sub ->. destruct (Nat.lt_ge_cases i (length css)) as [L|L].
      - rewrite nth_error_app1 in Hi by auto. exact (Old i ds Hi Hb).
      - rewrite nth_error_app2 in Hi by auto. destruct (i - length css) as [|j]; [injection Hi as <-; specialize (Sub b Hb); lia|destruct j; discriminate]. }
    assert (Same : css' = css -> False) by (intros ->; exact (Old i ds Hi Hb)).
    destruct o; cbn [shape] in Sh; try (now apply Same).
    - apply (Add []); [intros c []|exact Sh].
    - destruct Sh as (cs & Hv & E). eapply Set1; [exact Hv| |exact E]. intros c [<-|Hc]; [right; auto|now left].
    - destruct Sh as (cs & Hv & E). eapply Set1; [exact Hv| |exact E]. intros c Hc. rewrite addrs_app, in_app_iff in Hc.
      destruct Hc as [Hc|[<-|[]]]; [now left|right; auto].
    - destruct Sh as (cs & Hv & E). eapply Set1; [exact Hv| |exact E]. intros c Hc. left. destruct cs as [|e cs]; [destruct Hc|now right].
    - destruct Sh as (cs & Hv & E). eapply Set1; [exact Hv| |exact E]. intros c Hc. left.
      destruct cs as [|e cs _] using rev_ind; [destruct Hc|]. rewrite removelast_last in Hc. rewrite addrs_app, in_app_iff. now left.
    - destruct Sh as (b' & y & cs & Hv & E). eapply Set1; [exact Hv| |exact E]. intros c Hc. now left.
    - destruct Sh as (b' & y & cs & Hv & E). eapply Set1; [exact Hv| |exact E]. intros c Hc. left. rewrite addrs_app in *. exact Hc.
    - destruct Sh as (cs & Hv & E). eapply Set1; [exact Hv| |exact E]. intros c [].
    - destruct Sh as (cs & es & N & Hv & Hu & ->). destruct (Nat.eq_dec w i) as [<-|Nu].
      + erewrite nth_set_eq in Hi; [injection Hi as <-; destruct Hb|]. rewrite nth_error_list_set_neq by auto. exact Hu.
      + rewrite nth_error_list_set_neq in Hi by auto. destruct (Nat.eq_dec v i) as [<-|Nv].
        * rewrite (nth_set_eq _ _ _ _ _ Hv) in Hi. injection Hi as <-. rewrite addrs_app, in_app_iff in Hb.
          destruct Hb as [Hb|Hb]; [exact (Old v cs Hv Hb)|exact (Old w es Hu Hb)].
        * rewrite nth_error_list_set_neq in Hi by auto. exact (Old i ds Hi Hb).
    - destruct Sh as (es & E & Fr). apply (Add es); auto.
  Qed.

  Lemma owns_bound : forall w css i cs b, owns w css -> nth_error css i = Some cs -> In b (addrs cs) -> b < length (cells w).
  Proof.
    intros w css i cs b O Hi Hb. destruct (owns_var _ _ _ _ O Hi) as (l & Hl & Ol). eapply own_bound; eauto.
  Qed.
  Lemma nth_vals_eq : forall css v cs, nth_error css v = Some cs -> nth v (map vals css) [] = vals cs.
  Proof. intros css v cs H. apply nth_error_nth. rewrite nth_error_map, H. reflexivity. Qed.

  (** The end of a list, as a chain. *)
  Lemma tail_chain : forall w css v cs k, owns w css -> nth_error css v = Some cs ->
    chain (cells w) (option_map fst (nth_error cs k)) (skipn k cs) None.
  Proof.
    intros w css v cs k O Hv. destruct (owns_var _ _ _ _ O Hv) as (l & Hl & (D & _)).
    rewrite <- (firstn_skipn k cs) in D. apply dll_app in D. destruct D as [_ D]. apply dll_chain in D.
    replace (option_map fst (nth_error cs k)) with (first_or (skipn k cs) None); [exact D|].
    clear. revert k. induction cs as [|[b x] cs IH]; intros [|k]; cbn [skipn first_or nth_error option_map]; auto.
  Qed.

  Lemma rests_step : forall w css o w' css' a s' it r, owns w css -> owns w' css' -> lstep eqb clone (map vals css) o s' a ->
    shape (length (cells w)) css o css' -> quiet (cells w) (cells w') css' ->
    rests (cells w) css it r -> rests (cells w') css' it (lmoved (map vals css) o r).
  Proof.
    intros w css o w' css' a s' it [pre pl] O O' St Sh (Lh & Qt) (ds & V & Lo & C). cbn [fst snd] in *.
    (* the nodes off the lists *)
    assert (Lo' : loose (cells w') css' ds).
    { intros b Hb. destruct (Lo b Hb) as [L N]. split; [lia|]. eapply shape_old; eauto. }
    assert (Ch : forall q, chain (cells w) (pointer it) ds q -> chain (cells w') (pointer it) ds q).
    { intros q Cq. eapply chain_same; eauto. intros b Hb. destruct (Lo b Hb) as [L N]. apply Qt; [auto|]. apply Lo'. exact Hb. }
    destruct pl as [[u k]|].
    2:{ exists ds. cbn [lmoved fst snd]. auto. }
    destruct C as (q & Aq & C).
    assert (Stay : forall u' k', addr_at css' u' k' = Some q -> rests (cells w') css' it (pre, Some (u', k'))).
    { intros u' k' A'. exists ds. cbn [fst snd]. split; [auto|]. split; [auto|]. exists q. auto. }
    (* leaving the lists *)
    assert (Off : forall es r', (forall b, In b (addrs es) -> b < length (cells w) /\ forall i cs, nth_error css' i = Some cs -> ~ In b (addrs cs)) ->
              chain (cells w) (Some q) es r' ->
              exists ds', vals ds' = pre ++ vals es /\ loose (cells w') css' ds' /\ chain (cells w') (pointer it) ds' r').
    { intros es r' Le Ce. exists (ds ++ es). split; [unfold vals in *; rewrite map_app; now rewrite V|]. split.
      - intros b Hb. rewrite addrs_app, in_app_iff in Hb. destruct Hb as [Hb|Hb]; [now apply Lo'|]. destruct (Le b Hb). split; [lia|auto].
      - eapply chain_app; [apply Ch; exact C|]. eapply chain_same; [exact Ce|]. intros b Hb. destruct (Le b Hb). apply Qt; auto. }
    unfold addr_at in Aq. destruct (nth_error css u) as [cs|] eqn:Hu; [|discriminate].
    destruct (nth_error cs k) as [[q' xq]|] eqn:Hk; [|discriminate]. cbn [option_map fst] in Aq. injection Aq as ->.
    assert (Kl : k < length cs) by (apply nth_error_Some; congruence).
    assert (Vu : nth u (map vals css) [] = vals cs) by now apply nth_vals_eq.
    assert (Lu : length (vals cs) = length cs) by apply vals_length.
    assert (Other : forall v cs' X, css' = list_set X v cs' -> v <> u -> nth_error X u = nth_error css u -> addr_at css' u k = Some q).
    { intros v cs' X -> N HX. unfold addr_at. rewrite nth_error_list_set_neq by auto. rewrite HX, Hu, Hk. reflexivity. }
    assert (ND : NoDup (addrs cs)).
    { destruct (owns_var _ _ _ _ O Hu) as (l & Hl & (_ & _ & _ & _ & ND)). exact ND. }
    assert (Apart : forall i es b, i <> u -> nth_error css i = Some es -> In b (addrs cs) -> ~ In b (addrs es)).
    { intros i es b Ni Hi Hb Ib. destruct O as (_ & _ & P). apply (P u i cs es ltac:(auto) Hu Hi b Hb Ib). }
    cbn [lmoved snd fst]. rewrite Vu, Lu.
    destruct o; cbn [shape] in Sh.
    - apply Stay. subst css'. unfold addr_at. rewrite nth_error_app1 by (apply nth_error_Some; congruence). rewrite Hu, Hk. reflexivity.
    - (* PushFront *) destruct Sh as (cs0 & Hv & E). destruct (Nat.eqb_spec v u) as [->|N]; [|apply Stay; eapply Other; [exact E|exact N|reflexivity]].
      rewrite Hu in Hv. injection Hv as <-. apply Stay. subst css'. unfold addr_at. rewrite (nth_set_eq _ _ _ _ _ Hu). cbn [nth_error]. now rewrite Hk.
    - (* PushBack *) destruct Sh as (cs0 & Hv & E). apply Stay. destruct (Nat.eq_dec v u) as [->|N]; [|eapply Other; [exact E|exact N|reflexivity]].
      rewrite Hu in Hv. injection Hv as <-. subst css'. unfold addr_at. rewrite (nth_set_eq _ _ _ _ _ Hu). rewrite nth_error_app1 by auto. now rewrite Hk.
    - (* PopFront *) destruct Sh as (cs0 & Hv & E). destruct (Nat.eqb_spec v u) as [->|N]; [|apply Stay; eapply Other; [exact E|exact N|reflexivity]].
      rewrite Hu in Hv. injection Hv as <-. destruct cs as [|[t y] cs]; [destruct k; discriminate|]. cbn [tl] in E. destruct k as [|k].
      2:{ apply Stay. subst css'. unfold addr_at. rewrite (nth_set_eq _ _ _ _ _ Hu). cbn [nth_error] in Hk. now rewrite Hk. }
      cbn [nth_error] in Hk. injection Hk as -> ->. cbn [vals map snd firstn length] in *.
      pose proof (tail_chain _ _ _ _ 0 O Hu) as TC. cbn [skipn nth_error option_map fst chain] in TC.
      destruct TC as (_ & n & Nq & Vq & TC).
      assert (Nx : next n = first_or cs None).
      { destruct cs as [|[c z] cs]; cbn [chain first_or] in *; [auto|]. now destruct TC. }
      inversion ND as [|? ? Nin ND']; subst.
      destruct (Off [(q, value n)] (first_or cs None)) as (ds' & V' & Lo2 & C2).
      { intros b [<-|[]]. split; [eapply owns_bound; eauto; now left|]. intros i es Hi Hb.
        destruct (Nat.eq_dec u i) as [<-|N].
        - rewrite (nth_set_eq _ _ _ _ _ Hu) in Hi. injection Hi as <-. contradiction.
        - rewrite nth_error_list_set_neq in Hi by auto. apply (Apart i es q); auto. now left. }
      { cbn [chain]. split; [reflexivity|]. exists n. auto. }
      exists ds'. cbn [fst snd]. split; [exact V'|]. split; [exact Lo2|].
      destruct cs as [|[c z] cs]; cbn [length Nat.ltb Nat.leb first_or] in *; [exact C2|].
      exists c. split; [|exact C2]. unfold addr_at. rewrite (nth_set_eq _ _ _ _ _ Hu). reflexivity.
    - (* PopBack *) destruct Sh as (cs0 & Hv & E). destruct (Nat.eqb_spec v u) as [->|N]; cbn [andb]; [|apply Stay; eapply Other; [exact E|exact N|reflexivity]].
      rewrite Hu in Hv. injection Hv as <-. destruct cs as [|e cs _] using rev_ind; [destruct k; discriminate|].
      rewrite removelast_last in E. rewrite app_length in *. cbn [length] in *.
      destruct (Nat.eqb_spec (S k) (length cs + 1)) as [K|K].
      + assert (k = length cs) as -> by lia. rewrite nth_error_app2, Nat.sub_diag in Hk by lia. injection Hk as ->.
        pose proof (tail_chain _ _ _ _ (length cs) O Hu) as TC. rewrite nth_error_app2, Nat.sub_diag in TC by lia. cbn [nth_error option_map fst] in TC.
        destruct (fun H => Off _ _ H TC) as (ds' & V' & Lo2 & C2).
        { intros b Hb. rewrite skipn_app, skipn_all, Nat.sub_diag in Hb. cbn [app skipn] in Hb. destruct Hb as [<-|[]]. cbn [fst].
          split; [eapply owns_bound; eauto; rewrite addrs_app, in_app_iff; right; now left|]. intros i es Hi Hb.
          rewrite addrs_app in ND. apply NoDup_snoc_inv in ND. destruct ND as [_ Nin]. subst css'.
          destruct (Nat.eq_dec u i) as [<-|N].
          - rewrite (nth_set_eq _ _ _ _ _ Hu) in Hi. injection Hi as <-. contradiction.
          - rewrite nth_error_list_set_neq in Hi by auto. apply (Apart i es q); auto. rewrite addrs_app, in_app_iff. right. now left. }
        exists ds'. cbn [fst snd]. split; [|auto]. rewrite V'. unfold vals. now rewrite skipn_map.
      + apply Stay. subst css'. unfold addr_at. rewrite (nth_set_eq _ _ _ _ _ Hu). rewrite nth_error_app1 in Hk by lia. now rewrite Hk.
    - apply Stay. subst css'. unfold addr_at. now rewrite Hu, Hk.
    - apply Stay. subst css'. unfold addr_at. now rewrite Hu, Hk.
    - (* WriteFront *) destruct Sh as (b & y & cs0 & Hv & E). apply Stay. destruct (Nat.eq_dec v u) as [->|N]; [|eapply Other; [exact E|exact N|reflexivity]].
      rewrite Hu in Hv. injection Hv as ->. subst css'. unfold addr_at. rewrite (nth_set_eq _ _ _ _ _ Hu).
      destruct k; cbn [nth_error] in *; [now injection Hk as -> _|now rewrite Hk].
    - (* WriteBack *) destruct Sh as (b & y & cs0 & Hv & E). apply Stay. destruct (Nat.eq_dec v u) as [->|N]; [|eapply Other; [exact E|exact N|reflexivity]].
      rewrite Hu in Hv. injection Hv as ->. subst css'. unfold addr_at. rewrite (nth_set_eq _ _ _ _ _ Hu).
      rewrite app_length in Kl. cbn [length] in Kl. destruct (Nat.lt_ge_cases k (length cs0)) as [L|L].
      + rewrite nth_error_app1 in * by auto. now rewrite Hk.
      + rewrite nth_error_app2 in * by auto. replace (k - length cs0) with 0 in * by lia. cbn [nth_error] in *. now injection Hk as -> _.
    - (* Clear *) destruct Sh as (cs0 & Hv & E). destruct (Nat.eqb_spec v u) as [->|N]; [|apply Stay; eapply Other; [exact E|exact N|reflexivity]].
      pose proof (tail_chain _ _ _ _ k O Hu) as TC. rewrite Hk in TC. cbn [option_map fst] in TC.
      destruct (fun H => Off _ _ H TC) as (ds' & V' & Lo2 & C2).
      { intros b Hb. assert (Hb' : In b (addrs cs)) by (rewrite <- (firstn_skipn k cs), addrs_app, in_app_iff; now right).
        split; [eapply owns_bound; eauto|]. intros i es Hi Ib. subst css'. destruct (Nat.eq_dec u i) as [<-|N].
        - rewrite (nth_set_eq _ _ _ _ _ Hu) in Hi. injection Hi as <-. destruct Ib.
        - rewrite nth_error_list_set_neq in Hi by auto. apply (Apart i es b); auto. }
      exists ds'. cbn [fst snd]. split; [|auto]. rewrite V'. unfold vals. now rewrite skipn_map.
    - apply Stay. subst css'. unfold addr_at. now rewrite Hu, Hk.
    - apply Stay. subst css'. unfold addr_at. now rewrite Hu, Hk.
    - (* Append *) destruct Sh as (cs0 & es & N & Hv & Hw & E). destruct (Nat.eqb_spec w0 u) as [->|Nu].
      + rewrite Hu in Hw. injection Hw as <-. apply Stay. subst css'. unfold addr_at. rewrite nth_error_list_set_neq by auto.
        rewrite (nth_set_eq _ _ _ _ _ Hv). rewrite (nth_vals_eq _ _ _ Hv), vals_length. rewrite nth_error_app2 by lia.
        replace (length cs0 + k - length cs0) with k by lia. now rewrite Hk.
      + apply Stay. destruct (Nat.eq_dec v u) as [->|Nv].
        * rewrite Hu in Hv. injection Hv as <-. subst css'. unfold addr_at. rewrite nth_error_list_set_neq by auto.
          rewrite (nth_set_eq _ _ _ _ _ Hu). rewrite nth_error_app1 by auto. now rewrite Hk.
        * eapply Other; [exact E|exact Nu|]. now rewrite nth_error_list_set_neq.
    - (* Clone *) destruct Sh as (es & -> & _). apply Stay. unfold addr_at. rewrite nth_error_app1 by (apply nth_error_Some; congruence). now rewrite Hu, Hk.
    - apply Stay. subst css'. unfold addr_at. now rewrite Hu, Hk.
    - apply Stay. subst css'. unfold addr_at. now rewrite Hu, Hk.
  Qed.

  Lemma rests_next : forall w css it r, owns w css -> rests (cells w) css it r ->
    exists it', Next it (cells w) = Ret (it', fst (lgiven (map vals css) r), cells w) /\
      rests (cells w) css it' (snd (lgiven (map vals css) r)).
  Proof.
    intros w css it [pre pl] O (ds & V & Lo & C). cbn [fst snd] in *. destruct ds as [|[b x] ds].
    - cbn [vals map] in V. subst pre. destruct pl as [[v k]|]; cbn [chain lgiven fst snd] in *.
      + destruct C as (q & Aq & C). unfold addr_at in Aq. destruct (nth_error css v) as [cs|] eqn:Hv; [|discriminate].
        destruct (nth_error cs k) as [[q' x]|] eqn:Hk; [|discriminate]. cbn in Aq. injection Aq as ->.
        rewrite (nth_vals_eq _ _ _ Hv), vals_length. unfold vals at 1. rewrite nth_error_map, Hk. cbn [option_map snd].
        pose proof (tail_chain _ _ _ _ k O Hv) as TC. rewrite Hk in TC. cbn [option_map fst] in TC.
        assert (Sk : skipn k cs = (q, x) :: skipn (S k) cs).
        { clear - Hk. revert k Hk. induction cs as [|e cs IH]; intros [|k] Hk; cbn [nth_error skipn] in *; try discriminate; [now injection Hk as ->|].
          rewrite (IH k Hk). reflexivity. }
        rewrite Sk in TC. cbn [chain] in TC. destruct TC as (_ & n & Nq & Vq & TC).
        unfold Next. rewrite C. rewrite (mb_Ret _ _ _ _ _ _ _ _ (load_spec _ _ _ Nq)). unfold mret. rewrite Vq. eexists. split; [reflexivity|].
        exists []. split; [reflexivity|]. split; [intros b []|]. cbn [snd fst pointer chain].
        destruct (Nat.ltb_spec (S k) (length cs)) as [L|L].
        * destruct (nth_error cs (S k)) as [[q2 x2]|] eqn:Hk2; [|apply nth_error_None in Hk2; lia].
          exists q2. split; [unfold addr_at; now rewrite Hv, Hk2|].
          pose proof (tail_chain _ _ _ _ (S k) O Hv) as TC2. rewrite Hk2 in TC2. cbn [option_map fst] in TC2.
          assert (Sk2 : exists e r, skipn (S k) cs = e :: r /\ fst e = q2).
          { clear - Hk2. generalize dependent (S k). clear k. intros k Hk2. revert k Hk2.
            induction cs as [|e cs IH]; intros [|k] Hk; cbn [nth_error skipn] in *; try discriminate; [injection Hk as ->; eauto|]. apply IH. exact Hk. }
          destruct Sk2 as ([e1 e2] & r & E & F). cbn [fst] in F. subst e1. rewrite E in TC. cbn [chain] in TC. now destruct TC.
        * rewrite skipn_all2 in TC by lia. exact TC.
      + unfold Next. rewrite C. eexists. split; [reflexivity|]. exists []. split; [reflexivity|]. split; [intros b []|]. exact C.
    - cbn [vals map snd] in V. subst pre. cbn [lgiven fst snd].
      assert (Hd : forall q, chain (cells w) (pointer it) ((b, x) :: ds) q -> exists n, nth_error (cells w) b = Some n /\ value n = x /\ pointer it = Some b /\
                chain (cells w) (next n) ds q).
      { intros q (E & n & N & Vn & Cn). exists n. auto. }
      assert (Lo' : loose (cells w) css ds) by (intros c Hc; apply Lo; now right).
      destruct pl as [[v k]|].
      + destruct C as (q & Aq & C). destruct (Hd _ C) as (n & N & Vn & E & Cn). unfold Next. rewrite E.
        rewrite (mb_Ret _ _ _ _ _ _ _ _ (load_spec _ _ _ N)). unfold mret. rewrite Vn. eexists. split; [reflexivity|].
        exists ds. split; [reflexivity|]. split; [auto|]. exists q. auto.
      + destruct (Hd _ C) as (n & N & Vn & E & Cn). unfold Next. rewrite E.
        rewrite (mb_Ret _ _ _ _ _ _ _ _ (load_spec _ _ _ N)). unfold mret. rewrite Vn. eexists. split; [reflexivity|].
        exists ds. split; [reflexivity|]. split; auto.
  Qed.
  Lemma rests_iter : forall w css v cs l, owns w css -> nth_error css v = Some cs -> nth_error (vars w) v = Some l ->
    rests (cells w) css (IntoIter l) ([], match vals cs with [] => None | _ => Some (v, 0) end).
  Proof.
    intros w css v cs l O Hv Hl. destruct O as (_ & O & _). destruct (O v l cs Hl Hv) as (_ & Hd & _).
    exists []. split; [reflexivity|]. split; [intros b []|]. cbn [snd IntoIter pointer chain]. rewrite Hd.
    destruct cs as [|[b x] cs]; cbn [vals map first_or]; [reflexivity|]. exists b. split; [|reflexivity]. unfold addr_at. now rewrite Hv.
  Qed.

  Lemma Forall2_next : forall A B (P : A -> B -> Prop) la lb k b, Forall2 P la lb -> nth_error lb k = Some b ->
    exists a, nth_error la k = Some a /\ P a b /\ (forall a' b', P a' b' -> Forall2 P (list_set la k a') (list_set lb k b')).
  Proof.
    intros A B P la lb k b H. revert k b. induction H as [|a0 b0 la lb Q H IH]; intros k b N; [destruct k; discriminate|].
    destruct k as [|k]; cbn [nth_error] in N.
    - injection N as <-. exists a0. split; [reflexivity|]. split; [auto|]. intros a' b' Q'. constructor; auto.
    - destruct (IH k b N) as (a1 & N1 & Q1 & F). exists a1. split; [auto|]. split; [auto|].
      intros a' b' Q'. cbn [list_set]. constructor; auto.
  Qed.
  Lemma Forall2_map2 : forall A B (P Q : A -> B -> Prop) (g : B -> B) la lb, (forall a b, P a b -> Q a (g b)) ->
    Forall2 P la lb -> Forall2 Q la (map g lb).
  Proof. intros A B P Q g la lb H F. induction F; cbn [map]; constructor; auto. Qed.

  Lemma live_run : forall s rs prog ans, llive eqb clone s rs prog ans -> forall w css its, owns w css -> s = map vals css -> countable s ->
    Forall2 (rests (cells w) css) its rs -> exists st, lirun eqb clone (w, its) prog = Ret (st, ans).
  Proof.
    induction 1 as [s rs|s rs o s' a r ans St Cn Id IH|s rs v l r ans N Id IH|s rs k e r ans N Id IH];
      intros w css its O E C F; cbn [lirun liexec].
    - eauto.
    - subst s. destruct (exec_shape eqb clone _ _ _ _ _ O C St Cn) as (w' & css' & Ex & O' & V & Sh & Qt). rewrite Ex. cbn [bind fst snd].
      destruct (IH w' css' its O' V Cn) as (st & Er).
      + eapply Forall2_map2; [|exact F]. intros it rr R. eapply rests_step; eauto.
      + rewrite Er. cbn [bind fst snd]. eauto.
    - subst s. apply nth_vals in N as (cs & Hcs & <-). destruct (owns_var _ _ _ _ O Hcs) as (l & Hl & Ol).
      unfold idx. rewrite Hl. cbn [of_option bind fst snd].
      destruct (IH w css (its ++ [IntoIter l]) O eq_refl C) as (st & Er).
      + apply Forall2_app; [auto|]. constructor; [|constructor]. eapply rests_iter; eauto.
      + rewrite Er. cbn [bind fst snd]. eauto.
    - subst s. destruct (Forall2_next _ _ _ _ _ _ _ F N) as (it & N2 & R & Up). rewrite N2. cbn [of_option bind].
      destruct (rests_next _ _ _ _ O R) as (it' & En & R'). rewrite En. cbn [bind fst snd].
      replace (mkWorld (cells w) (vars w)) with w by now destruct w.
      destruct (IH w css (list_set its k it') O eq_refl C) as (st & Er); [now apply Up|].
      rewrite Er. cbn [bind fst snd]. eauto.
  Qed.

  (** *** Calls at the front only *)
  Definition ahead (w : list (list T)) (r : @lrest T) : list T :=
    fst r ++ match snd r with Some (v, k) => skipn k (nth v w []) | None => [] end.
  Definition sound (w : list (list T)) (r : @lrest T) : Prop :=
    match snd r with Some (v, k) => v < length w /\ k < length (nth v w []) | None => True end.
  Lemma nth_list_set : forall (w : list (list T)) v u l, v < length w ->
    nth u (list_set w v l) [] = if v =? u then l else nth u w [].
  Proof.
    induction w as [|x w IH]; intros [|v] [|u] l H; cbn [length list_set nth Nat.eqb] in *; try lia; auto. apply IH. lia.
  Qed.

  Lemma nth_of : forall (w : list (list T)) v l, nth_error w v = Some l -> nth v w [] = l /\ v < length w.
  Proof. intros w v l H. split; [now apply nth_error_nth|apply nth_error_Some; congruence]. Qed.
  Lemma skipn_1 : forall (l : list T) k x, nth_error l k = Some x -> skipn k l = x :: skipn (S k) l.
  Proof.
    induction l as [|y l IH]; intros [|k] x H; cbn [nth_error skipn] in *; try discriminate; [now injection H as ->|].
    rewrite (IH k x H). reflexivity.
  Qed.
  Lemma ahead_step : forall w o w' a r, lstep eqb clone w o w' a -> frontal o = true -> sound w r ->
    sound w' (lmoved w o r) /\ ahead w' (lmoved w o r) = ahead w r.
  Proof.
    intros w o w' a [pre pl] St Fr So. destruct pl as [[u k]|]; [|split; [exact I|reflexivity]].
    unfold sound, ahead, lmoved in *. cbn [snd fst] in *. destruct So as [Lu Lk].
    inversion St as [w0|w0 v x l N|w0 v x l N|w0 v N|w0 v x l N|w0 v N|w0 v x l N|w0 v l N|w0 v l N|w0 v x y l N|w0 v x y l N
      |w0 v l N|w0 v l N|w0 v l N|w0 v u' l k' D N N'|w0 v l N|w0 v u' l k' N N'|w0 v l N]; subst; cbn [frontal] in Fr; try discriminate;
      cbn [snd fst]; try (apply nth_of in N as [N Lv]); auto.
    - rewrite app_length, app_nth1 by auto. split; [lia|auto].
    - destruct (Nat.eqb_spec v u) as [->|D]; cbn [snd fst]; rewrite list_set_length, nth_list_set by auto.
      + rewrite Nat.eqb_refl. cbn [length skipn]. rewrite N in *. split; [lia|auto].
      + apply Nat.eqb_neq in D. rewrite D. auto.
    - destruct (Nat.eqb_spec v u) as [->|D]; cbn [snd fst]; auto. rewrite N in Lk. cbn [length] in Lk. lia.
    - destruct (Nat.eqb_spec v u) as [->|D].
      + rewrite N in *. cbn [length firstn] in *. destruct k as [|k]; cbn [snd fst].
        * destruct l as [|y l]; cbn [length Nat.ltb Nat.leb firstn skipn]; [split; [exact I|now rewrite app_nil_r]|].
          rewrite list_set_length, nth_list_set, Nat.eqb_refl by auto. cbn [length skipn]. rewrite <- app_assoc. split; [lia|reflexivity].
        * rewrite list_set_length, nth_list_set, Nat.eqb_refl by auto. cbn [skipn]. split; [lia|auto].
      + cbn [snd fst]. rewrite list_set_length, nth_list_set by auto. apply Nat.eqb_neq in D. rewrite D. auto.
    - destruct (Nat.eqb_spec v u) as [->|D]; cbn [snd fst]; [split; [exact I|now rewrite app_nil_r]|].
      rewrite list_set_length, nth_list_set by auto. apply Nat.eqb_neq in D. rewrite D. auto.
    - rewrite app_length, app_nth1 by auto. split; [lia|auto].
  Qed.
  Lemma ahead_next : forall w r, sound w r -> hd_error (ahead w r) = fst (lgiven w r) /\
    sound w (snd (lgiven w r)) /\ ahead w (snd (lgiven w r)) = tl (ahead w r).
  Proof.
    intros w [[|x pre] [[u k]|]] So; unfold ahead, sound, lgiven in *; cbn [fst snd app hd_error tl] in *; auto.
    destruct So as [Lu Lk]. destruct (nth_error (nth u w []) k) as [x|] eqn:E; [|apply nth_error_None in E; lia].
    rewrite (skipn_1 _ _ _ E). cbn [hd_error tl]. split; [reflexivity|]. destruct (Nat.ltb_spec (S k) (length (nth u w []))); [auto|].
    split; [exact I|]. rewrite skipn_all2 by lia. reflexivity.
  Qed.
  Lemma calm_live : forall w snaps prog ans, lideal eqb clone w snaps prog ans -> forall watched rs, lcalm watched prog = true ->
    (watched = false -> rs = []) -> Forall2 (fun e r => sound w r /\ ahead w r = e) snaps rs -> llive eqb clone w rs prog ans.
  Proof.
    induction 1 as [s snaps|s snaps o s' a r ans St Cn Id IH|s snaps v l r ans N Id IH|s snaps k e r ans N Id IH];
      intros watched rs C W F; cbn [lcalm] in C.
    - constructor.
    - apply andb_prop in C as [C1 C2]. econstructor; eauto. apply (IH watched); auto.
      + intros ->. rewrite W by auto. reflexivity.
      + destruct watched; cbn [negb orb] in C1; [|rewrite W in * by auto; inversion F; subst; constructor].
        eapply Forall2_map2; [|exact F]. intros e rr [So <-]. now apply (ahead_step s o s' a).
    - econstructor; eauto. apply (IH true); auto; [discriminate|]. apply Forall2_app; auto. constructor; [|constructor].
      apply nth_of in N as [N L]. destruct l as [|x l]; unfold sound, ahead; cbn [fst snd app]; auto. rewrite N. cbn [skipn length]. split; [lia|auto].
    - assert (F' : Forall2 (fun r e => sound s r /\ ahead s r = e) rs snaps) by (clear - F; induction F; constructor; auto).
      destruct (Forall2_next _ _ _ _ _ _ _ F' N) as (rr & N2 & [So A] & Up). subst e.
      destruct (ahead_next s rr So) as (E1 & E2 & E3). rewrite E1. econstructor; eauto. apply (IH watched); auto.
      + intros Wf. rewrite (W Wf) in N2. destruct k; discriminate.
      + specialize (Up (snd (lgiven s rr)) (tl (ahead s rr)) (conj E2 E3)). clear - Up. induction Up; constructor; auto.
  Qed.
  Lemma calm_run : forall prog ans, lideal eqb clone [] [] prog ans -> lcalm false prog = true ->
    exists st, lirun eqb clone (start, []) prog = Ret (st, ans).
  Proof.
    intros prog ans Id C. eapply (live_run [] []); [eapply calm_live; eauto; constructor|apply owns_start|reflexivity|constructor|constructor].
  Qed.

  (** *** Adding at the back while iterating *)
  Lemma endless_live : forall y n k l, S k < length l -> (Z.of_nat (length l + n) < 2 ^ 64)%Z ->
    llive eqb clone [l] [([], Some (0, k))] (concat (repeat [LNext 0; LOp (ListSpec.PushBack 0 y)] n))
      (concat (map (fun x => [ListSpec.Value (Some x); ListSpec.Done]) (firstn n (skipn k (l ++ repeat y n))))).
  Proof.
    induction n as [|n IH]; intros k l L B; cbn [repeat concat map firstn app]; [constructor|].
    destruct (nth_error l k) as [x|] eqn:E; [|apply nth_error_None in E; lia].
    rewrite (skipn_1 _ k x) by (rewrite nth_error_app1; auto; lia). cbn [firstn map concat app].
    replace (Some x) with (fst (lgiven [l] ([], Some (0, k)))) by exact E.
    eapply ll_next with (e := ([], Some (0, k))); [reflexivity|]. cbn [lgiven snd nth]. destruct (Nat.ltb_spec (S k) (length l)) as [_|?]; [|lia].
    cbn [list_set]. eapply ll_op with (w' := [l ++ [y]]).
    - apply (ListSpec.l_push_back eqb clone [l] 0 y l eq_refl).
    - constructor; [|constructor]. rewrite app_length. cbn [length]. lia.
    - cbn [map lmoved snd fst]. specialize (IH (S k) (l ++ [y])). rewrite <- app_assoc in IH. cbn [app] in IH.
      apply IH; rewrite app_length; cbn [length]; lia.
  Qed.
  Lemma pushes_live : forall xs l rs prog ans, (Z.of_nat (length l + length xs) < 2 ^ 64)%Z -> rs = [] ->
    llive eqb clone [l ++ xs] rs prog ans ->
    llive eqb clone [l] rs (map (fun x => LOp (ListSpec.PushBack 0 x)) xs ++ prog) (repeat ListSpec.Done (length xs) ++ ans).
  Proof.
    induction xs as [|x xs IH]; intros l rs prog ans B E L; cbn [map app length repeat] in *; [now rewrite app_nil_r in L|].
    subst rs. eapply ll_op with (w' := [l ++ [x]]).
    - apply (ListSpec.l_push_back eqb clone [l] 0 x l eq_refl).
    - constructor; [|constructor]. rewrite app_length. cbn [length]. lia.
    - apply IH; [rewrite app_length; cbn [length]; lia|reflexivity|]. rewrite <- app_assoc. exact L.
  Qed.
  Lemma endless_run : forall xs y n, 2 <= length xs -> (Z.of_nat (length xs + n) < 2 ^ 64)%Z ->
    exists st, lirun eqb clone (start, [])
        (LOp ListSpec.New :: map (fun x => LOp (ListSpec.PushBack 0 x)) xs ++
         LIter 0 :: concat (repeat [LNext 0; LOp (ListSpec.PushBack 0 y)] n)) =
      Ret (st, ListSpec.Done :: repeat ListSpec.Done (length xs) ++ ListSpec.Done ::
               concat (map (fun x => [ListSpec.Value (Some x); ListSpec.Done]) (firstn n (xs ++ repeat y n)))).
  Proof.
    intros xs y n L B. eapply (live_run [] []); [|apply owns_start|reflexivity|constructor|constructor].
    eapply ll_op with (w' := [[]]); [constructor|repeat constructor|]. cbn [map].
    apply pushes_live; [cbn [length]; lia|reflexivity|]. cbn [app]. eapply ll_iter; [reflexivity|].
    destruct xs as [|x xs]; cbn [length] in L; [lia|]. cbn [app]. apply (endless_live y n 0 (x :: xs)); auto. 
  Qed.
End Lists.
