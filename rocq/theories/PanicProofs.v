(** PanicProofs.v -- proofs for C108. *)
From Coq Require Import Permutation.
From Verif Require Import Base BaseLemmas Effect CmpSpec VecSpec VecModel VecProofs PanicSpec PanicModel.
From Verif Require HeapModel HeapProofs.

Lemma xbind_Some : forall C A B (m : X C A) (k : A -> X C B) c c' a, m c = (c', Some a) -> xbind m k c = k a c'.
Proof. intros * E. unfold xbind. now rewrite E. Qed.
Lemma xbind_None : forall C A B (m : X C A) (k : A -> X C B) c c', m c = (c', None) -> xbind m k c = (c', None).
Proof. intros * E. unfold xbind. now rewrite E. Qed.

Lemma calls_len : forall U A B (f : user U A B) l u bs u' all, calls f l u = (bs, u', all) ->
  length bs <= length l /\ (all = true -> length bs = length l).
Proof.
  induction l as [|x l IH]; intros u bs u' all; cbn [calls].
  - intros [= <- <- <-]. auto.
  - destruct (f x u) as [u1 [b|]].
    + destruct (calls f l u1) as [[bs1 u2] all1] eqn:E. intros [= <- <- <-]. destruct (IH _ _ _ _ E) as [P Q].
      cbn [length]. split; [lia|]. intros H. rewrite (Q H). reflexivity.
    + intros [= <- <- <-]. cbn. split; [lia|discriminate].
Qed.
Lemma calls_safe : forall U A B (f : user U A B) l u, safe f -> snd (calls f l u) = true.
Proof.
  intros * S. revert u. induction l as [|x l IH]; intros u; cbn [calls]; [reflexivity|].
  pose proof (S x u) as H. destruct (f x u) as [u1 [b|]]; [|now destruct H].
  pose proof (IH u1) as H1. now destruct (calls f l u1) as [[bs1 u2] all1].
Qed.

Section Vec.
  Context {T U : Type}.
  Lemma V_Retain_spec : forall (f : user U T bool) l u,
    V_Retain f (l, u) = let '(bs, u', all) := calls f l u in if all then ((chosen l bs, u'), Some tt) else ((l, u'), None).
  Proof.
    intros f l u.
    assert (H : forall (xs acc : list T) u, xloop (fun newData value => keep <! call f value ;;
                        xret (if (keep : bool) then newData ++ [value] else newData)) xs acc (l, u) =
       let '(bs, u', all) := calls f xs u in ((l, u'), if all then Some (acc ++ chosen xs bs) else None)).
    { induction xs as [|x xs IH]; intros acc u0; cbn [xloop calls].
      - cbn. now rewrite app_nil_r.
      - unfold xbind at 1, xbind at 1, call at 1. cbn [fst snd]. destruct (f x u0) as [u1 [b|]]; [|reflexivity].
        unfold xret at 1. rewrite IH. destruct (calls f xs u1) as [[bs u2] all]. cbn [chosen]. destruct b; [|reflexivity].
        now rewrite <- app_assoc. }
    unfold V_Retain. unfold xbind at 1, xget at 1. cbn [fst]. unfold xbind. rewrite H.
    destruct (calls f l u) as [[bs u'] []]; reflexivity.
  Qed.

  Lemma V_DedupByKey_spec : forall K (keq : K -> K -> bool) (key : user U T K) l u,
    V_DedupByKey keq key (l, u) = let '(ks, u', all) := calls key l u in if all then ((first_of_keys keq [] l ks, u'), Some tt) else ((l, u'), None).
  Proof.
    intros K keq key l u.
    assert (H : forall (xs : list T) seen acc u, exists seen', xloop (fun st value => k <! call key value ;;
                  xret (let '(seen, newData) := st in
                        if existsb (keq k) seen then (seen, newData) else (k :: seen, newData ++ [value]))) xs (seen, acc) (l, u) =
       let '(ks, u', all) := calls key xs u in ((l, u'), if all then Some (seen', acc ++ first_of_keys keq seen xs ks) else None)).
    { induction xs as [|x xs IH]; intros seen acc u0; cbn [xloop calls].
      - exists seen. cbn. now rewrite app_nil_r.
      - unfold xbind at 1, xbind at 1, call at 1. cbn [fst snd]. destruct (key x u0) as [u1 [k|]]; [|now exists seen].
        unfold xret at 1. cbn [first_of_keys]. destruct (existsb (keq k) seen) eqn:E.
        + destruct (IH seen acc u1) as (s' & Hs). exists s'. rewrite Hs. destruct (calls key xs u1) as [[bs u2] all].
          cbn [first_of_keys]. now rewrite E.
        + destruct (IH (k :: seen) (acc ++ [x]) u1) as (s' & Hs). exists s'. rewrite Hs.
          destruct (calls key xs u1) as [[bs u2] all]. cbn [first_of_keys]. rewrite E. now rewrite <- app_assoc. }
    unfold V_DedupByKey. unfold xbind at 1, xget at 1. cbn [fst]. destruct (H l [] [] u) as (s' & Hs).
    unfold xbind at 1. rewrite Hs. destruct (calls key l u) as [[bs u'] []]; reflexivity.
  Qed.

  Lemma V_FillWith_spec : forall (f : user U unit T) l u,
    V_FillWith f (l, u) = let '(xs, u', all) := calls f (repeat tt (length l)) u in ((over xs l, u'), if all then Some tt else None).
  Proof.
    intros f l u.
    assert (H : forall (rest done : list T) u, xloop (fun (_ : unit) i => x <! call f tt ;; d <! xget ;; d' <! xlift (upd d i x) ;; xput d')
        (seq (length done) (length rest)) tt (done ++ rest, u) =
      let '(xs, u', all) := calls f (repeat tt (length rest)) u in ((done ++ over xs rest, u'), if all then Some tt else None)).
    { induction rest as [|x rest IH]; intros done u0; cbn [length seq xloop calls repeat].
      - reflexivity.
      - unfold xbind at 1, xbind at 1, call at 1. cbn [fst snd]. destruct (f tt u0) as [u1 [y|]]; [|reflexivity].
        unfold xbind at 1, xget at 1. cbn [fst]. rewrite upd_Ret by (rewrite app_length; cbn [length]; lia).
        unfold xbind at 1, xlift at 1, xput at 1. cbn [snd].
        rewrite list_set_app2, Nat.sub_diag by lia. cbn [list_set].
        specialize (IH (done ++ [y]) u1). rewrite app_length, <- app_assoc in IH. cbn [length app] in IH. rewrite Nat.add_1_r in IH.
        rewrite IH. destruct (calls f (repeat tt (length rest)) u1) as [[bs u2] all].
        unfold over. cbn [length app skipn]. now rewrite <- app_assoc. }
    unfold V_FillWith. unfold xbind at 1, xget at 1. cbn [fst]. apply (H l [] u).
  Qed.

  Lemma V_SortBy_perm : forall (s : sorter) (cmp : user U (T * T) ordering) l u,
    Permutation l (fst (fst (V_SortBy s cmp (l, u)))).
  Proof.
    induction s as [|i j k IH|i j k IH]; intros cmp l u; cbn [V_SortBy].
    - reflexivity.
    - unfold xbind at 1, xget at 1. cbn [fst]. unfold xbind at 1, xlift at 1. destruct (idx l i); try reflexivity.
      unfold xbind at 1, xlift at 1. destruct (idx l j); try reflexivity.
      unfold xbind at 1, call at 1. cbn [fst snd]. destruct (cmp (a, a0) u) as [u1 [o|]]; [|reflexivity]. apply IH.
    - unfold xbind at 1, xget at 1. cbn [fst]. unfold xbind at 1, xlift at 1. destruct (swap_data l i j) eqn:E; try reflexivity.
      unfold xbind at 1, xput at 1. cbn [snd]. rewrite <- IH.
      destruct (Nat.lt_ge_cases i (length l)) as [Li|Li].
      + destruct (Nat.lt_ge_cases j (length l)) as [Lj|Lj].
        * destruct (HeapProofs.swap_data_exchanged _ l i j Li Lj) as (d' & E' & _ & P). congruence.
        * exfalso. revert E. unfold swap_data, idx. apply nth_error_None in Lj. rewrite Lj. now destruct (nth_error l i).
      + exfalso. revert E. unfold swap_data, idx. apply nth_error_None in Li. rewrite Li. now destruct (nth_error l j).
  Qed.
End Vec.

(** *** The heap *)
Section Heap.
  Context {T U : Type}.
  Variable cmp : user U (T * T) ordering.
  Import HeapProofs.
  (** With c = None nothing is known of Cmp; with c = Some it is that total preorder where it answers. *)
  Definition known (c : option (T -> T -> ordering)) : Prop :=
    match c with Some c => total_preorder c /\ answers_like cmp c | None => True end.
  Definition upk (c : option (T -> T -> ordering)) d p := match c with Some c => up_inv c d p | None => True end.
  Definition dnk (c : option (T -> T -> ordering)) d p := match c with Some c => down_inv c d p | None => True end.
  Definition hpk (c : option (T -> T -> ordering)) d := match c with Some c => heap c d | None => True end.

  Lemma up_move : forall (c : T -> T -> ordering) d pos elt y d', total_preorder c -> up_inv c d pos -> 0 < pos ->
    nth_error d pos = Some elt -> nth_error d (par pos) = Some y -> c elt y = Greater -> exchanged d d' pos (par pos) -> up_inv c d' (par pos).
  Proof.
    intros c d pos elt y d' TP [A B] Hp He Hy C (L & X1 & X2 & X3). pose proof (par_lt pos Hp) as Pl.
    assert (Ge : le_by c y elt) by (unfold le_by; rewrite (tp_flip _ TP elt y), C; discriminate).
    split.
    - intros i Hi Hn a b Ha Hb. destruct (Nat.eq_dec i pos) as [->|Np].
      + rewrite X1 in Ha. rewrite X2 in Hb. congruence.
      + rewrite X3 in Ha by auto. destruct (Nat.eq_dec (par i) pos) as [Ep|Ep].
        * rewrite Ep, X1 in Hb. eapply B; eauto.
        * destruct (Nat.eq_dec (par i) (par pos)) as [Eq|Eq].
          -- rewrite Eq, X2 in Hb. eapply (le_trans c TP); [eapply (A i Hi Np)|]; [eauto| rewrite Eq; eauto |]. congruence.
          -- rewrite X3 in Hb by auto. eapply A; eauto.
    - intros k Hc Ec Hpp a b Ha Hb. pose proof (par_lt (par pos) Hpp) as Pl2.
      rewrite X3 in Hb by lia.
      assert (Yb : le_by c y b) by (eapply (A (par pos)); eauto; lia).
      destruct (Nat.eq_dec k pos) as [->|Np].
      + rewrite X1 in Ha. congruence.
      + rewrite X3 in Ha; [|auto|pose proof (par_lt k Hc); lia].
        eapply (le_trans c TP); [|exact Yb]. eapply (A k Hc Np); eauto. rewrite Ec. exact Hy.
  Qed.

  (** What a method may leave: a rearrangement of d, in order if it returns, and with the
      order broken at one place (by Q) if Cmp panics. *)
  Definition leaves {A} (c : option (T -> T -> ordering)) (Q : list T -> nat -> Prop) (d : list T) (r : list T * U * option A) : Prop :=
    let '((d', _), o) := r in
    Permutation d d' /\ match o with Some _ => hpk c d' | None => (exists p, Q d' p) /\ ~ safe cmp end.

  Lemma sift_up_leaves : forall c fuel d u elt pos, known c -> pos < fuel -> nth_error d pos = Some elt -> upk c d pos ->
    leaves c (upk c) d (sift_up_loop cmp fuel 0 elt pos (d, u)).
  Proof.
    intros c. induction fuel as [|fuel IH]; intros d u elt pos K Hf He I; [lia|]. cbn [sift_up_loop].
    assert (Lp : pos < length d) by (apply nth_error_Some; congruence).
    destruct (Nat.ltb_spec 0 pos) as [Hp|Hp].
    2:{ unfold leaves, xret. split; [reflexivity|]. destruct c as [c|]; [|exact Logic.I]. cbn [hpk upk dnk known] in *. intros i Hi. apply (proj1 I); lia. }
    fold (par pos). pose proof (par_lt pos Hp) as Pl. destruct (nth_error_lt _ d (par pos)) as (y & Hy); [lia|].
    unfold xbind at 1, xget at 1. cbn [fst]. rewrite (idx_nth_error _ _ _ Hy). unfold xbind at 1, xlift at 1.
    unfold xbind at 1, call at 1. cbn [fst snd]. destruct (cmp (elt, y) u) as [u1 [o|]] eqn:Ec.
    2:{ unfold leaves. split; [reflexivity|]. split; [exists pos; exact I|]. intros S. apply (S (elt, y) u). now rewrite Ec. }
    assert (Oc : match c with Some c => o = c elt y | None => True end).
    { destruct c as [c|]; [|exact Logic.I]. apply (proj2 K) with (u := u). now rewrite Ec. }
    destruct o.
    1,2: unfold leaves, xret; (split; [reflexivity|]); destruct c as [c|]; [|exact Logic.I]; cbn [hpk upk dnk known] in *; intros i Hi;
      (destruct (Nat.eq_dec i pos) as [Ei|N]; [subst i|now apply (proj1 I)]); intros a b Ha Hb; unfold le_by;
      assert (a = elt) by congruence; assert (b = y) by congruence; subst; congruence.
    destruct (swap_data_exchanged T d pos (par pos) Lp) as (d' & E & X & P); [lia|].
    unfold xbind at 1, xlift at 1. rewrite E. unfold xbind at 1, xput at 1. cbn [snd].
    assert (I' : upk c d' (par pos)).
    { destruct c as [c|]; [|exact Logic.I]. cbn [hpk upk dnk known] in *. destruct K as [TP _]. eapply (up_move c d pos elt y d'); eauto. }
    assert (He' : nth_error d' (par pos) = Some elt) by (destruct X as (_ & _ & X2 & _); congruence).
    specialize (IH d' u1 elt (par pos) K ltac:(lia) He' I'). unfold leaves in *.
    destruct (sift_up_loop cmp fuel 0 elt (par pos) (d', u1)) as [[d2 u2] o2]. destruct IH as [P2 H2]. split; [now rewrite P|exact H2].
  Qed.

  Lemma SiftUp_leaves : forall c d u pos, known c -> pos < length d -> upk c d pos -> leaves c (upk c) d (H_SiftUp cmp 0 pos (d, u)).
  Proof.
    intros c d u pos K L I. unfold H_SiftUp. destruct (nth_error_lt _ d pos L) as (x & Hx).
    unfold xbind at 1, xget at 1. cbn [fst]. unfold xbind at 1, xlift at 1. rewrite (idx_nth_error _ _ _ Hx).
    apply sift_up_leaves; auto. lia.
  Qed.

  Lemma Push_leaves : forall c d u x, known c -> hpk c d -> leaves c (upk c) (x :: d) (H_Push cmp x (d, u)).
  Proof.
    intros c d u x K H. unfold H_Push. unfold xbind at 1, xget at 1. cbn [fst]. unfold xbind at 1, xput at 1. cbn [snd].
    pose proof (SiftUp_leaves c (d ++ [x]) u (length d) K) as S. unfold leaves in *.
    destruct (H_SiftUp cmp 0 (length d) (d ++ [x], u)) as [[d' u'] o].
    destruct S as [P S].
    - rewrite app_length. cbn. lia.
    - destruct c as [c|]; [|exact Logic.I]. cbn [hpk upk dnk known] in *. split.
      + intros i Hi Hn a b Ha Hb.
        assert (Li : i < length d).
        { assert (i < length (d ++ [x])) by (apply nth_error_Some; congruence). rewrite app_length in *. cbn in *. lia. }
        pose proof (par_lt i Hi). rewrite nth_error_app1 in Ha, Hb by lia. eapply H; eauto.
      + intros k Hc Ec Hp a b Ha Hb. exfalso.
        assert (k < length (d ++ [x])) by (apply nth_error_Some; congruence). rewrite app_length in *. cbn [length] in *.
        pose proof (par_lt k Hc). lia.
    - split; [rewrite <- P; apply Permutation_cons_append | exact S].
  Qed.

  Definition aroundk (c : option (T -> T -> ordering)) d p := match c with Some c => ordered_around c p d | None => True end.
  Lemma dnk_around : forall c d p, dnk c d p -> aroundk c d p.
  Proof. intros [c|] d p; [|auto]. intros [A B] i x y Hi Hn Hp Hx Hy. eapply (A i); eauto. Qed.
  Lemma upk_around : forall c d p, upk c d p -> aroundk c d p.
  Proof. intros [c|] d p; [|auto]. intros [A B] i x y Hi Hn Hp Hx Hy. eapply (A i); eauto. Qed.

  Lemma sift_down_leaves : forall c fuel d u pos, known c -> length d < pos + fuel -> pos < length d -> dnk c d pos ->
    let '((d', u'), o) := sift_down_loop cmp fuel (length d) pos (2 * pos + 1) (d, u) in
    Permutation d d' /\ match o with
    | Some (p, ch) => ch = 2 * p + 1 /\ dnk c d' p /\ p < length d /\ length d <= 2 * p + 2
    | None => (exists p, aroundk c d' p) /\ ~ safe cmp
    end.
  Proof.
    intros c. induction fuel as [|fuel IH]; intros d u pos K Hf Lp D; [lia|]. cbn [sift_down_loop].
    destruct (Nat.leb_spec (2 * pos + 1) (length d - 2)) as [H|H].
    2:{ unfold xret. split; [reflexivity|]. repeat split; auto; lia. }
    destruct (Nat.le_gt_cases (length d) (2 * pos + 2)) as [Short|Long].
    { exfalso. lia. }
    destruct (nth_error_lt _ d (2 * pos + 1)) as (a & Ha); [lia|].
    destruct (nth_error_lt _ d (2 * pos + 1 + 1)) as (b & Hb); [lia|].
    unfold xbind at 1, xget at 1. cbn [fst]. rewrite (idx_nth_error _ _ _ Ha), (idx_nth_error _ _ _ Hb).
    unfold xbind at 1, xlift at 1. unfold xbind at 1, xlift at 1.
    unfold xbind at 1, call at 1. cbn [fst snd]. destruct (cmp (a, b) u) as [u1 [o|]] eqn:Ec.
    2:{ split; [reflexivity|]. split; [exists pos; now apply dnk_around|]. intros S. apply (S (a, b) u). now rewrite Ec. }
    set (k := match o with Greater => 2 * pos + 1 | _ => 2 * pos + 1 + 1 end).
    assert (Hc : 0 < k /\ par k = pos /\ k < length d /\ pos < k).
    { unfold k. destruct o; replace (2 * pos + 1 + 1) with (2 * pos + 2) by lia; rewrite ?par_1, ?par_2; lia. }
    assert (Sib : match c with Some c => forall s, 0 < s -> s <> k -> par s = pos -> le_at c d s k | None => True end).
    { destruct c as [c|]; [|exact Logic.I]. destruct K as [TP Al]. assert (o = c a b) as -> by (apply (Al a b u); now rewrite Ec).
      replace (2 * pos + 1 + 1) with (2 * pos + 2) in * by lia.
      assert (Hc1 : k = 2 * pos + 1 /\ le_by c b a \/ k = 2 * pos + 2 /\ le_by c a b).
      { unfold k, le_by. rewrite (tp_flip _ TP a b). destruct (c a b); [right|right|left]; (split; [lia|cbn; discriminate]). }
      intros s Hs Hn Ps x y Hx Hy. destruct (par_children s pos Hs Ps) as [->| ->]; destruct Hc1 as [[Ek Le]|[Ek Le]]; rewrite Ek in *; congruence. }
    destruct Hc as (C0 & Cp & Cl & Cgt).
    destruct (swap_data_exchanged T d pos k Lp Cl) as (d' & E & X & P).
    unfold xbind at 1, xlift at 1. rewrite E. unfold xbind at 1, xput at 1. cbn [snd].
    assert (D' : dnk c d' k).
    { destruct c as [c|]; [|exact Logic.I]. cbn [hpk upk dnk known] in *. eapply (down_move c d pos k d'); eauto. }
    pose proof (Permutation_length P) as PL. rewrite PL.
    specialize (IH d' u1 k K ltac:(lia) ltac:(lia) D').
    destruct (sift_down_loop cmp fuel (length d') k (2 * k + 1) (d', u1)) as [[d2 u2] o2].
    destruct IH as [P2 H2]. split; [now rewrite P|exact H2].
  Qed.

  Lemma SiftDown_leaves : forall c d u, known c -> 0 < length d -> aroundk c d 0 ->
    leaves c (aroundk c) d (H_SiftDownToBottom cmp 0 (d, u)).
  Proof.
    intros c d u K L H. unfold H_SiftDownToBottom. destruct (nth_error_lt _ d 0 L) as (x & Hx).
    unfold xbind at 1, xget at 1. cbn [fst]. unfold xbind at 1, xlift at 1. rewrite (idx_nth_error _ _ _ Hx).
    assert (D0 : dnk c d 0).
    { destruct c as [c|]; [|exact Logic.I]. split; [|intros; lia]. intros i Hi Hn Hp a b Ha Hb. apply (H i a b); auto. }
    pose proof (sift_down_leaves c (length d + 1) d u 0 K ltac:(lia) L D0) as S.
    unfold xbind at 1. destruct (sift_down_loop cmp (length d + 1) (length d) 0 (2 * 0 + 1) (d, u)) as [[d1 u1] [[pos ch]|]].
    2:{ exact S. }
    destruct S as (P1 & -> & D1 & L1 & S1). pose proof (Permutation_length P1) as PL.
    assert (Q : exists d2 pos2, (if 2 * pos + 1 =? length d - 1 then d <! xget ;; d' <! xlift (swap_data d pos (2 * pos + 1)) ;; _ <! xput d' ;; xret (2 * pos + 1) else xret pos) (d1, u1) = ((d2, u1), Some pos2)
                  /\ Permutation d1 d2 /\ dnk c d2 pos2 /\ pos2 < length d /\ length d <= 2 * pos2 + 1).
    { destruct (Nat.eqb_spec (2 * pos + 1) (length d - 1)) as [E|E].
      - destruct (swap_data_exchanged T d1 pos (2 * pos + 1)) as (d2 & E2 & X & P2); [lia|lia|].
        exists d2, (2 * pos + 1). split; [unfold xbind, xget, xlift, xput, xret; cbn [fst snd]; now rewrite E2|]. split; [exact P2|].
        split; [|lia]. destruct c as [c|]; [|exact Logic.I]. cbn in D1 |- *. eapply (down_move c d1 pos (2 * pos + 1) d2); eauto; try lia; [apply par_1|].
        intros s Hs Hn Ps a b Ha Hb. destruct (par_children s pos Hs Ps) as [->| ->]; [lia|].
        assert (2 * pos + 2 < length d1) by (apply nth_error_Some; congruence). lia.
      - exists d1, pos. split; [reflexivity|]. split; [reflexivity|]. split; [exact D1|]. lia. }
    destruct Q as (d2 & pos2 & E2 & P2 & D2 & L2 & S2). erewrite xbind_Some by exact E2.
    pose proof (Permutation_length P2) as PL2.
    pose proof (SiftUp_leaves c d2 u1 pos2 K ltac:(lia)) as Up. unfold leaves in *.
    destruct (H_SiftUp cmp 0 pos2 (d2, u1)) as [[d3 u3] o3]. destruct Up as [P3 H3].
    - destruct c as [c|]; [|exact Logic.I]. destruct D2 as [A B]. split; [|exact B]. intros i Hi Hn a b Ha Hb.
      destruct (Nat.eq_dec (par i) pos2) as [Ep|Ep].
      + assert (i < length d2) by (apply nth_error_Some; congruence).
        destruct (par_children i pos2 Hi Ep); lia.
      + eapply A; eauto.
    - split; [now rewrite P1, P2|]. destruct o3; [exact H3|]. destruct H3 as [(p & Hp) Hs]. split; [|exact Hs].
      exists p. now apply upk_around.
  Qed.

  Lemma Pop_leaves : forall c top r u, known c -> hpk c (top :: r) ->
    let '((d', _), o) := H_Pop cmp (top :: r, u) in
    Permutation r d' /\ match o with
    | Some a => a = Some top /\ hpk c d'
    | None => (exists p, aroundk c d' p) /\ ~ safe cmp
    end.
  Proof.
    intros c top r u K H. unfold H_Pop. unfold xbind at 1, xget at 1. cbn [fst].
    destruct r as [|y r'].
    - cbn. split; [reflexivity|]. split; [reflexivity|]. destruct c as [c|]; [|exact Logic.I].
      intros i Hi a b Ha. destruct i; discriminate.
    - destruct (@exists_last _ (y :: r') ltac:(discriminate)) as (m & z & E). rewrite E in *. clear E y r'.
      set (d := top :: m ++ [z]) in *.
      assert (Ld : length d - 1 = S (length m)) by (unfold d; cbn [length]; rewrite app_length; cbn [length]; lia).
      change (match d with [] => xret None | _ :: _ => item <! xlift (idx d (length d - 1));;
         (let rest := firstn (length d - 1) d in
          _ <! xput rest;; (if negb (length rest =? 0) then top0 <! xlift (idx rest 0);; d' <! xlift (upd rest 0 item);; _ <! xput d';; _ <! H_SiftDownToBottom cmp 0;; xret (Some top0) else xret (Some item))) end)
        with (item <! xlift (idx d (length d - 1));;
         (let rest := firstn (length d - 1) d in
          _ <! (@xput _ U rest);; (if negb (length rest =? 0) then top0 <! xlift (idx rest 0);; d' <! xlift (upd rest 0 item);; _ <! xput d';; _ <! H_SiftDownToBottom cmp 0;; xret (Some top0) else xret (Some item)))).
      rewrite Ld. unfold xbind at 1, xlift at 1.
      assert (Hz : nth_error d (S (length m)) = Some z).
      { unfold d. cbn [nth_error]. rewrite nth_error_app2, Nat.sub_diag by lia. reflexivity. }
      rewrite (idx_nth_error _ _ _ Hz).
      assert (Hr : firstn (S (length m)) d = top :: m).
      { unfold d. cbn [firstn]. rewrite firstn_app, Nat.sub_diag, firstn_O, app_nil_r, firstn_all. reflexivity. }
      cbv zeta. rewrite Hr. unfold xbind at 1, xput at 1. cbn [length Nat.eqb negb snd].
      unfold xbind at 1, xlift at 1. cbn [idx nth_error of_option]. unfold xbind at 1, xlift at 1. rewrite upd_Ret by (cbn; lia).
      cbn [list_set]. unfold xbind at 1, xput at 1. cbn [snd].
      pose proof (SiftDown_leaves c (z :: m) u K ltac:(cbn; lia)) as S. unfold leaves in S. unfold xbind.
      destruct (H_SiftDownToBottom cmp 0 (z :: m, u)) as [[d' u'] [a|]]; (destruct S as [P Q];
        [ destruct c as [c|]; [|exact Logic.I]; intros i a' b' Hi Hn Hp Ha Hb;
          destruct i as [|i]; [lia|]; fold (par (S i)) in *; destruct (par (S i)) as [|q] eqn:Ep; [lia|];
          cbn [nth_error] in Ha, Hb;
          apply (H (S i)); [lia | | rewrite Ep];
          unfold d; cbn [nth_error]; rewrite nth_error_app1; auto; apply nth_error_Some; congruence
        | split; [rewrite <- P; symmetry; apply Permutation_cons_append |]]).
      + unfold xret. auto.
      + exact Q.
  Qed.
End Heap.
