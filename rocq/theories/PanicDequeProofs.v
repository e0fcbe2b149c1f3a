(** PanicDequeProofs.v -- C108 for the deque and the leaf of a B-tree. *)
From Coq Require Import Permutation.
From Verif Require Import Base BaseLemmas Effect VecSpec VecModel VecProofs PanicSpec PanicModel PanicProofs.
From Verif Require Import DequeModel DequeProofs.

Lemma over_length : forall T (k l : list T), length k <= length l -> length (over k l) = length l.
Proof. intros. unfold over. rewrite app_length, skipn_length. lia. Qed.
Lemma over_nth : forall T (k l : list T) i, length k <= i -> nth_error (over k l) i = nth_error l i.
Proof.
  intros. unfold over. rewrite nth_error_app2 by lia. rewrite nth_error_skipn. f_equal. lia.
Qed.
Lemma over_snoc : forall T (k l : list T) x, length k < length l -> list_set (over k l) (length k) x = over (k ++ [x]) l.
Proof.
  intros T k l x H. unfold over. rewrite list_set_app2, Nat.sub_diag by lia. rewrite app_length. cbn [length].
  rewrite <- app_assoc. f_equal. rewrite Nat.add_1_r. destruct (skipn (length k) l) as [|y r] eqn:E.
  - apply (f_equal (@length T)) in E. rewrite skipn_length in E. cbn in E. lia.
  - cbn [list_set]. cbn [app]. f_equal. revert l y r H E. induction k as [|a k IH]; intros [|b l] y r H E; cbn [length] in *; try lia.
    + cbn in E |- *. congruence.
    + cbn [skipn] in E |- *. destruct l as [|b' l]; [cbn in H; lia|]. apply (IH (b' :: l) y); [cbn in *; lia | exact E].
Qed.
Lemma over_nil : forall T (l : list T), over [] l = l.
Proof. reflexivity. Qed.

Section Deque.
  Context {T U : Type}.
  Variable limit : Z.
  Hypothesis limit_ok : (7 <= limit < 2 ^ 63)%Z.
  Notation rep := (@DequeProofs.rep T limit).

  Lemma rep_total : forall d l c (i : nat), rep d l c -> (i < length l -> exists x, GetUnchecked d (Z.of_nat i) = Ret x /\ nth_error l i = Some x)%nat.
  Proof.
    intros d l c i R H. destruct (nth_error l i) as [x|] eqn:E; [|apply nth_error_None in E; lia].
    exists x. split; [|reflexivity]. eapply GetUnchecked_spec; eauto.
  Qed.
  Lemma rep_cut : forall d l c (k : list T), rep d (over k l) c -> rep (mkDeque (buffer d) (Z.of_nat (length k)) (head d)) k c.
  Proof. intros d l c k R. eapply rep_shrink; eauto. Qed.

  Lemma D_Retain_spec : forall (f : user U T bool) d l c u, rep d l c ->
    let '(bs, u', all) := calls f l u in
    exists d', D_Retain f (d, u) = ((d', u'), if all then Some tt else None) /\
      rep d' (if all then chosen l bs else over (chosen l bs) l) c.
  Proof.
    intros f d l c u R.
    assert (H : forall rest (done k : list T) d u, l = done ++ rest -> length k <= length done -> rep d (over k l) c ->
      let '(bs, u', all) := calls f rest u in
      exists d', xloop (fun newLen i =>
        d <! xget ;; value <! xlift (GetUnchecked d i) ;;
        keep <! call f value ;;
        if (keep : bool) then d' <! xlift (SetUnchecked d newLen value) ;; _ <! xput d' ;; xret (u64 (newLen + 1))
        else xret newLen) (map Z.of_nat (seq (length done) (length rest))) (Z.of_nat (length k)) (d, u)
        = ((d', u'), if all then Some (Z.of_nat (length (k ++ chosen rest bs))) else None) /\
      rep d' (over (k ++ chosen rest bs) l) c).
    { induction rest as [|x rest IH]; intros done k d0 u0 El Lk R0; cbn [calls length seq map xloop].
      - exists d0. cbn [chosen]. rewrite app_nil_r. split; [reflexivity|exact R0].
      - pose proof (rep_pos _ _ _ _ R0) as P.
        assert (Ll : length l = length done + S (length rest)) by (rewrite El, app_length; reflexivity).
        rewrite over_length in P by lia.
        assert (G : GetUnchecked d0 (Z.of_nat (length done)) = Ret x).
        { eapply GetUnchecked_spec; eauto. rewrite over_nth by lia. rewrite El, nth_error_app2, Nat.sub_diag by lia. reflexivity. }
        unfold xbind at 1, xbind at 1, xget at 1. cbn [fst]. unfold xbind at 1, xlift at 1. rewrite G.
        unfold xbind at 1, call at 1. cbn [fst snd]. destruct (f x u0) as [u1 [b|]].
        2:{ exists d0. cbn [chosen]. rewrite app_nil_r. auto. }
        destruct b.
        + destruct (SetUnchecked_spec limit limit_ok d0 _ c (length k) x R0) as (d1 & E1 & R1); [rewrite over_length; lia|].
          rewrite over_snoc in R1 by lia. unfold xbind at 1, xlift at 1. rewrite E1. unfold xbind at 1, xput at 1. cbn [snd].
          unfold xret at 1. rewrite u64_small by lia.
          specialize (IH (done ++ [x]) (k ++ [x]) d1 u1). rewrite <- app_assoc in IH. specialize (IH El).
          rewrite !app_length in IH. cbn [length] in IH. specialize (IH ltac:(lia) R1). rewrite Nat.add_1_r in IH.
          replace (Z.of_nat (length k) + 1)%Z with (Z.of_nat (length k + 1)) by lia.
          destruct (calls f rest u1) as [[bs u2] all]. destruct IH as (d2 & E2 & R2). exists d2. cbn [chosen].
          rewrite <- app_assoc in E2, R2. split; [exact E2 | exact R2].
        + unfold xret at 1. specialize (IH (done ++ [x]) k d0 u1). rewrite <- app_assoc in IH. specialize (IH El).
          rewrite !app_length in IH. cbn [length] in IH. specialize (IH ltac:(lia) R0). rewrite Nat.add_1_r in IH.
          destruct (calls f rest u1) as [[bs u2] all]. exact IH. }
    specialize (H l [] [] d u eq_refl (le_n _) R). cbn [app length] in H.
    unfold D_Retain. unfold xbind at 1, xget at 1. cbn [fst]. unfold Len. rewrite (rep_len _ _ _ _ R), indices_0.
    change (Z.of_nat 0) with 0%Z in H.
    destruct (calls f l u) as [[bs u'] all]. destruct H as (d' & E & R'). unfold xbind at 1. rewrite E. destruct all.
    - unfold xbind, xget, xput. cbn [fst snd]. eexists. split; [reflexivity|]. eapply rep_cut; eauto.
    - exists d'. auto.
  Qed.

  Lemma D_Dedup_spec : forall (e : user U (T * T) bool) d x l c u, rep d (x :: l) c ->
    let '(ks, u', all) := deduped e x l u in
    exists d', D_Dedup e (d, u) = ((d', u'), if all then Some tt else None) /\
      rep d' (if all then x :: ks else over (x :: ks) (x :: l)) c.
  Proof.
    intros e d x0 l0 c u R. set (l := x0 :: l0) in *.
    assert (H : forall rest (done k : list T) y d u, l = done ++ rest -> length k < length done -> rep d (over (k ++ [y]) l) c ->
      let '(ks, u', all) := deduped e y rest u in
      exists d', xloop (fun newLen i =>
          d <! xget ;; x <! xlift (GetUnchecked d i) ;; y <! xlift (GetUnchecked d (u64 (newLen - 1))) ;;
          same <! call e (x, y) ;;
          if negb same then d' <! xlift (SetUnchecked d newLen x) ;; _ <! xput d' ;; xret (u64 (newLen + 1))
          else xret newLen) (map Z.of_nat (seq (length done) (length rest))) (Z.of_nat (length k + 1)) (d, u)
        = ((d', u'), if all then Some (Z.of_nat (length (k ++ y :: ks))) else None) /\
      rep d' (over (k ++ y :: ks) l) c).
    { induction rest as [|x rest IH]; intros done k y d0 u0 El Lk R0; cbn [deduped length seq map xloop].
      - exists d0. split; [|exact R0]. rewrite app_length. reflexivity.
      - pose proof (rep_pos _ _ _ _ R0) as P.
        assert (Ll : length l = length done + S (length rest)) by (rewrite El, app_length; reflexivity).
        assert (Lky : length (k ++ [y]) = length k + 1) by (rewrite app_length; reflexivity).
        rewrite over_length in P by lia.
        assert (G : GetUnchecked d0 (Z.of_nat (length done)) = Ret x).
        { eapply GetUnchecked_spec; eauto. rewrite over_nth by lia. rewrite El, nth_error_app2, Nat.sub_diag by lia. reflexivity. }
        assert (G2 : GetUnchecked d0 (Z.of_nat (length k)) = Ret y).
        { eapply GetUnchecked_spec; eauto. unfold over. rewrite <- app_assoc, nth_error_app2, Nat.sub_diag by lia. reflexivity. }
        unfold xbind at 1, xbind at 1, xget at 1. cbn [fst]. unfold xbind at 1, xlift at 1. rewrite G.
        rewrite u64_small by lia. replace (Z.of_nat (length k + 1) - 1)%Z with (Z.of_nat (length k)) by lia.
        unfold xbind at 1, xlift at 1. rewrite G2.
        unfold xbind at 1, call at 1. cbn [fst snd]. destruct (e (x, y) u0) as [u1 [b|]].
        2:{ exists d0. auto. }
        destruct b; cbn [negb].
        + unfold xret at 1. specialize (IH (done ++ [x]) k y d0 u1). rewrite <- app_assoc in IH. specialize (IH El).
          rewrite !app_length in IH. cbn [length] in IH. specialize (IH ltac:(lia) R0). rewrite Nat.add_1_r in IH.
          exact IH.
        + destruct (SetUnchecked_spec limit limit_ok d0 _ c (length (k ++ [y])) x R0) as (d1 & E1 & R1); [rewrite over_length; lia|].
          rewrite over_snoc in R1 by lia. rewrite Lky in E1. unfold xbind at 1, xlift at 1. rewrite E1. unfold xbind at 1, xput at 1. cbn [snd].
          unfold xret at 1. rewrite u64_small by lia.
          specialize (IH (done ++ [x]) (k ++ [y]) x d1 u1). rewrite <- (app_assoc done) in IH. specialize (IH El).
          rewrite !(app_length done) in IH. cbn [length] in IH. specialize (IH ltac:(lia) R1). rewrite Nat.add_1_r, Lky in IH.
          replace (Z.of_nat (length k + 1) + 1)%Z with (Z.of_nat (length k + 1 + 1)) by lia.
          destruct (deduped e x rest u1) as [[bs u2] all]. destruct IH as (d2 & E2 & R2). exists d2.
          rewrite <- app_assoc in E2, R2. split; [exact E2 | exact R2]. }
    specialize (H l0 [x0] [] x0 d u eq_refl ltac:(cbn; lia) R). cbn [app length Nat.add] in H.
    unfold D_Dedup. unfold xbind at 1, xget at 1. cbn [fst]. unfold IsEmpty, Len. rewrite (rep_len _ _ _ _ R).
    unfold l at 1 2. cbn [length]. destruct (Z.eqb_spec (Z.of_nat (S (length l0))) 0); [lia|]. rewrite indices_1.
    change (Z.of_nat 1) with 1%Z in H.
    destruct (deduped e x0 l0 u) as [[bs u'] all]. destruct H as (d' & E & R'). unfold xbind at 1. rewrite E. destruct all.
    - unfold xbind, xget, xput. cbn [fst snd]. eexists. split; [reflexivity|]. exact (rep_cut d' l c (x0 :: bs) R').
    - exists d'. auto.
  Qed.

  Lemma D_FillWith_spec : forall (f : user U unit T) d l c u, rep d l c ->
    let '(xs, u', all) := calls f (repeat tt (length l)) u in
    exists d', D_FillWith f (d, u) = ((d', u'), if all then Some tt else None) /\ rep d' (over xs l) c.
  Proof.
    intros f d l c u R.
    assert (H : forall n (k : list T) d u, length l = length k + n -> rep d (over k l) c ->
      let '(xs, u', all) := calls f (repeat tt n) u in
      exists d', xloop (fun (_ : unit) i => x <! call f tt ;; d <! xget ;; d' <! xlift (SetUnchecked d i x) ;; xput d')
        (map Z.of_nat (seq (length k) n)) tt (d, u) = ((d', u'), if all then Some tt else None) /\
      rep d' (over (k ++ xs) l) c).
    { induction n as [|n IH]; intros k d0 u0 Ll R0; cbn [calls seq map xloop repeat].
      - exists d0. rewrite app_nil_r. split; [reflexivity|exact R0].
      - unfold xbind at 1, xbind at 1, call at 1. cbn [fst snd]. destruct (f tt u0) as [u1 [x|]].
        2:{ exists d0. rewrite app_nil_r. auto. }
        destruct (SetUnchecked_spec limit limit_ok d0 _ c (length k) x R0) as (d1 & E1 & R1); [rewrite over_length; lia|].
        rewrite over_snoc in R1 by lia. unfold xbind at 1, xget at 1. cbn [fst]. unfold xbind at 1, xlift at 1. rewrite E1. unfold xput at 1. cbn [snd].
        specialize (IH (k ++ [x]) d1 u1). rewrite !app_length in IH. cbn [length] in IH. specialize (IH ltac:(lia) R1). rewrite Nat.add_1_r in IH.
        destruct (calls f (repeat tt n) u1) as [[xs u2] all]. destruct IH as (d2 & E2 & R2). exists d2.
        rewrite <- app_assoc in R2. auto. }
    specialize (H (length l) [] d u eq_refl R). cbn [app length] in H.
    unfold D_FillWith. unfold xbind at 1, xget at 1. cbn [fst]. unfold Len. rewrite (rep_len _ _ _ _ R), indices_0. exact H.
  Qed.
End Deque.

Section Leaf.
  Context {K V U : Type}.
  Variable cmp : user U (K * K) ordering.
  (** The leaf while entries are moved: lo, a free slot (or a copy), hi. *)
  Definition gap (lo : list (K * V)) (slot : option (K * V)) (hi : list (K * V)) (free : nat) : list (option (K * V)) :=
    map Some lo ++ slot :: map Some hi ++ repeat None free.

  Lemma shift_spec : forall lo hi free n key fuel u, length lo < fuel ->
    let '(g, u', all) := greater_from_end cmp key (rev lo) u in
    let p := length lo - g in
    g <= length lo /\
    shift_loop cmp fuel (Z.of_nat (length lo) - 1) key ((gap lo (hd_error hi) hi free, n), u) =
      (((gap (firstn p lo) (hd_error (skipn p lo ++ hi)) (skipn p lo ++ hi) free, n), u'),
       if all then Some (Z.of_nat p - 1)%Z else None).
  Proof.
    induction lo as [|e lo IH] using rev_ind; intros hi free n key fuel u Hf; (destruct fuel as [|fuel]; [lia|]); cbn [shift_loop].
    - cbn. split; [lia|reflexivity].
    - rewrite rev_unit. cbn [greater_from_end]. rewrite app_length. cbn [length].
      destruct (Z.leb_spec 0 (Z.of_nat (length lo + 1) - 1)); [|lia].
      replace (Z.to_nat (Z.of_nat (length lo + 1) - 1)) with (length lo) by lia.
      unfold xbind at 1, xget at 1. cbn [fst]. unfold xbind at 1, xlift at 1.
      assert (G : idx (gap (lo ++ [e]) (hd_error hi) hi free) (length lo) = Ret (Some e)).
      { apply idx_nth_error. unfold gap. rewrite nth_error_app1 by (rewrite map_length, app_length; cbn; lia).
        rewrite nth_error_map, nth_error_app2, Nat.sub_diag by lia. reflexivity. }
      rewrite G. destruct e as [x v]. unfold xbind at 1, call at 1. cbn [fst snd].
      assert (Stay : skipn (length lo + 1 - 0) (lo ++ [(x, v)]) = [] /\ firstn (length lo + 1 - 0) (lo ++ [(x, v)]) = lo ++ [(x, v)]).
      { rewrite Nat.sub_0_r. replace (length lo + 1) with (length (lo ++ [(x, v)])) by (rewrite app_length; reflexivity).
        split; [apply skipn_all | apply firstn_all]. }
      destruct Stay as [S1 S2].
      destruct (cmp (x, key) u) as [u1 [[]|]].
      1,2,4: rewrite S1, S2; cbn [app]; (split; [lia|]); rewrite ?Nat.sub_0_r; reflexivity.
      unfold xbind at 1, xlift at 1. cbn [fst snd].
      replace (Z.to_nat (Z.of_nat (length lo + 1) - 1 + 1)) with (length lo + 1) by lia.
      assert (Up : upd (gap (lo ++ [(x, v)]) (hd_error hi) hi free) (length lo + 1) (Some (x, v)) = Ret (gap lo (Some (x, v)) ((x, v) :: hi) free)).
      { unfold gap. rewrite upd_Ret.
        - rewrite list_set_app2 by (rewrite map_length, app_length; cbn; lia). rewrite map_length, app_length. cbn [length].
          rewrite Nat.sub_diag. cbn [list_set]. rewrite map_app, <- app_assoc. reflexivity.
        - rewrite app_length, map_length, app_length. cbn [length]. lia. }
      rewrite Up. unfold xbind at 1, xput at 1. cbn [fst snd].
      specialize (IH ((x, v) :: hi) free n key fuel u1). rewrite app_length in Hf. cbn [length] in Hf. specialize (IH ltac:(lia)).
      replace (Z.of_nat (length lo + 1) - 1 - 1)%Z with (Z.of_nat (length lo) - 1)%Z by lia.
      cbn [hd_error] in IH. destruct (greater_from_end cmp key (rev lo) u1) as [[g u2] all]. cbv zeta in IH |- *.
      destruct IH as [Lg IH]. split; [lia|]. rewrite IH.
      replace (length lo + 1 - S g) with (length lo - g) by lia.
      rewrite firstn_app, skipn_app. replace (length lo - g - length lo) with 0 by lia.
      rewrite firstn_O, app_nil_r, <- app_assoc. reflexivity.
  Qed.

  Lemma Insert_spec : forall l free key value u,
    let '(g, u', all) := greater_from_end cmp key (rev l) u in
    let lo := firstn (length l - g) l in let hi := skipn (length l - g) l in
    g <= length l /\
    L_InsertNonFull cmp key value ((map Some l ++ repeat None (S free), length l), u) =
      if all then (((gap lo (Some (key, value)) hi free, length l + 1), u'), Some tt)
      else (((gap lo (hd_error hi) hi free, length l), u'), None).
  Proof.
    intros l free key value u. pose proof (shift_spec l [] free (length l) key (length l + 1) u ltac:(lia)) as S.
    destruct (greater_from_end cmp key (rev l) u) as [[g u'] all]. cbv zeta in S |- *. destruct S as [Lg S]. split; [exact Lg|].
    unfold L_InsertNonFull. unfold xbind at 1, xget at 1. cbn [fst snd]. unfold xbind at 1.
    change (map Some l ++ repeat None (Datatypes.S free)) with (gap l (hd_error []) [] free). rewrite S.
    rewrite !app_nil_r. destruct all; [|reflexivity].
    unfold xbind at 1, xget at 1. cbn [fst snd]. unfold xbind at 1, xlift at 1.
    replace (Z.to_nat (Z.of_nat (length l - g) - 1 + 1)) with (length l - g) by lia.
    unfold gap at 1. rewrite upd_Ret.
    2:{ rewrite app_length, map_length, firstn_length. cbn [length]. lia. }
    rewrite list_set_app2 by (rewrite map_length, firstn_length; lia).
    rewrite map_length, firstn_length. replace (length l - g - Nat.min (length l - g) (length l)) with 0 by lia.
    reflexivity.
  Qed.
End Leaf.
