(** CostProofs.v -- bounds on the number of calls (C120). *)
From Coq Require Import Permutation.
From Verif Require Import Base BaseLemmas VecModel PanicSpec PanicModel CostSpec CostModel.
From Verif Require VecProofs PanicProps.
Local Open Scope nat_scope.

Section Bounded.
  Context {D U : Type}.
  Notation St := (D * (nat * U))%type.
  (** At most k more calls, and what is returned satisfies Q. *)
  Definition bounded {A} (m : X St A) (k : nat) (Q : A -> Prop) : Prop :=
    forall d n u, n <= fst (snd (fst (m (d, (n, u))))) <= n + k /\ forall a, snd (m (d, (n, u))) = Some a -> Q a.
  Lemma b_weaken {A} (m : X St A) k k' Q : bounded m k Q -> k <= k' -> bounded m k' Q.
  Proof. intros H L d n u. destruct (H d n u). split; [lia|auto]. Qed.
  Lemma b_ret {A} (a : A) (Q : A -> Prop) : Q a -> bounded (xret a) 0 Q.
  Proof. intros H d n u. cbn. split; [lia|]. intros b E. injection E as <-. exact H. Qed.
  Lemma b_lift {A} (m : out A) (Q : A -> Prop) : (forall a, m = Ret a -> Q a) -> bounded (xlift m) 0 Q.
  Proof. intros H d n u. cbn. split; [lia|]. intros b E. destruct m; try discriminate. injection E as <-. now apply H. Qed.
  Lemma b_get : bounded xget 0 (fun _ => True).
  Proof. intros d n u. cbn. split; [lia|auto]. Qed.
  Lemma b_put d' : bounded (xput d') 0 (fun _ => True).
  Proof. intros d n u. cbn. split; [lia|auto]. Qed.
  Lemma b_call {A B} (f : user U A B) a : bounded (call (counted f) a) 1 (fun _ => True).
  Proof. intros d n u. unfold call, counted. cbn [snd]. destruct (f a u) as [u' r]. cbn [fst snd]. split; [lia|auto]. Qed.
  Lemma b_bind {A B} (m : X St A) (f : A -> X St B) k1 k2 P Q : bounded m k1 P -> (forall a, P a -> bounded (f a) k2 Q) -> bounded (xbind m f) (k1 + k2) Q.
  Proof.
    intros H1 H2 d n u. unfold xbind. specialize (H1 d n u). destruct (m (d, (n, u))) as [[d1 [n1 u1]] [a|]]; cbn [fst snd] in *.
    - destruct H1 as [L H1]. specialize (H2 a (H1 a eq_refl) d1 n1 u1). destruct (f a (d1, (n1, u1))) as [[d2 [n2 u2]] r]. cbn [fst snd] in *. split; [lia|]. apply H2.
    - split; [lia|]. discriminate.
  Qed.
  (** Steps that call nothing. *)
  Lemma b_free {A B} (m : X St A) (f : A -> X St B) k P Q : bounded m 0 P -> (forall a, P a -> bounded (f a) k Q) -> bounded (xbind m f) k Q.
  Proof. intros H1 H2. exact (b_bind m f 0 k P Q H1 H2). Qed.
  Lemma b_any {A} (m : X St A) k Q : bounded m k Q -> bounded m k (fun _ => True).
  Proof. intros H d n u. destruct (H d n u). auto. Qed.
End Bounded.
Ltac free := eapply b_free; [first [apply b_get|apply b_put|apply b_lift with (Q := fun _ => True); auto]|intros ? _].

Lemma log2_half n : 2 <= n -> Nat.log2 n = S (Nat.log2 (n / 2)).
Proof.
  intros H. assert (E := Nat.div_mod n 2 ltac:(lia)). assert (L := Nat.mod_upper_bound n 2 ltac:(lia)).
  destruct (n mod 2) as [|[|r]]; [| |lia]; rewrite E at 1.
  - rewrite Nat.add_0_r. apply Nat.log2_double. lia.
  - apply Nat.log2_succ_double. lia.
Qed.

Section Heap.
  Context {T U : Type}.
  Variable cmp : user U (T * T) ordering.
  Notation c := (counted cmp).

  Lemma sift_up_cost fuel : forall start elt pos, bounded (sift_up_loop c fuel start elt pos) (Nat.log2 (pos + 1)) (fun _ => True).
  Proof.
    induction fuel as [|k IH]; intros start elt pos; cbn [sift_up_loop]; [eapply b_weaken; [apply b_lift; discriminate|lia]|].
    destruct (Nat.ltb_spec start pos) as [L|L]; [|eapply b_weaken; [apply b_ret; exact I|lia]]. cbv zeta.
    assert (E : Nat.log2 (pos + 1) = 1 + Nat.log2 ((pos - 1) / 2 + 1)).
    { rewrite log2_half by lia. replace (pos + 1) with (pos - 1 + 1 * 2) by lia. rewrite Nat.div_add by lia. reflexivity. }
    rewrite E. free. free. eapply b_bind; [apply b_call|]. intros [| |] _; try (eapply b_weaken; [apply b_ret; exact I|lia]).
    free. free. apply IH.
  Qed.
  Lemma SiftUp_cost start pos : bounded (H_SiftUp c start pos) (Nat.log2 (pos + 1)) (fun _ => True).
  Proof. unfold H_SiftUp. free. free. apply sift_up_cost. Qed.

  Definition down_bound (e s : nat) : nat := if s <=? e - 1 then Nat.log2 ((e - 1) / s) + 1 else 0.
  Lemma down_half e s s' : 0 < s -> s <= e - 1 -> 2 * s <= s' -> 1 + down_bound e s' <= down_bound e s.
  Proof.
    intros P L G. unfold down_bound. rewrite (proj2 (Nat.leb_le _ _) L). destruct (Nat.leb_spec s' (e - 1)) as [L2|L2]; [|lia].
    assert (2 <= (e - 1) / s) by (apply Nat.div_le_lower_bound; lia).
    rewrite (log2_half ((e - 1) / s)) by lia. rewrite Nat.div_div by lia.
    assert ((e - 1) / s' <= (e - 1) / (s * 2)) by (apply Nat.div_le_compat_l; lia).
    assert (Nat.log2 ((e - 1) / s') <= Nat.log2 ((e - 1) / (s * 2))) by (now apply Nat.log2_le_mono). lia.
  Qed.
  Lemma sift_down_cost fuel : forall e pos child, pos < e -> child = 2 * pos + 1 ->
    bounded (sift_down_loop c fuel e pos child) (down_bound e (child + 1)) (fun r => fst r < e /\ snd r = 2 * fst r + 1).
  Proof.
    induction fuel as [|k IH]; intros e pos child L1 L2; cbn [sift_down_loop]; [eapply b_weaken; [apply b_lift; discriminate|lia]|].
    destruct (Nat.leb_spec child (e - 2)) as [L|L]; [|eapply b_weaken; [apply b_ret; cbn [fst snd]; auto|lia]].
    free. free. free. assert (G : child + 1 <= e - 1) by lia.
    assert (A : forall ch, child <= ch <= child + 1 -> bounded (d' <! xlift (swap_data a pos ch) ;; _ <! xput d' ;; sift_down_loop c k e ch (2 * ch + 1))
                 (down_bound e (2 * ch + 2)) (fun r => fst r < e /\ snd r = 2 * fst r + 1)).
    { intros ch Hc. free. free. replace (2 * ch + 2) with (2 * ch + 1 + 1) by lia. apply IH; lia. }
    eapply b_weaken; [eapply b_bind; [apply b_call|]|exact (down_half e (child + 1) (2 * child + 2) ltac:(lia) G ltac:(lia))].
    intros o _. cbv zeta.
    assert (M : down_bound e (2 * (child + 1) + 2) <= down_bound e (2 * child + 2)).
    { unfold down_bound. destruct (Nat.leb_spec (2 * (child + 1) + 2) (e - 1)); [|lia]. rewrite (proj2 (Nat.leb_le (2 * child + 2) (e - 1))) by lia.
      assert ((e - 1) / (2 * (child + 1) + 2) <= (e - 1) / (2 * child + 2)) by (apply Nat.div_le_compat_l; lia).
      assert (Nat.log2 ((e - 1) / (2 * (child + 1) + 2)) <= Nat.log2 ((e - 1) / (2 * child + 2))) by (now apply Nat.log2_le_mono). lia. }
    destruct o; first [apply A; lia | eapply b_weaken; [apply A; lia|exact M]].
  Qed.
  Lemma SiftDown_cost (d : list T) : d <> [] -> forall n u,
    let '((_, (n', _)), _) := H_SiftDownToBottom c 0 (d, (n, u)) in n <= n' <= n + (Nat.log2 (length d - 1) + Nat.log2 (length d)).
  Proof.
    intros N n u. unfold H_SiftDownToBottom. unfold xbind at 1, xget at 1. cbn [fst].
    set (e := length d). assert (0 < e) by (destruct d; [congruence|cbn [length] in e; lia]).
    assert (B : bounded (D := list T) (U := U) (_ <! xlift (idx d 0) ;; r <! sift_down_loop c (e + 1) e 0 (2 * 0 + 1) ;; let '(p, child) := r in
       p' <! (if child =? e - 1 then d <! xget ;; d' <! xlift (swap_data d p child) ;; _ <! xput d' ;; xret child else xret p) ;; H_SiftUp c 0 p')
       (down_bound e 2 + (0 + Nat.log2 e)) (fun _ => True)).
    { free. eapply b_bind; [apply (sift_down_cost (e + 1) e 0 (2 * 0 + 1)); lia|]. intros [p child] [Lp Ec]. cbn [fst snd] in *.
      eapply b_bind with (P := fun p' => p' < e).
      - destruct (Nat.eqb_spec child (e - 1)); [|apply b_ret; exact Lp]. free. free. free. apply b_ret. lia.
      - intros p' Lp'. eapply b_weaken; [apply SiftUp_cost|]. apply Nat.log2_le_mono. lia. }
    specialize (B d n u). cbv zeta.
    match goal with |- let '(_, _) := ?m in _ => destruct m as [[d1 [n1 u1]] r] eqn:E end.
    cbn [fst snd] in B.
    assert (DB : down_bound e 2 <= Nat.log2 (e - 1)).
    { unfold down_bound. destruct (Nat.leb_spec 2 (e - 1)); [|lia]. rewrite (log2_half (e - 1)) by lia. lia. }
    lia.
  Qed.
  Lemma Push_cost (d : list T) x n u :
    let '((_, (n', _)), _) := H_Push c x (d, (n, u)) in n <= n' <= n + Nat.log2 (length d + 1).
  Proof.
    unfold H_Push. unfold xbind at 1, xget at 1. cbn [fst].
    assert (B : bounded (D := list T) (U := U) (_ <! xput (d ++ [x]) ;; H_SiftUp c 0 (length d)) (Nat.log2 (length d + 1)) (fun _ => True)) by (free; apply SiftUp_cost).
    specialize (B d n u). destruct ((_ <! xput (d ++ [x]) ;; H_SiftUp c 0 (length d)) (d, (n, u))) as [[d1 [n1 u1]] r]. cbn [fst snd] in B. lia.
  Qed.
  Lemma Pop_cost (d : list T) n u :
    let '((_, (n', _)), _) := H_Pop c (d, (n, u)) in n <= n' <= n + (Nat.log2 (length d - 2) + Nat.log2 (length d - 1)).
  Proof.
    unfold H_Pop. unfold xbind at 1, xget at 1. cbn [fst]. destruct d as [|y d0]; [cbn; lia|]. set (d := y :: d0).
    unfold xbind at 1, xlift at 1. destruct (idx d (length d - 1)) as [item| |]; [|lia|lia]. cbv zeta.
    unfold xbind at 1, xput at 1. cbn [snd]. set (rest := firstn (length d - 1) d).
    assert (Lr : length rest = length d - 1) by (apply firstn_length_le; lia).
    destruct (Nat.eqb_spec (length rest) 0) as [Z|NZ]; cbn [negb]; [cbn; lia|].
    unfold xbind at 1, xlift at 1. destruct (idx rest 0) as [top| |]; [|lia|lia].
    unfold xbind at 1, xlift at 1. destruct (upd rest 0 item) as [d'| |] eqn:Eu; [|lia|lia].
    unfold xbind at 1, xput at 1. cbn [snd].
    assert (L' : length d' = length rest).
    { unfold upd in Eu. destruct (0 <? length rest); [|discriminate]. injection Eu as <-. apply list_set_length. }
    assert (S := SiftDown_cost d' ltac:(intros ->; cbn [length] in L'; lia) n u). unfold xbind at 1.
    destruct (H_SiftDownToBottom c 0 (d', (n, u))) as [[d1 [n1 u1]] [r|]]; cbn [xret]; replace (length d - 2) with (length d' - 1) by lia; replace (length d - 1) with (length d') by lia; lia.
  Qed.
End Heap.

(** *** IntoSortedVec *)
Section Sorted.
  Context {T U : Type}.
  Variable cmp : user U (T * T) ordering.

  Lemma Pop_rest (d : list T) u : d <> [] ->
    let '((d', _), r) := H_Pop cmp (d, u) in
    length d = S (length d') /\ match r with Some o => exists x, o = Some x /\ Permutation d (x :: d') | None => ~ safe cmp /\ exists x, Permutation d (x :: d') end.
  Proof.
    destruct d as [|top d]; [congruence|]. intros _. assert (H := PanicProps.C108_heap_pop_characterised T U cmp top d u).
    destruct (H_Pop cmp (top :: d, u)) as [[d' u'] [o|]]; destruct H as [P Q]; (split; [cbn [length]; now rewrite (Permutation_length P)|]).
    - exists top. split; [exact Q|]. now constructor.
    - split; [exact Q|]. exists top. now constructor.
  Qed.
  (** After each round the elements are in the heap or at the end of the vector. *)
  Lemma sorted_ends fuel : forall (d pre post : list T) u, length d < fuel -> length pre = length d ->
    let '((d', _), r) := sorted_loop cmp fuel (pre ++ post) (Z.of_nat (length d) - 1) (d, u) in
    match r with
    | Some s => d' = [] /\ Permutation (d ++ post) s
    | None => ~ safe cmp /\ exists lost, lost <> [] /\ Permutation d (lost ++ d')
    end.
  Proof.
    induction fuel as [|k IH]; intros d pre post u L E; [lia|]. cbn [sorted_loop]. unfold xbind at 1, xget at 1. cbn [fst].
    destruct (Nat.eqb_spec (length d) 0) as [Z|NZ]; cbn [negb].
    - apply length_zero_iff_nil in Z. subst d. apply length_zero_iff_nil in E. subst pre. cbn. auto.
    - assert (N : d <> []) by (intros ->; cbn in NZ; lia). assert (H := Pop_rest d u N). unfold xbind at 1.
      destruct (H_Pop cmp (d, u)) as [[d' u'] [o|]]; destruct H as [Ld H].
      + destruct H as (x & -> & P). unfold xbind at 1, xlift at 1. cbn [of_option].
        destruct (Z.ltb_spec (Z.of_nat (length d) - 1) 0) as [|_]; [lia|].
        destruct (@exists_last _ pre) as (pre' & y & ->); [intros ->; cbn [length] in E; lia|].
        rewrite app_length in E. cbn [length] in E. rewrite <- app_assoc. cbn [app].
        assert (Eu : upd (pre' ++ y :: post) (Z.to_nat (Z.of_nat (length d) - 1)) x = Ret (pre' ++ x :: post)).
        { replace (Z.to_nat (Z.of_nat (length d) - 1)) with (length pre') by lia. rewrite upd_Ret by (rewrite app_length; cbn [length]; lia).
          f_equal. clear. induction pre' as [|z pre' IH]; cbn [list_set length app]; [reflexivity|]. now rewrite IH. }
        unfold xbind at 1, xlift at 1. rewrite Eu. replace (Z.of_nat (length d) - 1 - 1)%Z with (Z.of_nat (length d') - 1)%Z by lia.
        assert (G := IH d' pre' (x :: post) u' ltac:(lia) ltac:(lia)).
        destruct (sorted_loop cmp k (pre' ++ x :: post) (Z.of_nat (length d') - 1) (d', u')) as [[d2 u2] [s|]].
        * destruct G as [G1 G2]. split; [exact G1|]. rewrite <- G2, P. cbn [app]. apply Permutation_middle.
        * destruct G as [G1 (lost & G2 & G3)]. split; [exact G1|]. exists (x :: lost). split; [discriminate|]. rewrite P. cbn [app]. now constructor.
      + destruct H as [S (x & P)]. split; [exact S|]. exists [x]. split; [discriminate|exact P].
  Qed.
  Notation c := (counted cmp).
  Lemma sorted_cost fuel : forall (d s : list T) i n u,
    let '((_, (n', _)), _) := sorted_loop c fuel s i (d, (n, u)) in n <= n' <= n + 2 * length d * Nat.log2 (length d).
  Proof.
    induction fuel as [|k IH]; intros d s i n u; [cbn; lia|]. cbn [sorted_loop]. unfold xbind at 1, xget at 1. cbn [fst].
    destruct (Nat.eqb_spec (length d) 0) as [Z|NZ]; cbn [negb]; [cbn [xret]; lia|].
    assert (N : d <> []) by (intros ->; cbn in NZ; lia). assert (H := Pop_cost cmp d n u). unfold xbind at 1.
    assert (R : forall V (f : user V (T * T) ordering) v, length d = S (length (fst (fst (H_Pop f (d, v)))))).
    { intros V f v. destruct d as [|top d0]; [congruence|]. assert (Q := PanicProps.C108_heap_pop_characterised T V f top d0 v).
      destruct (H_Pop f (top :: d0, v)) as [[d' u'] o]. destruct Q as [P _]. cbn [fst length]. now rewrite (Permutation_length P). }
    specialize (R _ c (n, u)). destruct (H_Pop c (d, (n, u))) as [[d' [n1 u1]] [o|]]; cbn [fst] in R.
    - assert (L1 : Nat.log2 (length d - 2) <= Nat.log2 (length d)) by (apply Nat.log2_le_mono; lia).
      assert (L2 : Nat.log2 (length d - 1) <= Nat.log2 (length d)) by (apply Nat.log2_le_mono; lia).
      assert (L3 : length d' * Nat.log2 (length d') <= length d' * Nat.log2 (length d)) by (apply Nat.mul_le_mono_l, Nat.log2_le_mono; lia).
      assert (F : forall m, n1 <= m <= n1 + 2 * length d' * Nat.log2 (length d') -> n <= m <= n + 2 * length d * Nat.log2 (length d)).
      { intros m Hm. rewrite R. rewrite R in L1, L2, L3. rewrite R in H. nia. }
      unfold xbind at 1, xlift at 1. destruct (of_option o) as [x| |]; [|apply F; lia|apply F; lia].
      unfold xbind at 1, xlift at 1. destruct (if (i <? 0)%Z then _ else _) as [s'| |]; [|apply F; lia|apply F; lia].
      specialize (IH d' s' (i - 1)%Z n1 u1). destruct (sorted_loop c k s' (i - 1) (d', (n1, u1))) as [[d2 [n2 u2]] r]. apply F, IH.
    - assert (L1 : Nat.log2 (length d - 2) <= Nat.log2 (length d)) by (apply Nat.log2_le_mono; lia).
      assert (L2 : Nat.log2 (length d - 1) <= Nat.log2 (length d)) by (apply Nat.log2_le_mono; lia). rewrite R in *. nia.
  Qed.
End Sorted.

(** *** Searching *)
Section Search.
  Context {T U : Type}.
  Variable f : user U T ordering.
  Definition search_bound (s : Z) : nat := if (s <=? 0)%Z then 0 else Nat.log2 (Z.to_nat s) + 1.
  Lemma search_half s s' : (0 < s)%Z -> (2 * s' <= s)%Z -> 1 + search_bound s' <= search_bound s.
  Proof.
    intros P L. unfold search_bound. destruct (Z.leb_spec s 0); [lia|]. destruct (Z.leb_spec s' 0) as [L2|L2]; [lia|].
    rewrite (log2_half (Z.to_nat s)) by lia.
    assert (Z.to_nat s' <= Z.to_nat s / 2) by (apply Nat.div_le_lower_bound; lia).
    assert (Nat.log2 (Z.to_nat s') <= Nat.log2 (Z.to_nat s / 2)) by (now apply Nat.log2_le_mono). lia.
  Qed.
  Lemma search_cost fuel : forall low high, bounded (D := list T) (search_loop fuel (counted f) low high) (search_bound (high - low + 1)) (fun _ => True).
  Proof.
    induction fuel as [|k IH]; intros low high; cbn [search_loop]; [eapply b_weaken; [apply b_lift; discriminate|lia]|].
    destruct (Z.leb_spec low high) as [L|L]; [|eapply b_weaken; [apply b_ret; exact I|lia]]. cbv zeta.
    assert (M : (2 * ((low + high) / 2) <= low + high < 2 * ((low + high) / 2) + 2)%Z).
    { assert (E := Z.div_mod (low + high) 2 ltac:(lia)). assert (B := Z.mod_pos_bound (low + high) 2 ltac:(lia)). lia. }
    set (mid := ((low + high) / 2)%Z) in *. free. free.
    assert (A : forall s, (2 * s <= high - low + 1)%Z -> 1 + search_bound s <= search_bound (high - low + 1)) by (intros s H; apply search_half; lia).
    assert (Z0 : 1 + 0 <= search_bound (high - low + 1)) by (apply (A 0%Z); lia).
    destruct (search_bound (high - low + 1)) as [|b]; [lia|]. change (S b) with (1 + b).
    eapply b_bind; [apply b_call|]. intros [| |] _.
    - eapply b_weaken; [apply IH|]. specialize (A (high - (mid + 1) + 1)%Z). lia.
    - eapply b_weaken; [apply b_ret; exact I|lia].
    - eapply b_weaken; [apply IH|]. specialize (A (mid - 1 - low + 1)%Z). lia.
  Qed.
  (** It returns unless f panics, leaves the elements alone, and answers as the function in VecModel. *)
  Lemma search_ends fuel : forall low high (d : list T) u, (0 <= low <= high + 1)%Z -> (high < Z.of_nat (length d))%Z -> (high - low + 1 < Z.of_nat fuel)%Z ->
    let '((d', _), r) := search_loop fuel f low high (d, u) in d' = d /\ (r = None -> ~ safe f) /\
      forall g, (forall x u o, snd (f x u) = Some o -> o = g x) -> forall a, r = Some a -> VecModel.search_loop fuel (fun x => Ret (g x)) d low high = Ret a.
  Proof.
    induction fuel as [|k IH]; intros low high d u B1 B2 B3; [lia|]. cbn [search_loop VecModel.search_loop].
    destruct (Z.leb_spec low high) as [L|L]; [|cbn [xret]; split; [reflexivity|]; split; [discriminate|]; intros g _ a [= <-]; reflexivity].
    cbv zeta. assert (M : (low <= (low + high) / 2 <= high)%Z) by (split; [apply Z.div_le_lower_bound|apply Z.div_le_upper_bound]; lia).
    set (mid := ((low + high) / 2)%Z) in *. unfold xbind at 1, xget at 1. cbn [fst]. unfold xbind at 1, xlift at 1.
    destruct (nth_error d (Z.to_nat mid)) as [x|] eqn:N; [|apply nth_error_None in N; lia]. rewrite (VecProofs.idx_nth_error _ _ _ N).
    unfold xbind at 1, call at 1. cbn [fst snd]. destruct (f x u) as [u' [o|]] eqn:Ef; cbn [bind].
    - assert (G : forall g, (forall x u o, snd (f x u) = Some o -> o = g x) -> g x = o) by (intros g Hg; symmetry; apply (Hg x u); now rewrite Ef).
      destruct o.
      + specialize (IH (mid + 1)%Z high d u' ltac:(lia) B2 ltac:(lia)). destruct (search_loop k f (mid + 1) high (d, u')) as [[d' u2] r].
        destruct IH as (I1 & I2 & I3). split; [exact I1|]. split; [exact I2|]. intros g Hg a Ea. rewrite (G g Hg). now apply I3.
      + cbn [xret]. split; [reflexivity|]. split; [discriminate|]. intros g Hg a [= <-]. now rewrite (G g Hg).
      + specialize (IH low (mid - 1)%Z d u' ltac:(lia) ltac:(lia) ltac:(lia)). destruct (search_loop k f low (mid - 1) (d, u')) as [[d' u2] r].
        destruct IH as (I1 & I2 & I3). split; [exact I1|]. split; [exact I2|]. intros g Hg a Ea. rewrite (G g Hg). now apply I3.
    - split; [reflexivity|]. split; [|discriminate]. intros _ Sf. apply (Sf x u). now rewrite Ef.
  Qed.
End Search.
