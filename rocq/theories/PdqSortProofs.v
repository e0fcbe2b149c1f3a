(** PdqSortProofs.v -- the library's unstable sort sorts. *)
From Coq Require Import Permutation Sorted Wf_nat.
From Verif Require Import Base BaseLemmas CmpSpec VecModel VecSpec VecProofs VecSortProofs StableSortModel StableSortProofs PdqSortModel.

Section Pdq.
  Context {T : Type}.
  Variable cmp : T -> T -> ordering.
  Variable rnd : nat -> nat -> nat.
  Variable z : T.
  Let less a b := is_less (cmp a b).
  Let lessO a b := Ret (less a b).
  Notation TP := (total_preorder cmp).
  Notation "d @ i" := (nth i d z) (at level 30, right associativity).
  Implicit Types d : list T.

  (** *** Changes inside a part of the slice *)
  Definition seg (a b : nat) d d' : Prop :=
    length d' = length d /\ Permutation d d' /\ forall k, k < a \/ b <= k -> d' @ k = d @ k.
  Lemma seg_refl a b d : seg a b d d.
  Proof. repeat split; auto. Qed.
  Lemma seg_trans a b d d1 d2 : seg a b d d1 -> seg a b d1 d2 -> seg a b d d2.
  Proof.
    intros (L1 & P1 & N1) (L2 & P2 & N2). split; [congruence|]. split; [eapply perm_trans; eauto|]. intros k H. rewrite N2, N1 by exact H. reflexivity.
  Qed.
  Lemma seg_wide a b a' b' d d' : seg a b d d' -> a' <= a -> b <= b' -> seg a' b' d d'.
  Proof. intros (L & P & N) A B. split; [exact L|]. split; [exact P|]. intros k H. apply N. lia. Qed.
  Lemma seg_len a b d d' : seg a b d d' -> length d' = length d.
  Proof. now intros (L & _). Qed.
  Lemma seg_out a b d d' k : seg a b d d' -> k < a \/ b <= k -> d' @ k = d @ k.
  Proof. intros (_ & _ & N). apply N. Qed.
  Lemma cut3 d a b : a <= b -> b <= length d -> exists P M Q, d = P ++ M ++ Q /\ length P = a /\ length M = b - a.
  Proof.
    intros A B. exists (firstn a d), (firstn (b - a) (skipn a d)), (skipn (b - a) (skipn a d)). rewrite !firstn_skipn. split; [reflexivity|].
    rewrite !firstn_length, skipn_length. lia.
  Qed.
  Lemma list_ext d d' : length d = length d' -> (forall k, k < length d -> d @ k = d' @ k) -> d = d'.
  Proof. intros L H. apply (nth_ext d d' z z L H). Qed.
  Lemma seg_perm a b d d' : seg a b d d' -> a <= b -> b <= length d ->
    exists P M M' Q, d = P ++ M ++ Q /\ d' = P ++ M' ++ Q /\ length P = a /\ length M = b - a /\ Permutation M M'.
  Proof.
    intros (L & PM & N) A B. destruct (cut3 d a b A B) as (P & M & Q & E & LP & LM). destruct (cut3 d' a b A ltac:(lia)) as (P' & M' & Q' & E' & LP' & LM').
    assert (LL : length P + (length M + length Q) = length P' + (length M' + length Q')) by (rewrite <- !app_length, <- E, <- E'; lia).
    assert (EP : P = P').
    { apply list_ext; [lia|]. intros k K. specialize (N k ltac:(lia)). rewrite E, E' in N. rewrite !app_nth1 in N by lia. now symmetry. }
    assert (EQ : Q = Q').
    { apply list_ext; [lia|]. intros k K. specialize (N (b + k) ltac:(lia)). rewrite E, E' in N. rewrite !app_assoc in N.
      rewrite !app_nth2 in N by (rewrite app_length; lia). rewrite !app_length in N. replace (b + k - (length P' + length M')) with k in N by lia.
      replace (b + k - (length P + length M)) with k in N by lia. now symmetry. }
    subst P' Q'. exists P, M, M', Q. split; [exact E|]. split; [exact E'|]. split; [exact LP|]. split; [exact LM|].
    rewrite E, E' in PM. apply Permutation_app_inv_l in PM. now apply Permutation_app_inv_r in PM.
  Qed.
  Lemma seg_forall a b d d' (R : T -> Prop) : seg a b d d' -> b <= length d ->
    (forall k, a <= k < b -> R (d @ k)) -> forall k, a <= k < b -> R (d' @ k).
  Proof.
    intros S B H k K. destruct (seg_perm a b d d' S ltac:(lia) B) as (P & M & M' & Q & E & E' & LP & LM & PM).
    assert (LM' := Permutation_length PM).
    assert (I : In (d' @ k) M'). { rewrite E', app_nth2, app_nth1 by lia. apply nth_In. lia. }
    apply (Permutation_in _ (Permutation_sym PM)) in I. apply (In_nth _ _ z) in I. destruct I as (i & Li & Ei).
    assert (G := H (a + i) ltac:(lia)). rewrite E, app_nth2, app_nth1 in G by lia. replace (a + i - length P) with i in G by lia. now rewrite Ei in G.
  Qed.

  Lemma nth_seq_set d k x i : k < length d -> nth i (seq_set d k x) z = if i =? k then x else nth i d z.
  Proof.
    intros K. assert (E := nth_error_seq_set d k x i). destruct (Nat.eqb_spec i k) as [->|N].
    - apply nth_error_nth. rewrite E by exact K. reflexivity.
    - destruct (Nat.lt_ge_cases i (length d)) as [G|G].
      + apply nth_error_nth. rewrite E by exact K. now apply nth_error_nth'.
      + rewrite !nth_overflow; [reflexivity|exact G|]. rewrite seq_set_length by exact K. exact G.
  Qed.
  Lemma two_places d i j : i < j -> j < length d -> exists P x Y y Q, d = P ++ x :: Y ++ y :: Q /\ i = length P /\ j = length P + S (length Y).
  Proof.
    intros I J. destruct (nth_split d z (n := i)) as (P & R & E & LP); [lia|]. assert (LR : length d = length P + S (length R)) by (rewrite E, app_length; reflexivity).
    destruct (nth_split R z (n := j - i - 1)) as (Y & Q & ER & LY); [lia|]. exists P, (d @ i), Y, (nth (j - i - 1) R z), Q. rewrite <- ER. split; [exact E|]. lia.
  Qed.
  Lemma swap_data_perm d i j d' : i < length d -> j < length d -> swap_data d i j = Ret d' -> Permutation d d'.
  Proof.
    intros I J E.
    assert (G : forall (P : list T) x Y y Q, Permutation (P ++ x :: Y ++ y :: Q) (P ++ y :: Y ++ x :: Q)).
    { intros P x Y y Q. apply Permutation_app_head. transitivity (y :: x :: Y ++ Q); [|constructor; apply Permutation_middle].
      transitivity (x :: y :: Y ++ Q); [constructor; symmetry; apply Permutation_middle|constructor]. }
    destruct (Nat.lt_trichotomy i j) as [L|[->|L]].
    - destruct (two_places d i j L J) as (P & x & Y & y & Q & -> & Ei & Ej). rewrite (proj1 (swap_mid P x Y y Q i j Ei Ej)) in E. injection E as <-. apply G.
    - rewrite (swap_data_spec d j j _ _ (nth_error_nth' d z J) (nth_error_nth' d z J)) in E. injection E as <-.
      assert (X : d = seq_set (seq_set d j (d @ j)) j (d @ j)); [|rewrite <- X; reflexivity].
      apply list_ext; [rewrite !seq_set_length; auto; rewrite seq_set_length; auto|]. intros k K. rewrite !nth_seq_set by (try rewrite seq_set_length; auto).
      destruct (Nat.eqb_spec k j) as [->|]; reflexivity.
    - destruct (two_places d j i L I) as (P & x & Y & y & Q & -> & Ei & Ej). rewrite (proj2 (swap_mid P x Y y Q j i Ei Ej)) in E. injection E as <-. apply G.
  Qed.
  Lemma swap_at d i j : i < length d -> j < length d -> exists d', swap_data d i j = Ret d' /\ length d' = length d /\ Permutation d d' /\
    (forall a b, a <= i < b -> a <= j < b -> seg a b d d') /\ d' @ i = d @ j /\ d' @ j = d @ i /\ (forall k, k <> i -> k <> j -> d' @ k = d @ k).
  Proof.
    intros I J. exists (seq_set (seq_set d i (d @ j)) j (d @ i)).
    assert (N : forall k, seq_set (seq_set d i (d @ j)) j (d @ i) @ k = if k =? j then d @ i else if k =? i then d @ j else d @ k).
    { intros k. rewrite nth_seq_set by (rewrite seq_set_length; exact I || exact J). destruct (Nat.eqb_spec k j); [reflexivity|]. now rewrite nth_seq_set by exact I. }
    assert (L : length (seq_set (seq_set d i (d @ j)) j (d @ i)) = length d) by (rewrite !seq_set_length; auto; rewrite seq_set_length; auto).
    assert (E := swap_data_spec d i j _ _ (nth_error_nth' d z I) (nth_error_nth' d z J)).
    assert (P : Permutation d (seq_set (seq_set d i (d @ j)) j (d @ i))) by (apply (swap_data_perm d i j); auto).
    split; [exact E|]. split; [exact L|]. split; [exact P|]. split; [|split; [|split]].
    - intros a b A B. split; [exact L|]. split; [exact P|]. intros k K. rewrite N. destruct (Nat.eqb_spec k j); [lia|]. destruct (Nat.eqb_spec k i); [lia|reflexivity].
    - rewrite N, Nat.eqb_refl. destruct (Nat.eqb_spec i j) as [->|]; reflexivity.
    - rewrite N, Nat.eqb_refl. reflexivity.
    - intros k K1 K2. rewrite N. destruct (Nat.eqb_spec k j); [lia|]. destruct (Nat.eqb_spec k i); [lia|reflexivity].
  Qed.
  Lemma less_nth d i j : i < length d -> j < length d -> less_at lessO d i j = Ret (less (d @ i) (d @ j)).
  Proof. apply (less_at_nth cmp). Qed.
  Ltac at_less := rewrite less_nth by lia; cbn [bind].

  Definition le a b := le_by cmp a b.
  Lemma le_refl : TP -> forall a, le a a.
  Proof. intros tp a. now apply le_refl'. Qed.
  Lemma le_tr : TP -> forall a b c, le a b -> le b c -> le a c.
  Proof. intros tp a b c. apply (tp_trans _ tp). Qed.
  Lemma lt_le a b : less a b = true -> le a b.
  Proof. apply less_le. Qed.
  Lemma nlt_le : TP -> forall a b, less a b = false -> le b a.
  Proof. intros tp a b H. now apply (le_not_less cmp tp). Qed.
  Lemma le_nlt : TP -> forall a b, le b a -> less a b = false.
  Proof. intros tp a b H. now apply (le_not_less cmp tp). Qed.

  Definition sorted (a b : nat) d : Prop := forall i j, a <= i < j -> j < b -> le (d @ i) (d @ j).
  Definition above (a b : nat) d : Prop := 0 < a -> forall k, a <= k < b -> le (d @ (a - 1)) (d @ k).
  Lemma above_seg a b d d' : seg a b d d' -> b <= length d -> above a b d -> above a b d'.
  Proof.
    intros S B H A. rewrite (seg_out _ _ _ _ (a - 1) S) by lia. apply (seg_forall a b d d' (fun x => le (d @ (a - 1)) x) S B). now apply H.
  Qed.

  (** *** Insertion sort *)
  Lemma shift_left_seg n : forall d j, n <= j -> j < length d -> exists d', shift_left lessO n d j = Ret d' /\ seg (j - n) (j + 1) d d'.
  Proof.
    induction n as [|n IH]; intros d j A B; cbn [shift_left]; [exists d; split; [reflexivity|apply seg_refl]|]. at_less.
    destruct (less (d @ j) (d @ (j - 1))); [|exists d; split; [reflexivity|apply seg_refl]].
    destruct (swap_at d j (j - 1)) as (d1 & E & L & _ & S & _); [lia|lia|]. rewrite E. cbn [bind].
    destruct (IH d1 (j - 1)) as (d' & E' & S'); [lia|lia|]. exists d'. split; [exact E'|].
    eapply seg_trans; [apply (S (j - Datatypes.S n) (j + 1)); lia|]. eapply seg_wide; [exact S'|lia|lia].
  Qed.
  Lemma shift_left_sorts n : TP -> forall d j lo d', shift_left lessO n d j = Ret d' -> n <= j -> j < length d -> lo <= j -> j - lo <= n ->
    (n = j - lo \/ above lo (j + 1) d) -> sorted lo j d -> seg lo (j + 1) d d' /\ sorted lo (j + 1) d'.
  Proof.
    intros tp. induction n as [|n IH]; intros d j lo d' E A B Lo N Ab So; cbn [shift_left] in E.
    - injection E as <-. split; [apply seg_refl|]. intros i k; lia.
    - rewrite less_nth in E by lia. cbn [bind] in E. destruct (less (d @ j) (d @ (j - 1))) eqn:Le.
      + destruct (swap_at d j (j - 1)) as (d1 & E1 & L & _ & S & N1 & N2 & N3); [lia|lia|]. rewrite E1 in E. cbn [bind] in E.
        assert (J : lo < j).
        { destruct (Nat.eq_dec lo j) as [->|]; [|lia]. exfalso. destruct Ab as [Ab|Ab]; [lia|]. specialize (Ab ltac:(lia) j ltac:(lia)).
          apply (le_nlt tp) in Ab. congruence. }
        assert (Ab1 : n = j - 1 - lo \/ above lo (j - 1 + 1) d1).
        { destruct Ab as [Ab|Ab]; [left; lia|right]. intros L0 k K. assert (G := above_seg lo (j + 1) d d1 (S lo (j + 1) ltac:(lia) ltac:(lia)) ltac:(lia) Ab L0 k). apply G. lia. }
        destruct (IH d1 (j - 1) lo d' E) as (S' & So'); [lia|lia|lia|lia|exact Ab1| |].
        { intros i k I K. rewrite !N3 by lia. apply So; lia. }
        replace (j - 1 + 1) with j in * by lia. split.
        * eapply seg_trans; [apply (S lo (j + 1)); lia|]. eapply seg_wide; [exact S'|lia|lia].
        * intros i k I K. destruct (Nat.eq_dec k j) as [->|Nk]; [|apply So'; lia]. rewrite (seg_out _ _ _ _ j S') by lia. rewrite N1.
          apply (seg_forall lo j d1 d' (fun x => le x (d @ (j - 1))) S'); [lia| |lia].
          intros k' K'. destruct (Nat.eq_dec k' (j - 1)) as [->|Nk']; [rewrite N2; now apply lt_le|]. rewrite N3 by lia. apply So; lia.
      + injection E as <-. split; [apply seg_refl|]. intros i k I K. destruct (Nat.eq_dec k j) as [->|Nk]; [|apply So; lia].
        apply (nlt_le tp) in Le. destruct (Nat.eq_dec i (j - 1)) as [->|Ni]; [exact Le|]. eapply (le_tr tp); [apply (So i (j - 1)); lia|exact Le].
  Qed.
  Lemma insertionSort_at d a b : a <= b -> b <= length d -> exists d', insertionSort lessO d a b = Ret d' /\ seg a b d d' /\ (TP -> sorted a b d').
  Proof.
    intros A B. unfold insertionSort.
    enough (G : forall n i e, seg a b d e -> (TP -> sorted a i e) -> a < i -> i + n = b ->
      exists d', oloop (fun d i => shift_left lessO (i - a) d i) (seq i n) e = Ret d' /\ seg a b d d' /\ (TP -> sorted a b d')).
    { destruct (Nat.eq_dec a b) as [->|N].
      - replace (b - (b + 1)) with 0 by lia. exists d. split; [reflexivity|]. split; [apply seg_refl|]. intros _ i j; lia.
      - apply (G (b - (a + 1)) (a + 1) d); [apply seg_refl|intros _ i j; lia|lia|lia]. }
    induction n as [|n IH]; intros i e S So Ai Eb; cbn [seq oloop].
    - exists e. replace b with i in * by lia. auto.
    - assert (Le := seg_len _ _ _ _ S). destruct (shift_left_seg (i - a) e i) as (e1 & E1 & S1); [lia|lia|]. rewrite E1. cbn [bind].
      apply (IH (Datatypes.S i) e1); [|intros tp|lia|lia].
      + eapply seg_trans; [exact S|]. eapply seg_wide; [exact S1|lia|lia].
      + destruct (shift_left_sorts (i - a) tp e i a e1 E1) as (_ & R); [lia|lia|lia|lia|now left|now apply So|]. replace (Datatypes.S i) with (i + 1) by lia. exact R.
  Qed.

  (** *** Heap sort *)
  Definition par (c : nat) := (c - 1) / 2.
  Lemma par_lt c : 1 <= c -> par c < c.
  Proof. intros H. apply Nat.div_lt_upper_bound; lia. Qed.
  Lemma par_child r c : 1 <= c -> par c = r <-> c = 2 * r + 1 \/ c = 2 * r + 2.
  Proof.
    intros H. unfold par. assert (D := Nat.div_mod (c - 1) 2 ltac:(lia)). assert (M := Nat.mod_upper_bound (c - 1) 2 ltac:(lia)). split; lia.
  Qed.
  Definition heap_except (first lo hi r : nat) d : Prop :=
    (forall c, 1 <= c < hi -> lo <= par c -> par c <> r -> le (d @ (first + c)) (d @ (first + par c))) /\
    (forall c, 1 <= c < hi -> par c = r -> 1 <= r -> lo <= par r -> le (d @ (first + c)) (d @ (first + par r))).
  Definition heap (first lo hi : nat) d : Prop := forall c, 1 <= c < hi -> lo <= par c -> le (d @ (first + c)) (d @ (first + par c)).

  Lemma siftDown_at fuel : forall d root hi first, hi < fuel + root -> first + hi <= length d -> root <= hi ->
    exists d', siftDown lessO fuel d root hi first = Ret d' /\ seg first (first + hi) d d' /\
      (TP -> forall lo, lo <= root -> heap_except first lo hi root d -> heap first lo hi d').
  Proof.
    induction fuel as [|fuel IH]; intros d root hi first F B Ro; [lia|]. cbn [siftDown]. cbv zeta.
    destruct (Nat.leb_spec hi (2 * root + 1)) as [C|C].
    { exists d. split; [reflexivity|]. split; [apply seg_refl|]. intros tp lo Lo (H & _) c Hc Hp. apply H; auto. intros E. apply (par_child root c) in E; lia. }
    assert (CH : exists c, (if 2 * root + 1 + 1 <? hi then less_at lessO d (first + (2 * root + 1)) (first + (2 * root + 1) + 1) else Ret false) = Ret c /\
      let ch := if c then 2 * root + 1 + 1 else 2 * root + 1 in ch < hi /\ root < ch /\ (ch = 2 * root + 1 \/ ch = 2 * root + 2) /\
      (TP -> forall s, s = 2 * root + 1 \/ s = 2 * root + 2 -> s < hi -> le (d @ (first + s)) (d @ (first + ch)))).
    { destruct (Nat.ltb_spec (2 * root + 1 + 1) hi) as [C2|C2].
      - rewrite less_nth by lia. eexists. split; [reflexivity|]. cbv zeta. destruct (less _ _) eqn:Le.
        + split; [lia|]. split; [lia|]. split; [lia|]. intros tp s [->| ->] Hs; replace (first + (2 * root + 1 + 1)) with (first + (2 * root + 1) + 1) by lia; [now apply lt_le|].
          replace (first + (2 * root + 2)) with (first + (2 * root + 1) + 1) by lia. now apply le_refl.
        + split; [lia|]. split; [lia|]. split; [lia|]. intros tp s [->| ->] Hs; [now apply le_refl|].
          replace (first + (2 * root + 2)) with (first + (2 * root + 1) + 1) by lia. now apply (nlt_le tp).
      - exists false. split; [reflexivity|]. cbv zeta. split; [lia|]. split; [lia|]. split; [lia|]. intros tp s [->| ->] Hs; [now apply le_refl|lia]. }
    destruct CH as (c & -> & CH). cbn [bind]. cbv zeta in CH. set (ch := if c then 2 * root + 1 + 1 else 2 * root + 1) in *.
    destruct CH as (C1 & C2 & C3 & Mx). clearbody ch. at_less. destruct (less (d @ (first + root)) (d @ (first + ch))) eqn:Le; cbn [negb].
    - destruct (swap_at d (first + root) (first + ch)) as (d1 & E1 & L & _ & S & N1 & N2 & N3); [lia|lia|]. rewrite E1. cbn [bind].
      destruct (IH d1 ch hi first) as (d' & E' & S' & H'); [lia|lia|lia|]. exists d'. split; [exact E'|]. split; [eapply seg_trans; [apply (S first (first + hi)); lia|exact S']|].
      intros tp lo Lo (H1 & H2). apply (H' tp lo ltac:(lia)).
      assert (Pch : par ch = root) by (apply par_child; lia).
      assert (D : forall k, k < hi -> k <> root -> k <> ch -> d1 @ (first + k) = d @ (first + k)) by (intros k K K1 K2; apply N3; lia).
      split.
      + intros x Hx Hp Np. destruct (Nat.eq_dec x ch) as [->|Nx].
        * rewrite Pch, N1, N2. now apply lt_le.
        * destruct (Nat.eq_dec (par x) root) as [Er|Nr].
          -- rewrite Er, N1, D by (try lia; intros ->; assert (Q := par_lt root ltac:(lia)); lia). apply (Mx tp); [apply par_child; [lia|exact Er]|lia].
          -- destruct (Nat.eq_dec x root) as [->|Nxr].
             ++ rewrite N1, D by (try lia; assert (Q := par_lt root ltac:(lia)); lia). apply H2; [lia|exact Pch|lia|exact Hp].
             ++ assert (Q := par_lt x ltac:(lia)). rewrite !D by lia. now apply H1.
      + intros x Hx Ex Hc Hl. rewrite Pch, N1. assert (Q := par_lt x ltac:(lia)). rewrite D by lia. rewrite <- Ex. apply H1; [lia|lia|lia].
    - exists d. split; [reflexivity|]. split; [apply seg_refl|]. intros tp lo Lo (H1 & H2) x Hx Hp. destruct (Nat.eq_dec (par x) root) as [Er|Nr]; [|now apply H1].
      rewrite Er. eapply (le_tr tp); [apply (Mx tp); [apply par_child; [lia|exact Er]|lia]|]. now apply (nlt_le tp).
  Qed.
  Lemma heap_root first hi d : TP -> heap first 0 hi d -> forall k, k < hi -> le (d @ (first + k)) (d @ (first + 0)).
  Proof.
    intros tp H. induction k as [k IH] using lt_wf_ind. intros K. destruct (Nat.eq_dec k 0) as [->|N]; [now apply le_refl|].
    assert (Q := par_lt k ltac:(lia)). eapply (le_tr tp); [apply H; lia|]. apply IH; lia.
  Qed.
  Lemma heapSort_at d a b : a <= b -> b <= length d -> exists d', heapSort lessO d a b = Ret d' /\ seg a b d d' /\ (TP -> sorted a b d').
  Proof.
    intros A B. unfold heapSort. cbv zeta. set (hi := b - a). assert (Hb : a + hi = b) by (unfold hi; lia). clearbody hi.
    assert (G1 : forall n e, seg a b d e -> n <= hi + 1 -> (TP -> heap a n hi e) ->
      exists d1, oloop (fun d i => siftDown lessO (hi + 1) d i hi a) (rev (seq 0 n)) e = Ret d1 /\ seg a b d d1 /\ (TP -> heap a 0 hi d1)).
    { induction n as [|n IH]; intros e S N H.
      - cbn [seq rev oloop]. exists e. auto.
      - rewrite seq_S, rev_app_distr. cbn [rev app oloop]. rewrite Nat.add_0_l. assert (Le := seg_len _ _ _ _ S).
        destruct (siftDown_at (hi + 1) e n hi a) as (e1 & E1 & S1 & H1); [lia|lia|lia|]. rewrite E1. cbn [bind].
        apply IH; [eapply seg_trans; [exact S|]; now rewrite Hb in S1|lia|]. intros tp. apply (H1 tp n); [lia|]. split.
        + intros c Hc Hp Np. apply (H tp); lia.
        + intros c Hc Ep H0 Hl. assert (Q := par_lt n ltac:(lia)). lia. }
    destruct (G1 ((hi - 1) / 2 + 1) d) as (d1 & E1 & S1 & H1); [apply seg_refl| | |].
    { assert (hi - 1 = 0 \/ (hi - 1) / 2 < hi - 1) by (destruct (Nat.eq_dec (hi - 1) 0); [now left|right; apply Nat.div_lt; lia]).
      destruct H as [-> |H]; [cbn; lia|lia]. }
    { intros _ c Hc Hp. exfalso. unfold par in Hp. assert ((c - 1) / 2 <= (hi - 1) / 2) by (apply Nat.div_le_mono; lia). lia. }
    rewrite E1. cbn [bind].
    enough (G2 : forall n e, seg a b d e -> n <= hi -> (TP -> heap a 0 n e /\ sorted (a + n) b e /\ (forall i k, i < n -> n <= k < hi -> le (e @ (a + i)) (e @ (a + k)))) ->
      exists d2, oloop (fun d i => d' <- swap_data d a (a + i) ;; siftDown lessO (hi + 1) d' 0 i a) (rev (seq 0 n)) e = Ret d2 /\ seg a b d d2 /\ (TP -> sorted a b d2)).
    { apply (G2 hi d1 S1 ltac:(lia)). intros tp. split; [now apply H1|]. split; [intros i k; lia|intros i k; lia]. }
    induction n as [|n IH]; intros e S N H.
    - cbn [seq rev oloop]. exists e. split; [reflexivity|]. split; [exact S|]. intros tp. destruct (H tp) as (_ & R & _). now rewrite Nat.add_0_r in R.
    - rewrite seq_S, rev_app_distr. cbn [rev app oloop]. rewrite Nat.add_0_l. assert (Le := seg_len _ _ _ _ S).
      destruct (swap_at e a (a + n)) as (e1 & E & L & _ & Sw & N1 & N2 & N3); [lia|lia|]. rewrite E. cbn [bind].
      destruct (siftDown_at (hi + 1) e1 0 n a) as (e2 & E2 & S2 & H2); [lia|lia|lia|]. rewrite E2. cbn [bind].
      apply IH; [|lia|].
      + eapply seg_trans; [exact S|]. eapply seg_trans; [apply (Sw a b); lia|]. eapply seg_wide; [exact S2|lia|lia].
      + intros tp. destruct (H tp) as (Hh & Hs & Hx). split; [|split].
        * apply (H2 tp 0 ltac:(lia)). split; [|intros; lia]. intros c Hc _ Np. assert (Q := par_lt c ltac:(lia)). rewrite !N3 by lia. apply Hh; lia.
        * intros i j I J. rewrite !(seg_out _ _ _ _ _ S2) by lia. destruct (Nat.eq_dec i (a + n)) as [->|Ni].
          -- rewrite N2, N3 by lia. replace a with (a + 0) at 1 by lia. replace j with (a + (j - a)) by lia. apply Hx; lia.
          -- rewrite !N3 by lia. apply Hs; lia.
        * intros i k I K. rewrite (seg_out _ _ _ _ (a + k) S2) by lia.
          assert (G := seg_forall a (a + n) e1 e2 (fun x => le x (e1 @ (a + k))) S2 ltac:(lia)). apply G; [|lia]. intros m M.
          replace m with (a + (m - a)) by lia. set (m' := m - a). assert (M' : m' < n) by lia. clearbody m'. clear G M m.
          assert (Em : exists i', i' < Datatypes.S n /\ e1 @ (a + m') = e @ (a + i')).
          { destruct (Nat.eq_dec m' 0) as [->|]; [exists n; split; [lia|rewrite Nat.add_0_r; exact N1]|exists m'; split; [lia|apply N3; lia]]. }
          destruct Em as (i' & I' & ->). destruct (Nat.eq_dec k n) as [->|Nk].
          -- rewrite N2. replace a with (a + 0) at 2 by lia. apply (heap_root a (Datatypes.S n)); auto.
          -- rewrite N3 by lia. apply Hx; lia.
  Qed.

  (** *** Partitioning *)
  Lemma scan_up_spec (f : nat -> out bool) (g : nat -> bool) fuel : forall i j, j + 1 < fuel + i -> i <= j + 1 -> (forall k, i <= k <= j -> f k = Ret (g k)) ->
    exists r, scan_up fuel f i j = Ret r /\ i <= r <= j + 1 /\ (forall k, i <= k < r -> g k = true) /\ (r <= j -> g r = false).
  Proof.
    induction fuel as [|fuel IH]; intros i j F Ij H; [lia|]. cbn [scan_up]. destruct (Nat.leb_spec i j) as [C|C].
    - rewrite H by lia. cbn [bind]. destruct (g i) eqn:G.
      + destruct (IH (i + 1) j) as (r & E & R1 & R2 & R3); [lia|lia|intros; apply H; lia|]. exists r. split; [exact E|]. split; [lia|]. split; [|exact R3].
        intros k K. destruct (Nat.eq_dec k i) as [->|]; [exact G|apply R2; lia].
      + exists i. split; [reflexivity|]. split; [lia|]. split; [intros; lia|intros _; exact G].
    - exists i. split; [reflexivity|]. split; [lia|]. split; [intros; lia|lia].
  Qed.
  Lemma scan_down_spec (f : nat -> out bool) (g : nat -> bool) fuel : forall i j, j + 1 < fuel + i -> 1 <= i <= j + 1 -> (forall k, i <= k <= j -> f k = Ret (g k)) ->
    exists r, scan_down fuel f i j = Ret r /\ i <= r + 1 /\ r <= j /\ (forall k, r < k <= j -> g k = true) /\ (i <= r -> g r = false).
  Proof.
    induction fuel as [|fuel IH]; intros i j F Ij H; [lia|]. cbn [scan_down]. destruct (Nat.leb_spec i j) as [C|C].
    - rewrite H by lia. cbn [bind]. destruct (g j) eqn:G.
      + destruct (IH i (j - 1)) as (r & E & R1 & R2 & R3 & R4); [lia|lia|intros; apply H; lia|]. exists r. split; [exact E|]. split; [lia|]. split; [lia|]. split; [|exact R4].
        intros k K. destruct (Nat.eq_dec k j) as [->|]; [exact G|apply R3; lia].
      + exists j. split; [reflexivity|]. split; [lia|]. split; [lia|]. split; [intros; lia|intros _; exact G].
    - exists j. split; [reflexivity|]. split; [lia|]. split; [lia|]. split; [intros; lia|lia].
  Qed.

  Lemma partition_loop_at fuel : forall d a b i j mv, j + 1 < fuel + i -> a + 1 <= i -> i <= j + 1 -> j < b -> b <= length d ->
    (forall k, a < k < i -> less (d @ k) (d @ a) = true) -> (forall k, j < k < b -> less (d @ k) (d @ a) = false) ->
    exists d' m ap, partition_loop lessO fuel d a i j mv = Ret (d', m, ap) /\ seg a b d d' /\ a <= m < b /\ d' @ m = d @ a /\
      (forall k, a <= k < m -> less (d' @ k) (d @ a) = true) /\ (forall k, m < k < b -> less (d' @ k) (d @ a) = false).
  Proof.
    induction fuel as [|fuel IH]; intros d a b i j mv F Ai Ij Jb B Lo Hi; [lia|]. cbn [partition_loop].
    destruct (scan_up_spec (fun i => less_at lessO d i a) (fun i => less (d @ i) (d @ a)) (j + 3 - i) i j) as (i' & Ei & I1 & I2 & I3); [lia|lia|intros k K; now at_less|].
    rewrite Ei. cbn [bind].
    destruct (scan_down_spec (fun j => c <- less_at lessO d j a ;; Ret (negb c)) (fun j => negb (less (d @ j) (d @ a))) (j + 3 - i') i' j) as (j' & Ej & J1 & J2 & J3 & J4);
      [lia|lia|intros k K; now at_less|]. rewrite Ej. cbn [bind].
    assert (Lo' : forall k, a < k < i' -> less (d @ k) (d @ a) = true) by (intros k K; destruct (Nat.lt_ge_cases k i); [apply Lo; lia|apply I2; lia]).
    assert (Hi' : forall k, j' < k < b -> less (d @ k) (d @ a) = false).
    { intros k K. destruct (Nat.le_gt_cases k j); [apply negb_true_iff, J3; lia|apply Hi; lia]. }
    destruct (Nat.ltb_spec j' i') as [C|C].
    - destruct (swap_at d j' a) as (d' & E & L & _ & S & N1 & N2 & N3); [lia|lia|]. rewrite E. cbn [bind]. exists d', j', (negb mv).
      split; [reflexivity|]. split; [apply (S a b); lia|]. split; [lia|]. split; [exact N1|]. split.
      + intros k K. destruct (Nat.eq_dec k a) as [->|]; [rewrite N2; apply Lo'; lia|rewrite N3 by lia; apply Lo'; lia].
      + intros k K. rewrite N3 by lia. apply Hi'. lia.
    - specialize (I3 ltac:(lia)). specialize (J4 ltac:(lia)). apply negb_false_iff in J4.
      assert (i' <> j') by (intros ->; congruence).
      destruct (swap_at d i' j') as (d1 & E & L & _ & S & N1 & N2 & N3); [lia|lia|]. rewrite E. cbn [bind].
      assert (Ea : d1 @ a = d @ a) by (apply N3; lia).
      destruct (IH d1 a b (i' + 1) (j' - 1) true) as (d' & m & ap & E' & S' & M & P & P1 & P2); [lia|lia|lia|lia|lia| | |].
      { intros k K. rewrite Ea. destruct (Nat.eq_dec k i') as [->|]; [rewrite N1; exact J4|rewrite N3 by lia; apply Lo'; lia]. }
      { intros k K. rewrite Ea. destruct (Nat.eq_dec k j') as [->|]; [rewrite N2; exact I3|rewrite N3 by lia; apply Hi'; lia]. }
      rewrite Ea in *. exists d', m, ap. split; [exact E'|]. split; [eapply seg_trans; [apply (S a b); lia|exact S']|]. auto.
  Qed.
  Lemma partition_at d a b p : a <= p < b -> b <= length d ->
    exists d' m ap, partition lessO d a b p = Ret (d', m, ap) /\ seg a b d d' /\ a <= m < b /\
      (forall k, a <= k < m -> less (d' @ k) (d' @ m) = true) /\ (forall k, m < k < b -> less (d' @ k) (d' @ m) = false).
  Proof.
    intros Pr B. unfold partition. destruct (swap_at d a p) as (d1 & E & L & _ & S & N1 & N2 & N3); [lia|lia|]. rewrite E. cbn [bind].
    destruct (partition_loop_at (b - a + 1) d1 a b (a + 1) (b - 1) false) as (d' & m & ap & E' & S' & M & P & P1 & P2); try lia.
    exists d', m, ap. split; [exact E'|]. split; [eapply seg_trans; [apply (S a b); lia|exact S']|]. split; [exact M|]. rewrite P. auto.
  Qed.
  Lemma partitionEqual_loop_at fuel : forall d a b i j, j + 1 < fuel + i -> a + 1 <= i -> i <= j + 1 -> j < b -> b <= length d ->
    (forall k, a < k < i -> less (d @ a) (d @ k) = false) -> (forall k, j < k < b -> less (d @ a) (d @ k) = true) ->
    exists d' m, partitionEqual_loop lessO fuel d a i j = Ret (d', m) /\ seg a b d d' /\ a < m <= b /\ d' @ a = d @ a /\
      (forall k, a < k < m -> less (d @ a) (d' @ k) = false) /\ (forall k, m <= k < b -> less (d @ a) (d' @ k) = true).
  Proof.
    induction fuel as [|fuel IH]; intros d a b i j F Ai Ij Jb B Lo Hi; [lia|]. cbn [partitionEqual_loop].
    destruct (scan_up_spec (fun i => c <- less_at lessO d a i ;; Ret (negb c)) (fun i => negb (less (d @ a) (d @ i))) (j + 3 - i) i j) as (i' & Ei & I1 & I2 & I3); [lia|lia|intros k K; now at_less|].
    rewrite Ei. cbn [bind].
    destruct (scan_down_spec (fun j => less_at lessO d a j) (fun j => less (d @ a) (d @ j)) (j + 3 - i') i' j) as (j' & Ej & J1 & J2 & J3 & J4);
      [lia|lia|intros k K; now at_less|]. rewrite Ej. cbn [bind].
    assert (Lo' : forall k, a < k < i' -> less (d @ a) (d @ k) = false) by (intros k K; destruct (Nat.lt_ge_cases k i); [apply Lo; lia|apply negb_true_iff, I2; lia]).
    assert (Hi' : forall k, j' < k < b -> less (d @ a) (d @ k) = true).
    { intros k K. destruct (Nat.le_gt_cases k j); [apply J3; lia|apply Hi; lia]. }
    destruct (Nat.ltb_spec j' i') as [C|C].
    - exists d, i'. split; [reflexivity|]. split; [apply seg_refl|]. split; [lia|]. split; [reflexivity|]. split; [exact Lo'|intros k K; apply Hi'; lia].
    - specialize (I3 ltac:(lia)). specialize (J4 ltac:(lia)). apply negb_false_iff in I3.
      assert (i' <> j') by (intros ->; congruence).
      destruct (swap_at d i' j') as (d1 & E & L & _ & S & N1 & N2 & N3); [lia|lia|]. rewrite E. cbn [bind].
      assert (Ea : d1 @ a = d @ a) by (apply N3; lia).
      destruct (IH d1 a b (i' + 1) (j' - 1)) as (d' & m & E' & S' & M & P & P1 & P2); [lia|lia|lia|lia|lia| | |].
      { intros k K. rewrite Ea. destruct (Nat.eq_dec k i') as [->|]; [rewrite N1; exact J4|rewrite N3 by lia; apply Lo'; lia]. }
      { intros k K. rewrite Ea. destruct (Nat.eq_dec k j') as [->|]; [rewrite N2; exact I3|rewrite N3 by lia; apply Hi'; lia]. }
      rewrite Ea in *. exists d', m. split; [exact E'|]. split; [eapply seg_trans; [apply (S a b); lia|exact S']|]. auto.
  Qed.
  Lemma partitionEqual_at d a b p : a <= p < b -> b <= length d ->
    exists d' m, partitionEqual lessO d a b p = Ret (d', m) /\ seg a b d d' /\ a < m <= b /\
      (TP -> (forall k, a <= k < m -> le (d' @ k) (d @ p)) /\ (forall k, m <= k < b -> le (d @ p) (d' @ k))).
  Proof.
    intros Pr B. unfold partitionEqual. destruct (swap_at d a p) as (d1 & E & L & _ & S & N1 & N2 & N3); [lia|lia|]. rewrite E. cbn [bind].
    destruct (partitionEqual_loop_at (b - a + 1) d1 a b (a + 1) (b - 1)) as (d' & m & E' & S' & M & P & P1 & P2); try lia.
    exists d', m. split; [exact E'|]. split; [eapply seg_trans; [apply (S a b); lia|exact S']|]. split; [exact M|]. rewrite N1 in *. intros tp. split.
    - intros k K. destruct (Nat.eq_dec k a) as [->|]; [rewrite P; now apply le_refl|]. apply (nlt_le tp), P1. lia.
    - intros k K. apply lt_le, P2. lia.
  Qed.

  (** *** The small functions *)
  Lemma reverse_loop_at fuel : forall d a b i j, j < fuel + i -> 0 < fuel -> a <= i -> j < b -> b <= length d ->
    exists d', reverse_loop fuel d i j = Ret d' /\ seg a b d d'.
  Proof.
    induction fuel as [|fuel IH]; intros d a b i j F F0 A J B; [lia|]; cbn [reverse_loop].
    destruct (Nat.ltb_spec i j); [|exists d; split; [reflexivity|apply seg_refl]].
    destruct (swap_at d i j) as (d1 & E & L & _ & S & _); [lia|lia|]. rewrite E. cbn [bind].
    destruct (IH d1 a b (i + 1) (j - 1)) as (d' & E' & S'); [lia|lia|lia|lia|lia|]. exists d'. split; [exact E'|]. eapply seg_trans; [apply (S a b); lia|exact S'].
  Qed.
  Lemma reverseRange_at d a b : a < b -> b <= length d -> exists d', reverseRange d a b = Ret d' /\ seg a b d d'.
  Proof. intros A B. apply reverse_loop_at; lia. Qed.
  Lemma breakPatterns_at d a b : a <= b -> b <= length d -> exists d', breakPatterns rnd d a b = Ret d' /\ seg a b d d'.
  Proof.
    intros A B. unfold breakPatterns. cbv zeta. destruct (Nat.leb_spec 8 (b - a)) as [C|C]; [|exists d; split; [reflexivity|apply seg_refl]].
    assert (Q : 2 <= (b - a) / 4) by (apply Nat.div_le_lower_bound; lia). assert (Q2 := Nat.mul_div_le (b - a) 4 ltac:(lia)).
    enough (G : forall l e, seg a b d e -> Forall (fun i => i < 3) l ->
      exists d', oloop (fun d i => swap_data d (a + (b - a) / 4 * 2 - 1 - 1 + i) (a + rnd (b - a) i mod (b - a))) l e = Ret d' /\ seg a b d d').
    { apply (G (seq 0 3) d); [apply seg_refl|]. repeat constructor; lia. }
    induction l as [|i l IH]; intros e S F; cbn [oloop]; [exists e; auto|]. inversion F as [|? ? F1 F2]; subst. assert (Le := seg_len _ _ _ _ S).
    assert (Q3 := Nat.mod_upper_bound (rnd (b - a) i) (b - a) ltac:(lia)).
    destruct (swap_at e (a + (b - a) / 4 * 2 - 1 - 1 + i) (a + rnd (b - a) i mod (b - a))) as (d1 & E & L & _ & S1 & _); [lia|lia|]. rewrite E. cbn [bind].
    apply IH; [|exact F2]. eapply seg_trans; [exact S|apply (S1 a b); lia].
  Qed.
  Lemma order2_at d lo hi a b s : lo <= a < hi -> lo <= b < hi -> hi <= length d ->
    exists a' b' s', order2 lessO d a b s = Ret (a', b', s') /\ lo <= a' < hi /\ lo <= b' < hi.
  Proof. intros A B H. unfold order2. at_less. destruct (less _ _); eexists _, _, _; (split; [reflexivity|]); lia. Qed.
  Lemma median_at d lo hi a b c s : lo <= a < hi -> lo <= b < hi -> lo <= c < hi -> hi <= length d ->
    exists m s', median lessO d a b c s = Ret (m, s') /\ lo <= m < hi.
  Proof.
    intros A B C H. unfold median. destruct (order2_at d lo hi a b s A B H) as (a1 & b1 & s1 & -> & A1 & B1). cbn [bind].
    destruct (order2_at d lo hi b1 c s1 B1 C H) as (b2 & c2 & s2 & -> & B2 & C2). cbn [bind].
    destruct (order2_at d lo hi a1 b2 s2 A1 B2 H) as (a3 & b3 & s3 & -> & A3 & B3). cbn [bind]. eauto.
  Qed.
  Lemma choosePivot_at d a b : 12 < b - a -> b <= length d -> exists p h, choosePivot lessO d a b = Ret (p, h) /\ a <= p < b.
  Proof.
    intros A B. unfold choosePivot. cbv zeta. assert (Q : 3 <= (b - a) / 4) by (apply Nat.div_le_lower_bound; lia). assert (Q2 := Nat.mul_div_le (b - a) 4 ltac:(lia)).
    set (q := (b - a) / 4) in *. clearbody q. destruct (Nat.leb_spec 8 (b - a)) as [C|C]; [|lia].
    assert (G : exists i j k s, (if 50 <=? b - a then
                    x <- medianAdjacent lessO d (a + q * 1) 0 ;; let '(i, s) := x in
                    x <- medianAdjacent lessO d (a + q * 2) s ;; let '(j, s) := x in
                    x <- medianAdjacent lessO d (a + q * 3) s ;; let '(k, s) := x in Ret (i, j, k, s)
                  else Ret (a + q * 1, a + q * 2, a + q * 3, 0)) = Ret (i, j, k, s) /\ a <= i < b /\ a <= j < b /\ a <= k < b).
    { destruct (50 <=? b - a); [|eexists _, _, _, _; split; [reflexivity|]; lia]. unfold medianAdjacent.
      destruct (median_at d a b (a + q * 1 - 1) (a + q * 1) (a + q * 1 + 1) 0) as (m1 & s1 & -> & M1); [lia..|]. cbn [bind].
      destruct (median_at d a b (a + q * 2 - 1) (a + q * 2) (a + q * 2 + 1) s1) as (m2 & s2 & -> & M2); [lia..|]. cbn [bind].
      destruct (median_at d a b (a + q * 3 - 1) (a + q * 3) (a + q * 3 + 1) s2) as (m3 & s3 & -> & M3); [lia..|]. cbn [bind]. eauto 10. }
    destruct G as (i & j & k & s & -> & I & J & K). cbn [bind]. destruct (median_at d a b i j k s I J K B) as (m & s' & -> & M). cbn [bind]. eauto.
  Qed.

  Lemma shift_right_at n : forall d j lo b, lo < j -> j + n <= b -> b <= length d -> exists d', shift_right lessO n d j = Ret d' /\ seg lo b d d'.
  Proof.
    induction n as [|n IH]; intros d j lo b A J B; cbn [shift_right]; [exists d; split; [reflexivity|apply seg_refl]|]. at_less.
    destruct (less _ _); [|exists d; split; [reflexivity|apply seg_refl]].
    destruct (swap_at d j (j - 1)) as (d1 & E & L & _ & S & _); [lia|lia|]. rewrite E. cbn [bind].
    destruct (IH d1 (j + 1) lo b) as (d' & E' & S'); [lia|lia|lia|]. exists d'. split; [exact E'|]. eapply seg_trans; [apply (S lo b); lia|exact S'].
  Qed.
  Lemma sorted_adj a b d : TP -> (forall k, a < k < b -> less (d @ k) (d @ (k - 1)) = false) -> sorted a b d.
  Proof.
    intros tp H i j I. assert (E : j = i + 1 + (j - i - 1)) by lia. remember (j - i - 1) as n eqn:En. clear En. revert j I E.
    induction n as [|n IH]; intros j I E J.
    - apply (nlt_le tp). replace i with (j - 1) by lia. apply H. lia.
    - eapply (le_tr tp); [apply (IH (j - 1)); lia|]. apply (nlt_le tp). apply H. lia.
  Qed.
  Lemma partial_steps_at n : forall d a b i, a < i -> i <= b -> b <= length d ->
    exists d' r, partial_steps lessO n d a b i = Ret (d', r) /\ length d' = length d /\ Permutation d d' /\
      (TP -> above a b d -> sorted a i d -> seg a b d d' /\ (r = true -> sorted a b d')).
  Proof.
    induction n as [|n IH]; intros d a b i A Ib B; cbn [partial_steps].
    { exists d, false. split; [reflexivity|]. split; [reflexivity|]. split; [reflexivity|]. intros _ _ _. split; [apply seg_refl|discriminate]. }
    destruct (scan_up_spec (fun i => c <- less_at lessO d i (i - 1) ;; Ret (negb c)) (fun i => negb (less (d @ i) (d @ (i - 1)))) (b + 1 - i) i (b - 1)) as (i' & Ei & I1 & I2 & I3);
      [lia|lia|intros k K; now at_less|]. rewrite Ei. cbn [bind].
    assert (So : TP -> sorted a i d -> sorted a i' d).
    { intros tp S. apply (sorted_adj a i' d tp). intros k K. destruct (Nat.lt_ge_cases k i); [apply (le_nlt tp), S; lia|apply negb_true_iff, I2; lia]. }
    destruct (Nat.eqb_spec i' b) as [->|Nb].
    { exists d, true. split; [reflexivity|]. split; [reflexivity|]. split; [reflexivity|]. intros tp _ S. split; [apply seg_refl|]. intros _. now apply So. }
    destruct (b - a <? 50).
    { exists d, false. split; [reflexivity|]. split; [reflexivity|]. split; [reflexivity|]. intros _ _ _. split; [apply seg_refl|discriminate]. }
    specialize (I3 ltac:(lia)). apply negb_false_iff in I3.
    destruct (swap_at d i' (i' - 1)) as (d1 & E1 & L1 & P1 & S1 & N1 & N2 & N3); [lia|lia|]. rewrite E1. cbn [bind].
    assert (G2 : exists d2, (if 2 <=? i' - a then shift_left lessO (i' - 1) d1 (i' - 1) else Ret d1) = Ret d2 /\ length d2 = length d /\ Permutation d1 d2 /\
      (TP -> above a b d -> sorted a i' d -> seg a b d d2 /\ sorted a i' d2)).
    { assert (Sd : TP -> sorted a i' d -> sorted a (i' - 1) d1) by (intros _ S x y X Y; rewrite !N3 by lia; apply S; lia).
      destruct (Nat.leb_spec 2 (i' - a)) as [C|C].
      - destruct (shift_left_seg (i' - 1) d1 (i' - 1)) as (d2 & E2 & S2); [lia|lia|]. exists d2. split; [exact E2|]. split; [rewrite (seg_len _ _ _ _ S2); lia|].
        split; [apply S2|]. intros tp Ab So1.
        destruct (shift_left_sorts (i' - 1) tp d1 (i' - 1) a d2 E2) as (S3 & So3); [lia|lia|lia|lia| |now apply Sd|].
        + right. intros A0 k K. apply (above_seg a b d d1 (S1 a b ltac:(lia) ltac:(lia)) B Ab A0). lia.
        + split; [|intros x y X Y; apply So3; lia]. eapply seg_trans; [apply (S1 a b); lia|]. eapply seg_wide; [exact S3|lia|lia].
      - exists d1. split; [reflexivity|]. split; [exact L1|]. split; [reflexivity|]. intros tp Ab So1. split; [apply (S1 a b); lia|]. intros x y X Y. lia. }
    destruct G2 as (d2 & E2 & L2 & P2 & G2). rewrite E2. cbn [bind].
    assert (G3 : exists d3, (if 2 <=? b - i' then shift_right lessO (b - (i' + 1)) d2 (i' + 1) else Ret d2) = Ret d3 /\ seg i' b d2 d3).
    { destruct (Nat.leb_spec 2 (b - i')); [apply shift_right_at; lia|exists d2; split; [reflexivity|apply seg_refl]]. }
    destruct G3 as (d3 & E3 & S3). rewrite E3. cbn [bind]. assert (L3 := seg_len _ _ _ _ S3).
    destruct (IH d3 a b i') as (d' & r & E' & L' & P' & G'); [lia|lia|lia|]. exists d', r. split; [exact E'|]. split; [lia|].
    split; [eapply perm_trans; [exact P1|]; eapply perm_trans; [exact P2|]; eapply perm_trans; [apply S3|exact P']|].
    intros tp Ab S0. destruct (G2 tp Ab (So tp S0)) as (G4 & G5).
    assert (S23 : seg a b d d3) by (eapply seg_trans; [exact G4|eapply seg_wide; [exact S3|lia|lia]]).
    destruct (G' tp) as (G6 & G7); [eapply above_seg; [exact S23|exact B|exact Ab]| |].
    - intros x y X Y. rewrite !(seg_out _ _ _ _ _ S3) by lia. apply G5; lia.
    - split; [eapply seg_trans; [exact S23|exact G6]|exact G7].
  Qed.

  (** *** The whole *)
  Lemma pdqsort_at fuel : forall d a b limit wb wp, b < fuel + a -> a <= b -> b <= length d ->
    exists d', pdqsort lessO rnd fuel d a b limit wb wp = Ret d' /\ length d' = length d /\ Permutation d d' /\
      (TP -> above a b d -> seg a b d d' /\ sorted a b d').
  Proof.
    induction fuel as [|fuel IH]; intros d a b limit wb wp F A B; [lia|]. cbn [pdqsort]. cbv zeta.
    assert (Fin : forall m, (exists d', m = Ret d' /\ seg a b d d' /\ (TP -> sorted a b d')) ->
      exists d', m = Ret d' /\ length d' = length d /\ Permutation d d' /\ (TP -> above a b d -> seg a b d d' /\ sorted a b d')).
    { intros m (d' & E & S & So). exists d'. split; [exact E|]. split; [apply S|]. split; [apply S|]. auto. }
    destruct (Nat.leb_spec (b - a) 12) as [C|C]; [apply Fin; now apply insertionSort_at|].
    destruct (limit =? 0); [apply Fin; now apply heapSort_at|]. clear Fin.
    assert (G1 : exists d1 lim, (if negb wb then d' <- breakPatterns rnd d a b ;; Ret (d', limit - 1) else Ret (d, limit)) = Ret (d1, lim) /\ seg a b d d1).
    { destruct (negb wb); [|eexists _, _; split; [reflexivity|apply seg_refl]]. destruct (breakPatterns_at d a b A B) as (d1 & -> & S). cbn [bind]. eauto. }
    destruct G1 as (d1 & lim & -> & S1). cbn [bind]. assert (L1 := seg_len _ _ _ _ S1).
    destruct (choosePivot_at d1 a b C ltac:(lia)) as (p & h & -> & Pr). cbn [bind].
    assert (G2 : exists d2 p2 h2, (match h with decreasingHint => d' <- reverseRange d1 a b ;; Ret (d', b - 1 - (p - a), increasingHint) | _ => Ret (d1, p, h) end)
               = Ret (d2, p2, h2) /\ seg a b d d2 /\ a <= p2 < b).
    { destruct h; try (eexists _, _, _; split; [reflexivity|]; split; [exact S1|exact Pr]).
      destruct (reverseRange_at d1 a b ltac:(lia) ltac:(lia)) as (d2 & -> & S2). cbn [bind]. eexists _, _, _. split; [reflexivity|]. split; [eapply seg_trans; eauto|lia]. }
    destruct G2 as (d2 & p2 & h2 & -> & S2 & Pr2). cbn [bind]. assert (L2 := seg_len _ _ _ _ S2).
    set (try_it := wb && wp && match h2 with increasingHint => true | _ => false end). clearbody try_it.
    assert (G3 : exists d3 r, (if try_it then partialInsertionSort lessO d2 a b else Ret (d2, false)) = Ret (d3, r) /\ length d3 = length d /\ Permutation d d3 /\
      (TP -> above a b d -> seg a b d d3 /\ (r = true -> sorted a b d3))).
    { destruct try_it.
      - destruct (partial_steps_at 5 d2 a b (a + 1)) as (d3 & r & E3 & L3 & P3 & G3); [lia|lia|lia|]. exists d3, r. split; [exact E3|]. split; [lia|].
        split; [eapply perm_trans; [apply S2|exact P3]|]. intros tp Ab. destruct (G3 tp) as (G4 & G5); [eapply above_seg; eauto|intros x y; lia|].
        split; [eapply seg_trans; eauto|exact G5].
      - exists d2, false. split; [reflexivity|]. split; [exact L2|]. split; [apply S2|]. intros _ _. split; [exact S2|discriminate]. }
    destruct G3 as (d3 & r & -> & L3 & P3 & G3). cbn [bind]. destruct r.
    { exists d3. split; [reflexivity|]. split; [exact L3|]. split; [exact P3|]. intros tp Ab. destruct (G3 tp Ab) as (G4 & G5). auto. }
    assert (G4 : exists e, (if 0 <? a then c <- less_at lessO d3 (a - 1) p2 ;; Ret (negb c) else Ret false) = Ret e /\
      (e = true -> 0 < a /\ less (d3 @ (a - 1)) (d3 @ p2) = false)).
    { destruct (Nat.ltb_spec 0 a) as [C0|C0]; [|exists false; split; [reflexivity|discriminate]]. at_less. eexists. split; [reflexivity|].
      intros E. apply negb_true_iff in E. auto. }
    destruct G4 as (e & -> & G4). cbn [bind]. destruct e.
    - destruct (partitionEqual_at d3 a b p2 Pr2 ltac:(lia)) as (d4 & m & -> & S4 & M & G5). cbn [bind]. assert (L4 := seg_len _ _ _ _ S4).
      destruct (IH d4 m b lim wb wp) as (d' & -> & L' & P' & G'); [lia|lia|lia|]. exists d'. split; [reflexivity|]. split; [lia|].
      split; [eapply perm_trans; [exact P3|]; eapply perm_trans; [apply S4|exact P']|]. intros tp Ab. destruct (G3 tp Ab) as (S3 & _). destruct (G5 tp) as (G6 & G7).
      destruct (G4 eq_refl) as (A0 & Le). apply (nlt_le tp) in Le.
      assert (Ab4 := above_seg a b d d4 (seg_trans _ _ _ _ _ S3 S4) B Ab A0). rewrite (seg_out _ _ _ _ (a - 1) S4) in Ab4 by lia.
      destruct (G' tp) as (S5 & So5). { intros M0 k K. eapply (le_tr tp); [apply G6; lia|apply G7; lia]. }
      split; [eapply seg_trans; [exact S3|]; eapply seg_trans; [exact S4|]; eapply seg_wide; [exact S5|lia|lia]|].
      intros i j I J. destruct (Nat.lt_ge_cases i m) as [Im|Im]; [|apply So5; lia]. rewrite (seg_out _ _ _ _ i S5) by lia.
      destruct (Nat.lt_ge_cases j m) as [Jm|Jm].
      + rewrite (seg_out _ _ _ _ j S5) by lia. eapply (le_tr tp); [apply G6; lia|]. eapply (le_tr tp); [exact Le|apply Ab4; lia].
      + eapply (le_tr tp); [apply G6; lia|]. apply (seg_forall m b d4 d' (fun x => le (d3 @ p2) x) S5); [lia|exact G7|lia].
    - destruct (partition_at d3 a b p2 Pr2 ltac:(lia)) as (d4 & m & ap & -> & S4 & M & G5 & G6). cbn [bind]. assert (L4 := seg_len _ _ _ _ S4).
      assert (Glue : forall d5 d6, TP -> seg a b d d4 -> above a b d ->
        (seg a m d4 d5 /\ seg (m + 1) b d5 d6 \/ seg (m + 1) b d4 d5 /\ seg a m d5 d6) -> sorted a m d6 -> sorted (m + 1) b d6 -> seg a b d d6 /\ sorted a b d6).
      { intros d5 d6 tp S04 Ab SS So1 So2.
        assert (S46 : seg a b d4 d6) by (destruct SS as [[X Y]|[X Y]]; (eapply seg_trans; eapply seg_wide; [exact X|lia|lia|exact Y|lia|lia])).
        split; [eapply seg_trans; eauto|].
        assert (Em : d6 @ m = d4 @ m) by (destruct SS as [[X Y]|[X Y]]; now rewrite (seg_out _ _ _ _ m Y), (seg_out _ _ _ _ m X) by lia).
        assert (Lo : forall k, a <= k < m -> le (d6 @ k) (d4 @ m)).
        { destruct SS as [[X Y]|[X Y]].
          - intros k K. rewrite (seg_out _ _ _ _ k Y) by lia. apply (seg_forall a m d4 d5 (fun x => le x (d4 @ m)) X); [lia| |lia]. intros q Q. apply lt_le, G5. lia.
          - apply (seg_forall a m d5 d6 (fun x => le x (d4 @ m)) Y); [rewrite (seg_len _ _ _ _ X); lia|]. intros q Q. rewrite (seg_out _ _ _ _ q X) by lia. apply lt_le, G5. lia. }
        assert (Hi : forall k, m + 1 <= k < b -> le (d4 @ m) (d6 @ k)).
        { destruct SS as [[X Y]|[X Y]].
          - apply (seg_forall (m + 1) b d5 d6 (fun x => le (d4 @ m) x) Y); [rewrite (seg_len _ _ _ _ X); lia|]. intros q Q. rewrite (seg_out _ _ _ _ q X) by lia. apply (nlt_le tp), G6. lia.
          - intros k K. rewrite (seg_out _ _ _ _ k Y) by lia. apply (seg_forall (m + 1) b d4 d5 (fun x => le (d4 @ m) x) X); [lia| |lia]. intros q Q. apply (nlt_le tp), G6. lia. }
        intros i j I J. destruct (Nat.lt_trichotomy i m) as [Im|[->|Im]].
        - destruct (Nat.lt_trichotomy j m) as [Jm|[->|Jm]]; [apply So1; lia|rewrite Em; apply Lo; lia|eapply (le_tr tp); [apply Lo; lia|apply Hi; lia]].
        - rewrite Em. apply Hi; lia.
        - apply So2; lia. }
      destruct (m - a <? b - m).
      + destruct (IH d4 a m lim true true) as (d5 & -> & L5 & P5 & G7); [lia|lia|lia|]. cbn [bind].
        destruct (IH d5 (m + 1) b lim ((b - a) / 8 <=? m - a) ap) as (d6 & -> & L6 & P6 & G8); [lia|lia|lia|]. exists d6. split; [reflexivity|]. split; [lia|].
        split; [eapply perm_trans; [exact P3|]; eapply perm_trans; [apply S4|]; eapply perm_trans; [exact P5|exact P6]|].
        intros tp Ab. destruct (G3 tp Ab) as (S3 & _). assert (S04 := seg_trans _ _ _ _ _ S3 S4). assert (Ab4 := above_seg a b d d4 S04 B Ab).
        destruct (G7 tp) as (S5 & So5). { intros A0 k K. apply Ab4; lia. }
        destruct (G8 tp) as (S6 & So6).
        { intros _ k K. replace (m + 1 - 1) with m by lia. rewrite !(seg_out _ _ _ _ _ S5) by lia. apply (nlt_le tp), G6. lia. }
        apply (Glue d5 d6 tp S04 Ab); [left; auto| |exact So6]. intros x y X Y. rewrite !(seg_out _ _ _ _ _ S6) by lia. apply So5; lia.
      + destruct (IH d4 (m + 1) b lim true true) as (d5 & -> & L5 & P5 & G7); [lia|lia|lia|]. cbn [bind].
        destruct (IH d5 a m lim ((b - a) / 8 <=? b - m) ap) as (d6 & -> & L6 & P6 & G8); [lia|lia|lia|]. exists d6. split; [reflexivity|]. split; [lia|].
        split; [eapply perm_trans; [exact P3|]; eapply perm_trans; [apply S4|]; eapply perm_trans; [exact P5|exact P6]|].
        intros tp Ab. destruct (G3 tp Ab) as (S3 & _). assert (S04 := seg_trans _ _ _ _ _ S3 S4). assert (Ab4 := above_seg a b d d4 S04 B Ab).
        destruct (G7 tp) as (S5 & So5). { intros _ k K. replace (m + 1 - 1) with m by lia. apply (nlt_le tp), G6. lia. }
        destruct (G8 tp) as (S6 & So6). { intros A0 k K. rewrite !(seg_out _ _ _ _ _ S5) by lia. apply Ab4; lia. }
        apply (Glue d5 d6 tp S04 Ab); [right; auto|exact So6|]. intros x y X Y. rewrite !(seg_out _ _ _ _ _ S6) by lia. apply So5; lia.
  Qed.
  Lemma sorted_ascending d : sorted 0 (length d) d -> ascending cmp d.
  Proof.
    unfold ascending. induction d as [|x d IH]; intros H; constructor.
    - apply IH. intros i j I J. apply (H (S i) (S j)); cbn [length]; lia.
    - apply Forall_forall. intros y Y. apply (In_nth _ _ z) in Y. destruct Y as (k & K & <-). apply (H 0 (S k)); cbn [length]; lia.
  Qed.
End Pdq.

Lemma Slice_spec {T} (cmp : T -> T -> ordering) rnd (d : list T) :
  exists d', Slice (fun a b => Ret (is_less (cmp a b))) rnd d = Ret d' /\ Permutation d d' /\ (total_preorder cmp -> ascending cmp d').
Proof.
  destruct d as [|z d].
  - exists []. split; [reflexivity|]. split; [reflexivity|]. intros _. constructor.
  - unfold Slice. cbv zeta. set (l := z :: d).
    destruct (pdqsort_at cmp rnd z (length l + 1) l 0 (length l) (if length l =? 0 then 0 else Nat.log2 (length l) + 1) true true) as (d' & E & L & P & G); [lia|lia|lia|].
    exists d'. split; [exact E|]. split; [exact P|]. intros tp. destruct (G tp) as (_ & So); [intros H; lia|]. apply (sorted_ascending cmp z). now rewrite L.
Qed.
