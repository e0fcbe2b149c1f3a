(** IoProofs.v -- proofs about IoModel.v. *)
From Coq Require Import Lia.
From Verif Require Import Base StringModel IoModel IoSpec.
Local Open Scope Z_scope.
Local Open Scope bool_scope.

Lemma white_spec r : is_space r = true <-> white r.
Proof. unfold is_space, white. rewrite !Bool.orb_true_iff, !Bool.andb_true_iff, !Z.leb_le, !Z.eqb_eq. lia. Qed.
Lemma white_no r : ~ white r -> is_space r = false.
Proof. intros H. destruct (is_space r) eqn:E; [|reflexivity]. apply white_spec in E. tauto. Qed.
Lemma white_10 : white 10. Proof. unfold white. lia. Qed.
Lemma skip_blanks s t : blanks s -> skip_space (s ++ t) = skip_space t.
Proof.
  induction 1 as [|r s [W N] _ IH]; [reflexivity|]. cbn [app skip_space]. destruct (Z.eqb_spec r 10); [contradiction|].
  apply white_spec in W. rewrite W. exact IH.
Qed.
Lemma skip_word w t : word w -> skip_space (w ++ t) = (true, w ++ t).
Proof.
  intros [N W]. destruct w as [|r w]; [now destruct N|]. inversion W as [|? ? H _]; subst. cbn [app skip_space].
  destruct (Z.eqb_spec r 10) as [->|]; [destruct (H white_10)|]. rewrite (white_no _ H). reflexivity.
Qed.
Lemma token_word w t : Forall (fun r => ~ white r) w -> (forall c t', t = c :: t' -> white c) -> token (w ++ t) = (w, t).
Proof.
  intros W H. induction W as [|r w Wr _ IH].
  - cbn [app]. destruct t as [|c t]; [reflexivity|]. cbn [token]. rewrite (proj2 (white_spec c) (H c t eq_refl)). reflexivity.
  - cbn [app token]. rewrite (white_no _ Wr), IH. reflexivity.
Qed.
Lemma newline_blanks s t : blanks s -> to_newline (s ++ t) = to_newline t.
Proof.
  induction 1 as [|r s [W N] _ IH]; [reflexivity|]. cbn [app to_newline]. destruct (Z.eqb_spec r 10); [contradiction|].
  apply white_spec in W. rewrite W. exact IH.
Qed.
Lemma Scanln_word s w t : blanks s -> word w -> (forall c t', t = c :: t' -> white c) -> Scanln (s ++ w ++ t) = (w, to_newline t).
Proof.
  intros B W H. unfold Scanln. rewrite (skip_blanks _ _ B), (skip_word _ _ W). destruct (w ++ t) eqn:E.
  - destruct w; [now destruct W|discriminate].
  - rewrite <- E, (token_word _ _ (proj2 W) H). reflexivity.
Qed.
Lemma blanks_white s t c t' : blanks s -> white c -> s ++ c :: t = t' -> forall d u, t' = d :: u -> white d.
Proof. intros B W <- d u E. destruct B as [|r s [Wr _] _]; cbn [app] in E; injection E as <- _; assumption. Qed.
Lemma scanned_Scanln i w r : scanned i w r -> Scanln i = (w, r).
Proof.
  destruct 1 as [s B|s rest B|s w s' rest B W B'|s w s' B W B'|s w s' c rest B W B' N C].
  - unfold Scanln. rewrite <- (app_nil_r s), (skip_blanks _ _ B). reflexivity.
  - unfold Scanln. rewrite (skip_blanks _ _ B). reflexivity.
  - rewrite Scanln_word; [|assumption..|].
    + rewrite (newline_blanks _ _ B'). reflexivity.
    + eapply blanks_white; [exact B'|exact white_10|reflexivity].
  - rewrite Scanln_word; [|assumption..|].
    + rewrite <- (app_nil_r s') at 1. rewrite (newline_blanks _ _ B'). reflexivity.
    + intros d u ->. inversion B' as [|? ? [Wr _] _]. exact Wr.
  - rewrite Scanln_word; [|assumption..|].
    + rewrite (newline_blanks _ _ B'). cbn [to_newline]. destruct (Z.eqb_spec c 10) as [->|]; [destruct (C white_10)|]. rewrite (white_no _ C). reflexivity.
    + intros d u E. destruct s' as [|r s']; [now destruct N|]. injection E as <- _. inversion B' as [|? ? [Wr _] _]. exact Wr.
Qed.
Lemma blanks_or i : exists s t, i = s ++ t /\ blanks s /\ (t = [] \/ exists c t', t = c :: t' /\ (c = 10 \/ ~ white c)).
Proof.
  induction i as [|c i (s & t & E & B & H)]; [exists [], []; repeat split; [constructor|now left]|].
  destruct (Z.eq_dec c 10) as [->|N]; [exists [], (10 :: i); split; [reflexivity|split; [constructor|right; exists 10, i; auto]]|].
  destruct (is_space c) eqn:W.
  - exists (c :: s), t. rewrite E. split; [reflexivity|]. split; [constructor; [split; [now apply white_spec|exact N]|exact B]|exact H].
  - exists [], (c :: i). split; [reflexivity|split; [constructor|right; exists c, i; split; [reflexivity|right]]]. intros X. apply white_spec in X. congruence.
Qed.
Lemma word_or i : exists w t, i = w ++ t /\ Forall (fun r => ~ white r) w /\ (forall c t', t = c :: t' -> white c).
Proof.
  induction i as [|c i (w & t & E & B & H)]; [exists [], []; repeat split; [constructor|discriminate]|].
  destruct (is_space c) eqn:W.
  - exists [], (c :: i). split; [reflexivity|split; [constructor|]]. intros d u X. injection X as <- _. now apply white_spec.
  - exists (c :: w), t. rewrite E. split; [reflexivity|]. split; [constructor; [|exact B]|exact H]. intros X. apply white_spec in X. congruence.
Qed.
Lemma scanned_total i : exists w r, scanned i w r.
Proof.
  destruct (blanks_or i) as (s & t & -> & B & [->|(c & t' & -> & [->|C])]).
  - exists [], []. rewrite app_nil_r. now constructor.
  - exists [], t'. now constructor.
  - destruct (word_or (c :: t')) as (w & u & E & Ww & Hu). rewrite E.
    assert (W : word w). { split; [|exact Ww]. intros ->. cbn [app] in E. destruct (C (Hu c t' (eq_sym E))). }
    destruct (blanks_or u) as (s' & v & -> & B' & [->|(d & v' & -> & [->|D])]).
    + exists w, []. rewrite app_nil_r. now constructor.
    + exists w, v'. now constructor.
    + exists w, v'. apply scan_more; try assumption. intros ->. destruct (D (Hu d v' eq_refl)).
Qed.
Lemma Scanln_scanned i w r : Scanln i = (w, r) <-> scanned i w r.
Proof.
  split; [|apply scanned_Scanln]. intros H. destruct (scanned_total i) as (w' & r' & S). pose proof (scanned_Scanln _ _ _ S) as E.
  rewrite H in E. injection E as -> ->. exact S.
Qed.
Lemma ReadLine_scanned b i t r : ReadLine b i = (t, r) <-> exists w, scanned i w r /\ t = EncodeRunes w.
Proof.
  unfold ReadLine. destruct (Scanln i) as [w r'] eqn:E. split.
  - intros H. injection H as <- <-. exists w. split; [now apply Scanln_scanned|reflexivity].
  - intros (w' & S & ->). apply Scanln_scanned in S. rewrite E in S. injection S as -> ->. reflexivity.
Qed.
