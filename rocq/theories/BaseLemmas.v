(** BaseLemmas.v -- facts about checked list access (no model content). *)
From Verif Require Import Base.

Lemma list_set_length {A} (s : list A) i v : length (list_set s i v) = length s.
Proof. revert i; induction s; destruct i; simpl; congruence. Qed.

Lemma nth_error_list_set_eq {A} (s : list A) i v :
  i < length s -> nth_error (list_set s i v) i = Some v.
Proof. revert i; induction s; destruct i; simpl; intros; try lia; auto. apply IHs; lia. Qed.

Lemma nth_error_list_set_neq {A} (s : list A) i j v :
  i <> j -> nth_error (list_set s i v) j = nth_error s j.
Proof. revert i j; induction s; destruct i, j; simpl; intros; auto; try congruence. Qed.

Lemma nth_error_list_set {A} (s : list A) i j v :
  nth_error (list_set s i v) j =
  if Nat.eqb i j then (if Nat.ltb j (length s) then Some v else None) else nth_error s j.
Proof.
  destruct (Nat.eqb_spec i j).
  - subst. destruct (Nat.ltb_spec j (length s)).
    + now apply nth_error_list_set_eq.
    + apply nth_error_None. rewrite list_set_length. lia.
  - now apply nth_error_list_set_neq.
Qed.

Lemma list_set_out {A} (s : list A) i v : length s <= i -> list_set s i v = s.
Proof. revert i; induction s; destruct i; simpl; intros; auto; try lia. f_equal. apply IHs; lia. Qed.

Lemma list_set_app1 {A} (s1 s2 : list A) i v :
  i < length s1 -> list_set (s1 ++ s2) i v = list_set s1 i v ++ s2.
Proof. revert i; induction s1; destruct i; simpl; intros; auto; try lia. f_equal. apply IHs1; lia. Qed.

Lemma list_set_app2 {A} (s1 s2 : list A) i v :
  length s1 <= i -> list_set (s1 ++ s2) i v = s1 ++ list_set s2 (i - length s1) v.
Proof.
  revert i; induction s1; intros i H.
  - simpl. now rewrite Nat.sub_0_r.
  - destruct i; simpl in *; [lia|]. f_equal. apply IHs1; lia.
Qed.

Lemma list_set_split {A} (s : list A) i v :
  i < length s -> list_set s i v = firstn i s ++ v :: skipn (S i) s.
Proof. revert i; induction s; destruct i; simpl; intros; auto; try lia. f_equal. apply IHs; lia. Qed.

Lemma nth_error_ext {A} (l1 l2 : list A) :
  (forall i, nth_error l1 i = nth_error l2 i) -> l1 = l2.
Proof.
  revert l2; induction l1; destruct l2; intros H; auto.
  - specialize (H 0); discriminate.
  - specialize (H 0); discriminate.
  - f_equal. { specialize (H 0); now injection H. }
    apply IHl1. intros i; apply (H (S i)).
Qed.

Lemma nth_error_firstn {A} (l : list A) n i :
  nth_error (firstn n l) i = if Nat.ltb i n then nth_error l i else None.
Proof.
  revert n i; induction l; intros n i.
  - rewrite firstn_nil. destruct i; simpl; now destruct (Nat.ltb _ _).
  - destruct n; simpl.
    + destruct i; reflexivity.
    + destruct i; simpl; auto. rewrite IHl. reflexivity.
Qed.

Lemma nth_error_skipn {A} (l : list A) n i :
  nth_error (skipn n l) i = nth_error l (n + i).
Proof.
  revert l; induction n; intros l; simpl; auto.
  destruct l; simpl; auto. destruct i; reflexivity.
Qed.

Lemma idx_Ret {A} (s : list A) i : i < length s -> exists a, idx s i = Ret a /\ nth_error s i = Some a.
Proof.
  intros H. unfold idx. destruct (nth_error s i) eqn:E.
  - exists a. auto.
  - apply nth_error_None in E. lia.
Qed.

Lemma idx_spec {A} (s : list A) i :
  idx s i = match nth_error s i with Some a => Ret a | None => Panic end.
Proof. reflexivity. Qed.

Lemma upd_Ret {A} (s : list A) i v : i < length s -> upd s i v = Ret (list_set s i v).
Proof. intros H. unfold upd. apply Nat.ltb_lt in H. now rewrite H. Qed.

Lemma upd_Panic {A} (s : list A) i v : length s <= i -> upd s i v = Panic.
Proof. intros H. unfold upd. apply Nat.ltb_ge in H. now rewrite H. Qed.

Lemma bind_Ret {A B} (m : out A) (k : A -> out B) b :
  bind m k = Ret b -> exists a, m = Ret a /\ k a = Ret b.
Proof. destruct m; simpl; intros H; try discriminate. eauto. Qed.

Lemma list_set_same {A} (s : list A) i v : nth_error s i = Some v -> list_set s i v = s.
Proof. revert i; induction s; destruct i; simpl; intros; try discriminate; auto. - congruence. - f_equal; auto. Qed.

Lemma nth_error_repeat {A} (x : A) n i : i < n -> nth_error (repeat x n) i = Some x.
Proof. revert i; induction n; destruct i; simpl; intros; try lia; auto. apply IHn; lia. Qed.
