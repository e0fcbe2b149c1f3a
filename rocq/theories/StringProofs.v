(** StringProofs.v -- proofs about strings, UTF-8 and Format. *)
From Verif Require Import Base BaseLemmas OptionModel StringModel StringSpec.
Local Open Scope Z_scope.
Local Open Scope bool_scope.

Ltac zb := repeat match goal with
  | |- context [Z.eqb ?a ?b] => destruct (Z.eqb_spec a b); try lia
  | |- context [Z.ltb ?a ?b] => destruct (Z.ltb_spec a b); try lia
  | |- context [Z.leb ?a ?b] => destruct (Z.leb_spec a b); try lia
  end; cbn [andb orb negb].

Lemma EncodeRune_utf8 c : scalar c -> utf8_char c (EncodeRune c).
Proof.
  intros H. split; [exact H|]. destruct H as [H1 H2]. unfold EncodeRune.
  assert ((c <? 0) || (1114111 <? c) || ((55296 <=? c) && (c <=? 57343)) = false) as -> by zb; auto.
  cbv zeta.
  pose proof (Z.div_mod c 64 ltac:(lia)). pose proof (Z.mod_pos_bound c 64 ltac:(lia)).
  pose proof (Z.div_mod (c / 64) 64 ltac:(lia)). pose proof (Z.mod_pos_bound (c / 64) 64 ltac:(lia)).
  pose proof (Z.div_mod (c / 64 / 64) 64 ltac:(lia)). pose proof (Z.mod_pos_bound (c / 64 / 64) 64 ltac:(lia)).
  assert (c / 4096 = c / 64 / 64) as E1 by (rewrite Z.div_div; [reflexivity|lia|lia]).
  assert (c / 262144 = c / 64 / 64 / 64) as E2 by (rewrite !Z.div_div; [reflexivity|lia|lia|lia|lia]).
  rewrite E1, E2. unfold trail.
  set (q1 := c / 64) in *. set (q2 := q1 / 64) in *. set (q3 := q2 / 64) in *.
  set (m1 := c mod 64) in *. set (m2 := q1 mod 64) in *. set (m3 := q2 mod 64) in *.
  clearbody q1 q2 q3 m1 m2 m3.
  destruct (Z.ltb_spec c 128); [left; split; [lia|reflexivity]|].
  destruct (Z.ltb_spec c 2048). { right; left; split; [lia|]. exists q1, (128 + m1). repeat split; try lia. }
  destruct (Z.ltb_spec c 65536). { right; right; left; split; [lia|]. exists q2, (128 + m2), (128 + m1). repeat split; try lia. }
  right; right; right; split; [lia|]. exists q3, (128 + m3), (128 + m2), (128 + m1). repeat split; try lia.
Qed.

Lemma utf8_char_unique c b : utf8_char c b -> b = EncodeRune c.
Proof.
  intros [H Hb]. pose proof (EncodeRune_utf8 c H) as [_ He]. unfold trail in *. set (e := EncodeRune c) in *. clearbody e.
  destruct Hb as [[? ->]|[[? (a & b1 & -> & ?)]|[[? (a & b1 & b2 & -> & ?)]|[? (a & b1 & b2 & b3 & -> & ?)]]]];
  destruct He as [[? ->]|[[? (a' & c1 & -> & ?)]|[[? (a' & c1 & c2 & -> & ?)]|[? (a' & c1 & c2 & c3 & -> & ?)]]]]; try lia;
  repeat f_equal; lia.
Qed.
Lemma DecodeRune_char c b rest : utf8_char c b -> DecodeRune (b ++ rest) = (c, length b).
Proof.
  intros [[H1 H2] Hb]. unfold trail in *.
  destruct Hb as [[? ->]|[[? (a & b1 & -> & ?)]|[[? (a & b1 & b2 & -> & ?)]|[? (a & b1 & b2 & b3 & -> & ?)]]]];
  cbn [app DecodeRune length]; unfold cont.
  - zb. reflexivity.
  - zb. f_equal. lia.
  - zb; f_equal; lia.
  - zb; f_equal; lia.
Qed.

Lemma utf8_char_det c1 c2 b : utf8_char c1 b -> utf8_char c2 b -> c1 = c2.
Proof. intros H1 H2. pose proof (DecodeRune_char c1 b [] H1). pose proof (DecodeRune_char c2 b [] H2). congruence. Qed.

Lemma utf8_char_len c b : utf8_char c b -> (1 <= length b <= 4)%nat.
Proof.
  intros [_ Hb].
  destruct Hb as [[? ->]|[[? (a & b1 & -> & ?)]|[[? (a & b1 & b2 & -> & ?)]|[? (a & b1 & b2 & b3 & -> & ?)]]]]; cbn; lia.
Qed.

Lemma runes_go_utf8 cs bs : utf8 cs bs -> forall fuel, (length bs <= fuel)%nat -> runes_go fuel bs = cs.
Proof.
  induction 1 as [|c cs b bs Hc Hcs IH]; intros fuel Hf.
  - destruct fuel; reflexivity.
  - pose proof (utf8_char_len c b Hc) as HL. rewrite app_length in Hf.
    destruct fuel as [|fuel]; [lia|].
    destruct (b ++ bs) as [|x y] eqn:E. { apply app_eq_nil in E. destruct E as [-> _]. cbn in HL. lia. }
    cbn [runes_go]. rewrite <- E. rewrite (DecodeRune_char c b bs Hc).
    rewrite skipn_app, skipn_all, Nat.sub_diag. cbn [app skipn]. f_equal. apply IH. lia.
Qed.
Lemma runes_utf8 cs bs : utf8 cs bs -> runes bs = cs.
Proof. intros H. apply (runes_go_utf8 cs bs H). auto. Qed.

Lemma utf8_encode cs : Forall scalar cs -> utf8 cs (EncodeRunes cs).
Proof.
  induction 1; cbn; constructor; auto. now apply EncodeRune_utf8.
Qed.
Lemma utf8_encode_unique cs bs : utf8 cs bs -> bs = EncodeRunes cs.
Proof. induction 1 as [|c cs b bs Hc _ IH]; cbn; auto. now rewrite (utf8_char_unique _ _ Hc), IH. Qed.
Lemma utf8_scalars cs bs : utf8 cs bs -> Forall scalar cs.
Proof. induction 1 as [|c cs b bs [Hc _] _ IH]; constructor; auto. Qed.
Lemma utf8_app cs1 bs1 cs2 bs2 : utf8 cs1 bs1 -> utf8 cs2 bs2 -> utf8 (cs1 ++ cs2) (bs1 ++ bs2).
Proof. induction 1; cbn; auto. intros. rewrite <- app_assoc. constructor; auto. Qed.
Lemma utf8_empty cs : utf8 cs [] -> cs = [].
Proof.
  intros H. inversion H as [|c cs' b bs Hc Hb]; auto. apply utf8_char_len in Hc. destruct b; cbn in *; [lia|discriminate].
Qed.
Lemma utf8_nonempty c cs bs : utf8 (c :: cs) bs -> String_IsEmpty bs = false.
Proof.
  inversion 1 as [|? ? b ? Hc]; subst. apply utf8_char_len in Hc. destruct b; cbn in *; [lia|reflexivity].
Qed.

Lemma fold_push {A} (l : list A) : forall acc, fold_left (fun v c => v ++ [c]) l acc = acc ++ l.
Proof. induction l as [|x l IH]; intros acc; cbn; [now rewrite app_nil_r|]. rewrite IH, <- app_assoc. reflexivity. Qed.

Lemma firstn_snoc {A} (l : list A) x : firstn (length (l ++ [x]) - 1) (l ++ [x]) = l.
Proof. rewrite app_length. cbn. rewrite Nat.add_sub. rewrite firstn_app, Nat.sub_diag, firstn_all. cbn. apply app_nil_r. Qed.
Lemma idx_snoc {A} (l : list A) x : idx (l ++ [x]) (length (l ++ [x]) - 1) = Ret x.
Proof.
  unfold idx. rewrite app_length. cbn. rewrite Nat.add_sub, nth_error_app2 by lia. rewrite Nat.sub_diag. reflexivity.
Qed.

Lemma Pop_utf8 cs c bs : utf8 (cs ++ [c]) bs -> String_Pop bs = Ret (EncodeRunes cs, Some c).
Proof.
  intros H. unfold String_Pop.
  assert (String_IsEmpty bs = false) as ->. { destruct cs; cbn in H; eapply utf8_nonempty; eauto. }
  rewrite (runes_utf8 _ _ H). rewrite idx_snoc. cbn [bind]. now rewrite firstn_snoc.
Qed.

(** Every string, valid or not, decodes to scalar values. *)
Lemma DecodeRune_scalar s : s <> [] -> Forall (fun b => 0 <= b < 256) s ->
  scalar (fst (DecodeRune s)) /\ (1 <= snd (DecodeRune s) <= length s)%nat.
Proof.
  intros N F. destruct s as [|b0 t]; [congruence|]. clear N.
  assert (scalar RuneError) as HR by (unfold scalar, RuneError; lia).
  inversion F as [|? ? B0 F1]; subst. cbn [DecodeRune].
  destruct (Z.ltb_spec b0 128). { cbn. split; [unfold scalar; lia|lia]. }
  destruct ((b0 <? 194) || (244 <? b0)) eqn:E1. { cbn. split; auto; lia. }
  apply orb_false_iff in E1. destruct E1 as [E1 E2]. apply Z.ltb_ge in E1, E2.
  destruct (Z.ltb_spec b0 224).
  - destruct t as [|b1 t]; [cbn; split; auto; lia|]. unfold cont.
    destruct ((128 <=? b1) && (b1 <=? 191)) eqn:E; [|cbn; split; auto; lia].
    apply andb_true_iff in E. rewrite !Z.leb_le in E. cbn [fst snd length]. split; [unfold scalar; lia|lia].
  - destruct (Z.ltb_spec b0 240).
    + destruct t as [|b1 [|b2 t]]; [cbn; split; auto; lia|cbn; split; auto; lia|]. cbv zeta. unfold cont.
      destruct (((if b0 =? 224 then 160 else 128) <=? b1) && (b1 <=? (if b0 =? 237 then 159 else 191)) && ((128 <=? b2) && (b2 <=? 191))) eqn:E; [|cbn; split; auto; lia].
      rewrite !andb_true_iff, !Z.leb_le in E. cbn [fst snd length]. split; [|lia].
      unfold scalar. destruct (Z.eqb_spec b0 224), (Z.eqb_spec b0 237); lia.
    + destruct t as [|b1 [|b2 [|b3 t]]]; try (cbn; split; auto; lia). cbv zeta. unfold cont.
      destruct (((if b0 =? 240 then 144 else 128) <=? b1) && (b1 <=? (if b0 =? 244 then 143 else 191)) && ((128 <=? b2) && (b2 <=? 191)) && ((128 <=? b3) && (b3 <=? 191))) eqn:E; [|cbn; split; auto; lia].
      rewrite !andb_true_iff, !Z.leb_le in E. cbn [fst snd length]. split; [|lia].
      unfold scalar. destruct (Z.eqb_spec b0 240), (Z.eqb_spec b0 244); lia.
Qed.
Lemma Forall_skipn {A} (P : A -> Prop) n : forall l, Forall P l -> Forall P (skipn n l).
Proof. induction n; intros [|x l] H; cbn; auto. inversion H; auto. Qed.
Lemma runes_go_scalar fuel : forall s, Forall (fun b => 0 <= b < 256) s -> Forall scalar (runes_go fuel s).
Proof.
  induction fuel as [|k IH]; intros s F; cbn [runes_go].
  - destruct s; constructor.
  - destruct s as [|b t]; [constructor|]. pose proof (DecodeRune_scalar (b :: t) ltac:(congruence) F) as [H1 H2].
    destruct (DecodeRune (b :: t)) as [r size]. cbn [fst snd] in *. constructor; auto. apply IH. now apply Forall_skipn.
Qed.
Lemma runes_scalar s : Forall (fun b => 0 <= b < 256) s -> Forall scalar (runes s).
Proof. apply runes_go_scalar. Qed.

(** *** Format *)
Lemma Format_pieces params : forall ps i buffer, Forall plain ps ->
  Format_go params (source ps) i buffer false false =
  (fix go (ps : list piece) (i : nat) (buffer : list Z) : out (list Z) :=
     match ps with
     | [] => Ret buffer
     | Text c :: r => go r i (buffer ++ EncodeRune c)
     | OpenBrace :: r => go r i (buffer ++ [123])
     | CloseBrace :: r => go r i (buffer ++ [125])
     | Hole :: r => param <- idx params i ;; t <- of_option param ;; go r (S i) (buffer ++ t)
     end) ps i buffer.
Proof.
  induction ps as [|p ps IH]; intros i buffer F; [reflexivity|].
  inversion F as [|? ? Hp F']; subst. unfold source. cbn [flat_map]. fold (source ps).
  destruct p as [c| | |]; cbn [piece_source app].
  - destruct Hp as (_ & H1 & H2). cbn [Format_go].
    destruct (Z.eqb_spec c 123); [lia|]. destruct (Z.eqb_spec c 125); [lia|]. now apply IH.
  - cbn. now apply IH.
  - cbn. now apply IH.
  - cbn. destruct (idx params i) as [o| |]; cbn; auto. destruct o; cbn; auto.
Qed.

Lemma source_scalar ps : Forall plain ps -> Forall scalar (source ps).
Proof.
  induction 1 as [|p ps Hp _ IH]; [constructor|]. unfold source. cbn [flat_map]. apply Forall_app. split; [|exact IH].
  destruct p as [c| | |]; cbn in *; [constructor; [tauto|constructor]| | |]; repeat constructor; unfold scalar; lia.
Qed.

Lemma Format_ok params : forall ps, Forall plain ps -> forall i texts buffer, 
  (forall k, (k < holes ps)%nat -> nth_error params (i + k) = option_map Some (nth_error texts k)) ->
  (holes ps <= length texts)%nat ->
  exists o, renders ps texts o /\ Format_go params (source ps) i buffer false false = Ret (buffer ++ o).
Proof.
  intros ps F. setoid_rewrite Format_pieces; [|exact F].
  induction ps as [|p ps IH]; intros i texts buffer HP HL.
  - exists []. split; [constructor|now rewrite app_nil_r].
  - inversion F as [|? ? Hp F']; subst. destruct p as [c| | |].
    + destruct (IH F' i texts (buffer ++ EncodeRune c) HP HL) as (o & R & E).
      exists (EncodeRune c ++ o). split; [constructor; auto; apply EncodeRune_utf8, Hp|]. now rewrite E, app_assoc.
    + destruct (IH F' i texts (buffer ++ [123]) HP HL) as (o & R & E).
      exists (123 :: o). split; [constructor; auto|]. rewrite E, <- app_assoc. reflexivity.
    + destruct (IH F' i texts (buffer ++ [125]) HP HL) as (o & R & E).
      exists (125 :: o). split; [constructor; auto|]. rewrite E, <- app_assoc. reflexivity.
    + cbn [holes filter length] in *. destruct texts as [|t texts]; [cbn in HL; lia|].
      assert (idx params i = Ret (Some t)) as Ei.
      { unfold idx. specialize (HP 0%nat ltac:(unfold holes; cbn; lia)). rewrite Nat.add_0_r in HP. cbn in HP. now rewrite HP. }
      destruct (IH F' (S i) texts (buffer ++ t)) as (o & R & E).
      { intros k Hk. specialize (HP (S k) ltac:(unfold holes in *; cbn; lia)).
        rewrite <- plus_n_Sm in HP. exact HP. }
      { unfold holes in *; cbn in HL. lia. }
      exists (t ++ o). split; [constructor; auto|]. rewrite Ei. cbn [bind of_option]. now rewrite E, app_assoc.
Qed.

Lemma Format_fails params : forall ps, Forall plain ps -> forall i buffer k,
  (k < holes ps)%nat -> (nth_error params (i + k) = None \/ nth_error params (i + k) = Some None) ->
  Format_go params (source ps) i buffer false false = Panic.
Proof.
  intros ps F. setoid_rewrite Format_pieces; [|exact F].
  induction ps as [|p ps IH]; intros i buffer k Hk HN; [cbn in Hk; lia|].
  inversion F as [|? ? Hp F']; subst. destruct p as [c| | |]; try (eapply IH; eauto; fail).
  destruct k as [|k].
  - rewrite Nat.add_0_r in HN. unfold idx. destruct HN as [-> | ->]; reflexivity.
  - destruct (idx params i) as [o| |] eqn:Ei; cbn; auto.
    + destruct o as [t|]; cbn; auto. eapply (IH F' (S i) _ k).
      * unfold holes in *; cbn in Hk; lia.
      * now rewrite <- plus_n_Sm in HN.
    + unfold idx in Ei. destruct (nth_error params i); discriminate.
Qed.
