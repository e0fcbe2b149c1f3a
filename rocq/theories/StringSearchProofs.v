(** StringSearchProofs.v -- proofs about StringSearchModel.v. *)
From Coq Require Import Lia.
From Verif Require Import Base BaseLemmas IntModel OptionModel StringModel StringSpec StringProofs
  StringSearchModel StringSearchSpec.
Local Open Scope Z_scope.

(** *** Index *)
Lemma prefixb_spec p : forall s, prefixb p s = true <-> exists t, s = p ++ t.
Proof.
  induction p as [|a p IH]; intros [|b s]; cbn [prefixb].
  - split; [exists []; reflexivity|reflexivity].
  - split; [exists (b :: s); reflexivity|reflexivity].
  - split; [discriminate|intros [t E]; discriminate E].
  - rewrite Bool.andb_true_iff, Z.eqb_eq, IH. split.
    + intros [-> [t ->]]. exists t. reflexivity.
    + intros [t E]. injection E as -> ->. split; [reflexivity|exists t; reflexivity].
Qed.
Lemma stands_0 p s : stands p s 0 <-> exists t, s = p ++ t.
Proof.
  split.
  - intros (b & a & -> & L). destruct b; [exists a; reflexivity|cbn [length] in L; lia].
  - intros [t ->]. exists [], t. split; reflexivity.
Qed.
Lemma stands_S p b s i : 0 <= i -> (stands p (b :: s) (i + 1) <-> stands p s i).
Proof.
  intros Hi. split.
  - intros (x & a & E & L). destruct x as [|y x]; [cbn [length] in L; lia|].
    injection E as -> ->. exists x, a. split; [reflexivity|]. cbn [length] in L. lia.
  - intros (x & a & -> & L). exists (b :: x), a. split; [reflexivity|]. cbn [length]. lia.
Qed.
Lemma stands_nonneg p s i : stands p s i -> 0 <= i.
Proof. intros (x & a & _ & L). lia. Qed.
Lemma Index_go_spec p : forall s k, 0 <= k ->
  (Index_go s p k = -1 /\ ~ occurs p s) \/ (exists i, Index_go s p k = k + i /\ first_at p s i).
Proof.
  induction s as [|b s IH]; intros k Hk; cbn [Index_go].
  - destruct (prefixb p []) eqn:E.
    + right. exists 0. split; [lia|]. apply prefixb_spec in E. split; [apply stands_0; exact E|].
      intros j Hj. apply stands_nonneg in Hj. exact Hj.
    + left. split; [reflexivity|]. intros (i & x & a & E' & L).
      destruct x; [|discriminate]. cbn in E'.
      assert (prefixb p [] = true) by (apply prefixb_spec; exists a; exact E'). congruence.
  - destruct (prefixb p (b :: s)) eqn:E.
    + right. exists 0. split; [lia|]. apply prefixb_spec in E. split; [apply stands_0; exact E|].
      intros j Hj. apply stands_nonneg in Hj. exact Hj.
    + assert (N : ~ stands p (b :: s) 0).
      { intros H. apply stands_0, prefixb_spec in H. congruence. }
      specialize (IH (k + 1) ltac:(lia)). destruct IH as [[E1 NO]|[i [E1 [F1 F2]]]].
      * left. split; [exact E1|]. intros [i H].
        pose proof (stands_nonneg _ _ _ H). destruct (Z.eq_dec i 0) as [->|]; [contradiction|].
        apply NO. exists (i - 1). apply stands_S with (b := b); [lia|]. replace (i - 1 + 1) with i by lia. exact H.
      * right. exists (i + 1). split; [lia|]. pose proof (stands_nonneg _ _ _ F1).
        split; [apply stands_S; assumption|]. intros j Hj.
        pose proof (stands_nonneg _ _ _ Hj). destruct (Z.eq_dec j 0) as [->|]; [contradiction|].
        assert (i <= j - 1); [|lia]. apply F2. apply stands_S with (b := b); [lia|]. replace (j - 1 + 1) with j by lia. exact Hj.
Qed.
Lemma Index_spec s p :
  (strings_Index s p = -1 /\ ~ occurs p s) \/ (first_at p s (strings_Index s p) /\ 0 <= strings_Index s p).
Proof.
  destruct (Index_go_spec p s 0 ltac:(lia)) as [H|[i [E F]]]; [left; exact H|right].
  unfold strings_Index. rewrite E. cbn. split; [exact F|]. destruct F as [F _]. apply stands_nonneg in F. exact F.
Qed.
Lemma first_at_unique p s i j : first_at p s i -> first_at p s j -> i = j.
Proof. intros [A B] [C D]. specialize (B _ C). specialize (D _ A). lia. Qed.
Lemma first_at_Index p s i : first_at p s i -> strings_Index s p = i.
Proof.
  intros F. destruct (Index_spec s p) as [[_ N]|[G _]].
  - exfalso. apply N. exists i. apply F.
  - eapply first_at_unique; eauto.
Qed.
Lemma Find_some s p i : String_Find s p = Some i <-> first_at p s i.
Proof.
  unfold String_Find. destruct (Index_spec s p) as [[E N]|[F G]].
  - rewrite E. cbn. split; [discriminate|]. intros [H _]. exfalso. apply N. exists i. exact H.
  - destruct (Z.eqb_spec (strings_Index s p) (-1)); [lia|]. split.
    + intros H. injection H as <-. exact F.
    + intros H. f_equal. apply first_at_Index. exact H.
Qed.
Lemma Find_none s p : String_Find s p = None <-> ~ occurs p s.
Proof.
  unfold String_Find. destruct (Index_spec s p) as [[E N]|[F G]].
  - rewrite E. cbn. tauto.
  - destruct (Z.eqb_spec (strings_Index s p) (-1)); [lia|]. split; [discriminate|].
    intros H. exfalso. apply H. eexists. apply F.
Qed.
Lemma Contains_iff s p : String_Contains s p = true <-> occurs p s.
Proof.
  unfold String_Contains, strings_Contains. rewrite Z.leb_le. destruct (Index_spec s p) as [[E N]|[F G]].
  - rewrite E. split; [lia|tauto].
  - split; [intros _; eexists; apply F|intros _; exact G].
Qed.

(** *** UTF-8 synchronises itself *)
Lemma utf8_char_first c b : utf8_char c b -> exists h t, b = h :: t /\ cont h = false /\ Forall (fun x => cont x = true) t.
Proof.
  unfold cont. intros [S [[A ->]|[[A (x & y & -> & B & C & _)]|[[A (x & y & z & -> & B & C & D & _)]|[A (x & y & z & w & -> & B & C & D & E & _)]]]]];
    unfold trail in *; eexists _, _; (split; [reflexivity|]); split;
    repeat constructor; rewrite ?Bool.andb_true_iff, ?Bool.andb_false_iff, ?Z.leb_le, ?Z.leb_gt; try lia.
Qed.
Lemma utf8_first cs s : utf8 cs s -> forall h t, s = h :: t -> cont h = false.
Proof.
  intros U h t ->. inversion U as [|c cs' b bs C U' E1 E2]; subst.
  destruct (utf8_char_first _ _ C) as (h' & t' & -> & H & _). cbn in E2. injection E2 as -> _. exact H.
Qed.
Lemma app_split {A} (a b c d : list A) : a ++ b = c ++ d ->
  (exists x, a = c ++ x /\ d = x ++ b) \/ (exists x y, c = a ++ y :: x /\ b = y :: x ++ d).
Proof.
  revert c. induction a as [|h a IH]; intros c E.
  - destruct c as [|y c].
    + left. exists []. split; [reflexivity|]. cbn in *. congruence.
    + right. exists c, y. split; [reflexivity|exact E].
  - destruct c as [|y c].
    + left. exists (h :: a). split; [reflexivity|]. symmetry. exact E.
    + injection E as -> E. destruct (IH _ E) as [(x & -> & ->)|(x & z & -> & ->)].
      * left. exists x. split; reflexivity.
      * right. exists x, z. split; reflexivity.
Qed.
Lemma utf8_prefix ps p : utf8 ps p -> forall cs y, utf8 cs (p ++ y) -> exists rest, cs = ps ++ rest /\ utf8 rest y.
Proof.
  induction 1 as [|c ps b p C U IH]; intros cs y V.
  - exists cs. split; [reflexivity|exact V].
  - inversion V as [E1 E2|c' cs' b' bs' C' U' E1 E2]; subst.
    + destruct (utf8_char_first _ _ C) as (h & t & -> & _). discriminate.
    + assert (D := DecodeRune_char _ _ (p ++ y) C). rewrite app_assoc, <- E2, (DecodeRune_char _ _ bs' C') in D.
      injection D as -> L. assert (b' = b) as ->.
      { rewrite (utf8_char_unique _ _ C), (utf8_char_unique _ _ C'). reflexivity. }
      rewrite <- app_assoc in E2. apply app_inv_head in E2. subst bs'.
      destruct (IH _ _ U') as (rest & -> & V'). exists rest. split; [reflexivity|exact V'].
Qed.
(** Where a non-empty text stands in another it stands between characters. *)
Lemma utf8_sync ps p : utf8 ps p -> ps <> [] -> forall cs s, utf8 cs s -> forall x y, s = x ++ p ++ y ->
  exists cx cy, cs = cx ++ ps ++ cy /\ utf8 cx x /\ utf8 cy y.
Proof.
  intros U NE. assert (HP : exists h t, p = h :: t /\ cont h = false).
  { inversion U as [|c ps' b p' C U' E1 E2]; subst; [congruence|].
    destruct (utf8_char_first _ _ C) as (h & t & -> & H & _). exists h, (t ++ p'). split; [reflexivity|exact H]. }
  destruct HP as (h & t & EP & CH).
  induction 1 as [|c cs b bs C V IH]; intros x y E.
  - destruct x; [|discriminate]. rewrite EP in E. discriminate.
  - destruct x as [|x0 x1].
    + assert (V' : utf8 (c :: cs) (p ++ y)) by (cbn [app] in E; rewrite <- E; constructor; assumption).
      destruct (utf8_prefix _ _ U _ _ V') as (rest & E' & W). exists [], rest. split; [exact E'|]. split; [constructor|exact W].
    + destruct (app_split _ _ _ _ E) as [(z & Eb & Ed)|(z & w & Ex & Eb)].
      * destruct z as [|z0 z].
        { rewrite app_nil_r in Eb. cbn in Ed. destruct (IH [] y) as (cx & cy & -> & A & B); [symmetry; exact Ed|].
          exists (c :: cx), cy. split; [reflexivity|]. split; [|exact B]. rewrite <- Eb.
          rewrite <- (app_nil_r b). constructor; assumption. }
        exfalso. rewrite EP in Ed. cbn in Ed. injection Ed as Ez Ed. subst z0.
        destruct (utf8_char_first _ _ C) as (h' & t' & Eb' & _ & F). rewrite Eb' in Eb. cbn in Eb. injection Eb as _ Eb.
        rewrite Eb in F. apply Forall_app in F. destruct F as [_ F]. inversion F; subst. congruence.
      * rewrite Ex. destruct (IH (w :: z) y Eb) as (cx & cy & -> & A & B).
        exists (c :: cx), cy. split; [reflexivity|]. split; [constructor; assumption|exact B].
Qed.
Lemma utf8_length cs s : utf8 cs s -> (length cs <= length s)%nat.
Proof.
  induction 1 as [|c cs b bs C U IH]; [apply le_n|]. rewrite app_length. cbn [length].
  pose proof (utf8_char_len _ _ C). lia.
Qed.
Lemma utf8_det cs s s' : utf8 cs s -> utf8 cs s' -> s = s'.
Proof. intros A B. rewrite (utf8_encode_unique _ _ A). symmetry. apply utf8_encode_unique, B. Qed.
Lemma utf8_inj cs cs' s : utf8 cs s -> utf8 cs' s -> cs = cs'.
Proof. intros A B. rewrite <- (runes_utf8 _ _ A). apply runes_utf8, B. Qed.
Lemma utf8_stands ps p cs s : utf8 ps p -> utf8 cs s -> forall before after, cs = before ++ ps ++ after ->
  exists b a, s = b ++ p ++ a /\ utf8 before b /\ utf8 after a.
Proof.
  intros U V before after ->. pose proof (utf8_scalars _ _ V) as F.
  apply Forall_app in F. destruct F as [F1 F2]. apply Forall_app in F2. destruct F2 as [_ F2].
  exists (EncodeRunes before), (EncodeRunes after). split; [|split; apply utf8_encode; assumption].
  eapply utf8_det; [exact V|]. apply utf8_app; [apply utf8_encode; assumption|].
  apply utf8_app; [exact U|apply utf8_encode; assumption].
Qed.
Lemma utf8_len_mono x cx y cy : utf8 cx x -> utf8 cy y -> forall z, cx = cy ++ z -> (length y <= length x)%nat.
Proof.
  intros A B z ->. pose proof (utf8_scalars _ _ A) as F. apply Forall_app in F. destruct F as [_ F].
  assert (x = y ++ EncodeRunes z) as ->.
  { eapply utf8_det; [exact A|]. apply utf8_app; [exact B|apply utf8_encode; exact F]. }
  rewrite app_length. lia.
Qed.
Lemma app_len_prefix {A} (a b c d : list A) : a ++ b = c ++ d -> (length c <= length a)%nat -> exists z, a = c ++ z.
Proof.
  intros E L. destruct (app_split _ _ _ _ E) as [(x & -> & _)|(x & y & -> & _)]; [exists x; reflexivity|].
  rewrite app_length in L. cbn [length] in L. lia.
Qed.
Lemma Find_chars cs s ps p i : utf8 cs s -> utf8 ps p -> String_Find s p = Some i ->
  exists before after b, cs = before ++ ps ++ after /\ first_at ps cs (Z.of_nat (length before)) /\
    utf8 before b /\ i = Z.of_nat (length b).
Proof.
  intros V U H. apply Find_some in H. destruct H as [(x & y & E & L) M].
  assert (K : exists cx cy, cs = cx ++ ps ++ cy /\ utf8 cx x /\ utf8 cy y).
  { destruct ps as [|q ps].
    - inversion U; subst p. assert (x = []) as ->.
      { specialize (M 0). assert (stands [] s 0) by (apply stands_0; exists s; reflexivity). apply M in H. destruct x; [reflexivity|cbn [length] in L; lia]. }
      exists [], cs. split; [reflexivity|]. split; [constructor|]. cbn in E. subst y. exact V.
    - eapply utf8_sync; eauto; discriminate. }
  destruct K as (cx & cy & -> & X & Y). exists cx, cy, x. split; [reflexivity|]. split; [|split; [exact X|lia]].
  split; [exists cx, cy; split; reflexivity|]. intros j (bx & by_ & E' & L').
  destruct (utf8_stands _ _ _ _ U V bx by_ E') as (b & a & Es & B & A).
  assert (i <= Z.of_nat (length b)) by (apply M; exists b, a; split; [exact Es|reflexivity]).
  destruct (Nat.le_gt_cases (length cx) (length bx)) as [G|G]; [lia|exfalso].
  assert (E2 : cx ++ (ps ++ cy) = bx ++ (ps ++ by_)) by exact E'.
  destruct (app_len_prefix _ _ _ _ E2 ltac:(lia)) as (z & Ez).
  destruct z as [|z0 z]; [rewrite app_nil_r in Ez; subst; lia|].
  assert (x = b ++ EncodeRunes (z0 :: z)) as Ex.
  { pose proof (utf8_scalars _ _ X) as F. rewrite Ez in F. apply Forall_app in F. destruct F as [_ F].
    eapply utf8_det; [exact X|]. rewrite Ez. apply utf8_app; [exact B|apply utf8_encode; exact F]. }
  pose proof (utf8_scalars _ _ X) as F. rewrite Ez in F. apply Forall_app in F. destruct F as [_ F].
  pose proof (utf8_length _ _ (utf8_encode _ F)) as LL. rewrite Ex, app_length in L. cbn [length] in LL. lia.
Qed.
Lemma occurs_chars cs s ps p : utf8 cs s -> utf8 ps p -> (occurs p s <-> occurs ps cs).
Proof.
  intros V U. split.
  - intros H. destruct (String_Find s p) as [i|] eqn:E; [|apply Find_none in E; contradiction].
    destruct (Find_chars _ _ _ _ _ V U E) as (a & b & c & _ & F & _). eexists. apply F.
  - intros (i & a & b & E & L). destruct (utf8_stands _ _ _ _ U V a b E) as (x & y & -> & _).
    exists (Z.of_nat (length x)), x, y. split; reflexivity.
Qed.

(** *** Split *)
Lemma firstn_len {A} (a b : list A) : firstn (length a) (a ++ b) = a.
Proof. rewrite firstn_app, Nat.sub_diag, firstn_all. cbn. apply app_nil_r. Qed.
Lemma skipn_len {A} (a b : list A) : skipn (length a) (a ++ b) = b.
Proof. rewrite skipn_app, Nat.sub_diag, skipn_all. reflexivity. Qed.
Lemma skipn_len2 {A} (a b c : list A) : skipn (length a + length b) (a ++ b ++ c) = c.
Proof. rewrite <- app_length, app_assoc. apply skipn_len. Qed.
Lemma cut_exists sep : sep <> [] -> forall n s, (length s <= n)%nat ->
  exists ps, cut sep s ps.
Proof.
  intros NE. induction n as [|n IH]; intros s L; destruct (Index_spec s sep) as [[_ N]|[F G]].
  - exists [s]. constructor. exact N.
  - destruct s; [|cbn [length] in L; lia]. destruct F as [(x & y & E & _) _].
    destruct x; [|discriminate]. destruct sep; [congruence|discriminate].
  - exists [s]. constructor. exact N.
  - destruct F as [(x & y & -> & E) M]. destruct (IH y) as [ps C].
    { rewrite !app_length in L. destruct sep; [congruence|]. cbn [length] in L. lia. }
    exists (x :: ps). constructor; [|exact C]. split; [exists x, y; split; reflexivity|].
    intros j Hj. apply M in Hj. lia.
Qed.
Lemma Count_cut sep : sep <> [] -> forall s ps, cut sep s ps -> forall fuel, (length s <= fuel)%nat ->
  S (Count_go fuel s sep) = length ps.
Proof.
  intros NE s ps C. induction C as [s N|a rest ps F C IH]; intros fuel L.
  - destruct fuel; cbn [Count_go length]; [reflexivity|].
    destruct (Index_spec s sep) as [[E _]|[F _]].
    + rewrite E. reflexivity.
    + exfalso. apply N. eexists. apply F.
  - assert (1 <= length sep)%nat by (destruct sep; [congruence|cbn [length]; lia]).
    rewrite !app_length in L. destruct fuel as [|fuel]; [lia|]. cbn [Count_go].
    rewrite (first_at_Index _ _ _ F). destruct (Z.eqb_spec (Z.of_nat (length a)) (-1)); [lia|].
    rewrite Nat2Z.id, skipn_len2. cbn [length]. f_equal. apply IH. lia.
Qed.
Lemma split_cut sep s ps : cut sep s ps -> split_go (length ps - 1) s sep = ps.
Proof.
  induction 1 as [s N|a rest ps F C IH]; [reflexivity|].
  cbn [length]. replace (Datatypes.S (length ps) - 1)%nat with (length ps) by lia.
  destruct ps as [|p ps]; [inversion C|].
  cbn [length split_go] in *. rewrite (first_at_Index _ _ _ F).
  destruct (Z.ltb_spec (Z.of_nat (length a)) 0); [lia|].
  rewrite Nat2Z.id, skipn_len2, firstn_len. f_equal.
  replace (Datatypes.S (length ps) - 1)%nat with (length ps) in IH by lia. exact IH.
Qed.
Lemma String_Split_eq s sep : String_Split s sep = strings_Split s sep.
Proof. unfold String_Split. rewrite fold_push. reflexivity. Qed.
Lemma Split_of_cut s sep ps : sep <> [] -> cut sep s ps -> String_Split s sep = ps.
Proof.
  intros NE C. rewrite String_Split_eq. unfold strings_Split, strings_Count. destruct sep as [|c sep]; [congruence|].
  pose proof (Count_cut _ NE _ _ C (length s) (le_n _)) as E.
  replace (Count_go (length s) s (c :: sep)) with (length ps - 1)%nat by lia. apply split_cut, C.
Qed.
Lemma Split_cut s sep : sep <> [] -> cut sep s (String_Split s sep).
Proof.
  intros NE. destruct (cut_exists sep NE (length s) s (le_n _)) as [ps C].
  rewrite (Split_of_cut _ _ _ NE C). exact C.
Qed.
Lemma cut_ne sep s ps : cut sep s ps -> ps <> [].
Proof. destruct 1; discriminate. Qed.
Lemma cut_join sep s ps : cut sep s ps -> join sep ps = s.
Proof.
  induction 1 as [s N|a rest ps F C IH]; [reflexivity|]. cbn [join].
  pose proof (cut_ne _ _ _ C). destruct ps; [congruence|]. rewrite IH. reflexivity.
Qed.
Lemma cut_free sep s ps : sep <> [] -> cut sep s ps -> Forall (fun p => ~ occurs sep p) ps.
Proof.
  intros NE. induction 1 as [s N|a rest ps F C IH]; constructor; try assumption; [constructor|].
  intros (i & x & y & E & L). destruct F as [_ F].
  assert (stands sep (a ++ sep ++ rest) i) as H.
  { exists x, (y ++ sep ++ rest). split; [|exact L]. rewrite E, <- !app_assoc. reflexivity. }
  apply F in H. rewrite E, !app_length in H. destruct sep; [congruence|]. cbn [length] in H. lia.
Qed.
Lemma cut_utf8 sep sp : utf8 sp sep -> sp <> [] -> forall s ps, cut sep s ps -> forall cs, utf8 cs s ->
  exists cps, cut sp cs cps /\ Forall2 utf8 cps ps.
Proof.
  intros U NE s ps C. induction C as [s N|a rest ps F C IH]; intros cs V.
  - exists [cs]. split; [|repeat constructor; exact V]. constructor. intros O. apply N. eapply occurs_chars; eauto.
  - destruct (utf8_sync _ _ U NE _ _ V _ _ eq_refl) as (cx & cy & -> & X & Y).
    destruct (IH _ Y) as (cps & D & G). exists (cx :: cps). split; [|constructor; assumption].
    constructor; [|exact D].
    assert (FS : String_Find (a ++ sep ++ rest) sep = Some (Z.of_nat (length a))) by (apply Find_some; exact F).
    destruct (Find_chars _ _ _ _ _ V U FS) as (b & af & bb & E & FA & Ub & Lb).
    assert (cx = b) as ->; [|exact FA].
    assert (a = bb).
    { destruct (utf8_stands _ _ _ _ U V b af E) as (b' & a' & Es & Ub' & _).
      rewrite (utf8_det _ _ _ Ub Ub') in *. apply Nat2Z.inj in Lb.
      destruct (app_len_prefix _ _ _ _ Es ltac:(lia)) as (z & Ez). rewrite Ez, app_length in Lb.
      destruct z; [rewrite app_nil_r in Ez; exact Ez|cbn [length] in Lb; lia]. }
    subst bb. eapply utf8_inj; eauto.
Qed.
Lemma runes_length_utf8 cs s : utf8 cs s -> length (runes s) = length cs.
Proof. intros V. rewrite (runes_utf8 _ _ V). reflexivity. Qed.
Lemma explode_utf8 cs s : utf8 cs s -> Forall2 utf8_char cs (explode_go (length cs) s).
Proof.
  induction 1 as [|c cs b bs C U IH]; [constructor|].
  cbn [length explode_go]. destruct cs as [|c' cs].
  - inversion U; subst. rewrite app_nil_r. constructor; [exact C|constructor].
  - cbn [length]. rewrite (DecodeRune_char _ _ bs C). cbn [snd]. rewrite firstn_len, skipn_len. constructor; [exact C|exact IH].
Qed.
Lemma Split_empty cs s : utf8 cs s -> Forall2 utf8_char cs (String_Split s []).
Proof.
  intros V. rewrite String_Split_eq. unfold strings_Split. rewrite (runes_length_utf8 _ _ V). apply explode_utf8, V.
Qed.

(** *** Replace *)
Lemma replace_cut old new : old <> [] -> forall s ps, cut old s ps -> forall first,
  replace_go (length ps - 1) first s old new = join new ps.
Proof.
  intros NE s ps C. induction C as [s N|a rest ps F C IH]; intros first; [reflexivity|].
  cbn [length join]. replace (Datatypes.S (length ps) - 1)%nat with (length ps) by lia.
  pose proof (cut_ne _ _ _ C). destruct ps as [|p ps]; [congruence|].
  cbn [length replace_go] in *. rewrite (first_at_Index _ _ _ F), Nat2Z.id.
  replace (Datatypes.S (length ps) - 1)%nat with (length ps) in IH by lia.
  replace (match old with [] => if first then O else snd (DecodeRune (a ++ old ++ rest)) | _ :: _ => length a end) with (length a)
    by (destruct old; [congruence|reflexivity]).
  rewrite firstn_len, skipn_len2, (IH false). reflexivity.
Qed.
Lemma Replace_cut s old new ps : old <> [] -> cut old s ps -> String_Replace s old new = join new ps.
Proof.
  intros NE C. unfold String_Replace, strings_Replace. destruct (list_eq_dec Z.eq_dec old new) as [<-|D].
  - symmetry. apply cut_join, C.
  - rewrite <- (replace_cut old new NE _ _ C true). f_equal.
    unfold strings_Count. destruct old as [|o old]; [congruence|].
    pose proof (Count_cut _ NE _ _ C (length s) (le_n _)). lia.
Qed.
Lemma replace_empty new : forall cs s, utf8 cs s -> forall bs, Forall2 utf8_char cs bs ->
  replace_go (length cs) false s [] new = flat_map (fun b => b ++ new) bs.
Proof.
  induction 1 as [|c cs b s C U IH]; intros bs F; inversion F as [|? b' ? bs' C' F']; subst; [reflexivity|].
  cbn [length replace_go flat_map]. rewrite (DecodeRune_char _ _ s C). cbn [snd].
  rewrite firstn_len, Nat.add_0_r, skipn_len, (IH _ F').
  assert (b' = b) as -> by (rewrite (utf8_char_unique _ _ C), (utf8_char_unique _ _ C'); reflexivity).
  rewrite <- app_assoc. reflexivity.
Qed.
Lemma utf8_concat cs s : utf8 cs s -> forall bs, Forall2 utf8_char cs bs -> s = concat bs.
Proof.
  induction 1 as [|c cs b s C U IH]; intros bs F; inversion F as [|? b' ? bs' C' F']; subst; [reflexivity|].
  cbn [concat]. rewrite (utf8_char_unique _ _ C), (utf8_char_unique _ _ C'). f_equal. apply IH, F'.
Qed.
Lemma Replace_empty cs s new bs : utf8 cs s -> Forall2 utf8_char cs bs ->
  String_Replace s [] new = new ++ flat_map (fun b => b ++ new) bs.
Proof.
  intros V F. unfold String_Replace, strings_Replace. destruct (list_eq_dec Z.eq_dec [] new) as [<-|D].
  - rewrite (utf8_concat _ _ V _ F). cbn [app]. clear. induction bs as [|b bs IH]; [reflexivity|].
    cbn [concat flat_map]. rewrite app_nil_r, IH at 1. reflexivity.
  - unfold strings_Count. rewrite (runes_length_utf8 _ _ V). cbn [replace_go firstn app].
    cbn [length Nat.add skipn]. rewrite (replace_empty new _ _ V _ F). reflexivity.
Qed.

(** *** Repeat *)
Lemma concat_repeat s n : concat (repeat s n) = copies n s.
Proof. induction n as [|n IH]; [reflexivity|]. cbn [repeat concat copies]. rewrite IH. reflexivity. Qed.
Lemma wrap_small z : - 2 ^ 63 <= z < 2 ^ 63 -> wrap ISize z = z.
Proof. intros H. unfold wrap. cbn [signed width]. change (64 - 1) with 63. rewrite Z.mod_small; lia. Qed.
Lemma wrap_cong z : exists k, wrap ISize z = z - k * 2 ^ 64 /\ - 2 ^ 63 <= wrap ISize z < 2 ^ 63.
Proof.
  unfold wrap. cbn [signed width]. change (64 - 1) with 63. exists ((z + 2 ^ 63) / 2 ^ 64).
  pose proof (Z.div_mod (z + 2 ^ 63) (2 ^ 64) ltac:(lia)). pose proof (Z.mod_pos_bound (z + 2 ^ 63) (2 ^ 64) ltac:(lia)). lia.
Qed.
Lemma overflow_test len n : 0 <= len < 2 ^ 63 -> 0 < n < 2 ^ 63 ->
  (Z.quot (wrap ISize (len * n)) n = len <-> len * n < 2 ^ 63).
Proof.
  intros HL HN. split.
  - intros E. destruct (wrap_cong (len * n)) as (k & Ek & R).
    destruct (Z.lt_ge_cases (len * n) (2 ^ 63)) as [|G]; [assumption|exfalso].
    pose proof (Z.quot_rem (wrap ISize (len * n)) n ltac:(lia)) as Q. rewrite E in Q.
    assert (B : Z.abs (Z.rem (wrap ISize (len * n)) n) < n).
    { pose proof (Z.rem_bound_abs (wrap ISize (len * n)) n ltac:(lia)). lia. }
    assert (k <> 0) by (intros ->; lia).
    assert (Z.rem (wrap ISize (len * n)) n = - (k * 2 ^ 64)) by nia. nia.
  - intros H. rewrite wrap_small by nia. apply Z.quot_mul. lia.
Qed.
Lemma Repeat_exact s n : 0 <= n < 2 ^ 64 -> Z.of_nat (length s) < 2 ^ 63 ->
  String_Repeat s n = if (n <? 2 ^ 63) && (Z.of_nat (length s) * n <? 2 ^ 63) then Ret (copies (Z.to_nat n) s) else Panic.
Proof.
  intros HN HL. unfold String_Repeat, strings_Repeat.
  destruct (Z.ltb_spec n (2 ^ 63)) as [S|S]; cbn [andb].
  - rewrite wrap_small by lia. destruct (Z.eqb_spec n 0) as [->|NZ].
    + rewrite Z.mul_0_r. reflexivity.
    + destruct (Z.ltb_spec n 0); [lia|].
      pose proof (overflow_test (Z.of_nat (length s)) n ltac:(lia) ltac:(lia)) as T.
      destruct (Z.eqb_spec (Z.quot (wrap ISize (Z.of_nat (length s) * n)) n) (Z.of_nat (length s))) as [E|E];
        destruct (Z.ltb_spec (Z.of_nat (length s) * n) (2 ^ 63)) as [L|L]; cbn [negb]; try tauto.
      * rewrite concat_repeat. reflexivity.
      * apply T in E. lia.
  - assert (wrap ISize n = n - 2 ^ 64) as ->.
    { unfold wrap. cbn [signed width]. change (64 - 1) with 63.
      replace (n + 2 ^ 63) with ((n - 2 ^ 63) + 1 * 2 ^ 64) by lia.
      rewrite Z.mod_add by lia. rewrite Z.mod_small; lia. }
    destruct (Z.eqb_spec (n - 2 ^ 64) 0); [lia|]. destruct (Z.ltb_spec (n - 2 ^ 64) 0); [reflexivity|lia].
Qed.
Lemma copies_length n s : length (copies n s) = (n * length s)%nat.
Proof. induction n as [|n IH]; [reflexivity|]. cbn [copies]. rewrite app_length, IH. reflexivity. Qed.

(** *** Trim *)
Lemma IsSpace_white c : IsSpace c = true <-> white c.
Proof.
  unfold IsSpace, white. destruct (Z.leb_spec c 255);
    rewrite ?Bool.orb_true_iff, ?Bool.andb_true_iff, ?Z.leb_le, ?Z.eqb_eq; lia.
Qed.
Fixpoint dropw (cs : list Z) : list Z :=
  match cs with [] => [] | c :: t => if IsSpace c then dropw t else cs end.
Definition trimw (cs : list Z) : list Z := rev (dropw (rev (dropw cs))).
Lemma dropw_spec cs : exists lead, cs = lead ++ dropw cs /\ Forall white lead /\ (forall c t, dropw cs = c :: t -> ~ white c).
Proof.
  induction cs as [|c cs (lead & E & F & G)]; cbn [dropw].
  - exists []. split; [reflexivity|]. split; [constructor|]. discriminate.
  - destruct (IsSpace c) eqn:W.
    + exists (c :: lead). split; [cbn; f_equal; exact E|]. split; [constructor; [apply IsSpace_white, W|exact F]|exact G].
    + exists []. split; [reflexivity|]. split; [constructor|]. intros d t H. injection H as -> ->.
      intros X. apply IsSpace_white in X. congruence.
Qed.
Lemma trimw_spec cs : trimmed cs (trimw cs).
Proof.
  unfold trimw. destruct (dropw_spec cs) as (lead & E & F & G).
  destruct (dropw_spec (rev (dropw cs))) as (tail & E' & F' & G').
  exists lead, (rev tail). split.
  - rewrite E at 1. f_equal. rewrite <- (rev_involutive (dropw cs)) at 1. rewrite E' at 1. rewrite rev_app_distr. reflexivity.
  - split; [exact F|]. split; [apply Forall_rev, F'|]. split.
    + intros c t H. apply (G c (t ++ rev tail)). rewrite <- (rev_involutive (dropw cs)), E', rev_app_distr, H. reflexivity.
    + intros t c H. apply (G' c (rev t)). rewrite <- (rev_involutive (dropw (rev (dropw cs)))), H, rev_app_distr. reflexivity.
Qed.
Lemma char_ne c b : utf8_char c b -> exists h t, b = h :: t.
Proof. intros C. destruct (utf8_char_first _ _ C) as (h & t & -> & _). eauto. Qed.
Lemma utf8_dropw cs s : utf8 cs s -> exists s', utf8 (dropw cs) s'.
Proof.
  intros V. destruct (dropw_spec cs) as (lead & E & _). pose proof (utf8_scalars _ _ V) as F. rewrite E in F.
  apply Forall_app in F. eexists. apply utf8_encode, F.
Qed.
Lemma TrimLeft_utf8 cs s : utf8 cs s -> forall fuel, (length s <= fuel)%nat -> utf8 (dropw cs) (TrimLeft_go fuel s).
Proof.
  induction 1 as [|c cs b s C U IH]; intros fuel L.
  - destruct fuel; constructor.
  - destruct (char_ne _ _ C) as (h & t & E). pose proof (utf8_char_len _ _ C). rewrite app_length in L.
    destruct fuel as [|fuel]; [lia|]. cbn [TrimLeft_go dropw].
    rewrite (DecodeRune_char _ _ s C). rewrite E at 1. cbn [app].
    destruct (IsSpace c).
    + rewrite skipn_len. apply IH. lia.
    + constructor; assumption.
Qed.
Lemma RuneStart_lead h : 192 <= h -> RuneStart h = true.
Proof. intros H. unfold RuneStart, cont. destruct (Z.leb_spec h 191); [lia|]. rewrite Bool.andb_false_r. reflexivity. Qed.
Lemma RuneStart_trail h : 128 <= h < 192 -> RuneStart h = false.
Proof. intros H. unfold RuneStart, cont. destruct (Z.leb_spec h 191), (Z.leb_spec 128 h); try reflexivity; lia. Qed.
Lemma DecodeLast_char c b s : utf8_char c b -> DecodeLastRune (s ++ b) = (c, length b).
Proof.
  intros C. pose proof (DecodeRune_char _ _ [] C) as D. rewrite app_nil_r in D.
  unfold DecodeLastRune. rewrite rev_app_distr, app_length.
  assert (Q : forall k, k = length b -> skipn (length s + length b - k) (s ++ b) = b).
  { intros k ->. replace (length s + length b - length b)%nat with (length s) by lia. apply skipn_len. }
  destruct C as [S [[A ->]|[[A (x & y & -> & B & T & E)]|[[A (x & y & z & -> & B & T & T2 & E)]|[A (x & y & z & w & -> & B & T & T2 & T3 & E)]]]]];
    unfold trail in *; cbn [rev app last_start].
  - destruct (Z.ltb_spec c 128); [reflexivity|lia].
  - destruct (Z.ltb_spec y 128); [lia|]. rewrite RuneStart_lead by lia.
    rewrite Q by reflexivity. rewrite D. reflexivity.
  - destruct (Z.ltb_spec z 128); [lia|]. rewrite (RuneStart_trail y), RuneStart_lead by lia.
    rewrite Q by reflexivity. rewrite D. reflexivity.
  - destruct (Z.ltb_spec w 128); [lia|]. rewrite (RuneStart_trail y), (RuneStart_trail z), RuneStart_lead by lia.
    rewrite Q by reflexivity. rewrite D. reflexivity.
Qed.
(** A text ends in a character. *)
Lemma utf8_snoc cs c s : utf8 (cs ++ [c]) s -> exists s' b, s = s' ++ b /\ utf8 cs s' /\ utf8_char c b.
Proof.
  intros V. pose proof (utf8_scalars _ _ V) as F. apply Forall_app in F. destruct F as [F1 F2]. inversion F2; subst.
  exists (EncodeRunes cs), (EncodeRune c). split; [|split; [apply utf8_encode; assumption|apply EncodeRune_utf8; assumption]].
  rewrite (utf8_encode_unique _ _ V). unfold EncodeRunes. rewrite flat_map_app. cbn. rewrite app_nil_r. reflexivity.
Qed.
Lemma TrimRight_utf8 cs : forall s, utf8 cs s -> forall fuel, (length s <= fuel)%nat ->
  utf8 (rev (dropw (rev cs))) (TrimRight_go fuel s).
Proof.
  induction cs as [|c cs IH] using rev_ind; intros s V fuel L.
  - inversion V; subst. destruct fuel; constructor.
  - destruct (utf8_snoc _ _ _ V) as (s' & b & -> & U & C). rewrite rev_app_distr. cbn [rev app dropw].
    destruct (char_ne _ _ C) as (h & t & E). pose proof (utf8_char_len _ _ C). rewrite app_length in L.
    destruct fuel as [|fuel]; [lia|]. cbn [TrimRight_go].
    destruct (s' ++ b) as [|q qs] eqn:EQ; [destruct s'; [cbn in EQ; lia || (subst b; discriminate)|discriminate]|]. rewrite <- EQ in *.
    rewrite (DecodeLast_char _ _ s' C). destruct (IsSpace c).
    + rewrite app_length. replace (length s' + length b - length b)%nat with (length s') by lia. rewrite firstn_len.
      apply IH; [exact U|lia].
    + cbn [rev]. rewrite rev_involutive. exact V.
Qed.
Lemma TrimRightFunc_utf8 cs s : utf8 cs s -> utf8 (rev (dropw (rev cs))) (TrimRightFunc s).
Proof. intros V. apply TrimRight_utf8; [exact V|apply le_n]. Qed.
Lemma char_ascii c b h t : utf8_char c b -> b = h :: t -> h < 128 -> c = h /\ b = [h] /\ 0 <= h.
Proof.
  intros [S [[A ->]|[[A (x & y & -> & B & T & E)]|[[A (x & y & z & -> & B & T & T2 & E)]|[A (x & y & z & w & -> & B & T & T2 & T3 & E)]]]]] Q H;
    apply (f_equal (hd 0)) in Q as Q'; cbn [hd] in Q'; unfold trail in *; try lia.
  subst h. repeat split. lia.
Qed.
Lemma ascii_space_is c : 0 <= c < 128 -> IsSpace c = asciiSpace c.
Proof.
  intros H. unfold IsSpace, asciiSpace. destruct (Z.leb_spec c 255); [|lia].
  destruct (Z.eqb_spec c 133); [lia|]. destruct (Z.eqb_spec c 160); [lia|]. rewrite !Bool.orb_false_r. reflexivity.
Qed.
Lemma char_last c b t h : utf8_char c b -> b = t ++ [h] -> h < 128 -> c = h /\ b = [h] /\ 0 <= h.
Proof.
  intros C E H. destruct (utf8_char_first _ _ C) as (h0 & t0 & E0 & _ & F).
  destruct t as [|t1 t].
  - eapply char_ascii; eauto.
  - exfalso. rewrite E in E0. cbn in E0. injection E0 as -> <-. apply Forall_app in F. destruct F as [_ F].
    inversion F as [|? ? K _]; subst. unfold cont in K. rewrite Bool.andb_true_iff, Z.leb_le in K. lia.
Qed.
Lemma TrimStop_utf8 cs : forall s, utf8 cs s -> utf8 (rev (dropw (rev cs))) (TrimStop (rev s)).
Proof.
  induction cs as [|c cs IH] using rev_ind; intros s V.
  - inversion V; subst. constructor.
  - pose proof V as V0. destruct (utf8_snoc _ _ _ V) as (s' & b & E & U & C).
    destruct (char_ne _ _ C) as (h & t & EB).
    destruct (exists_last (l := b)) as (t' & l & EL); [rewrite EB; discriminate|].
    rewrite E, (rev_app_distr s' b), EL, (rev_app_distr t' [l]). cbn [rev app TrimStop].
    destruct (Z.leb_spec 128 l).
    + assert (rev (rev t' ++ rev s') ++ [l] = s) as ->.
      { rewrite rev_app_distr, !rev_involutive, <- app_assoc, <- EL. symmetry. exact E. }
      apply TrimRightFunc_utf8. exact V0.
    + destruct (char_last _ _ _ _ C EL ltac:(lia)) as (-> & Eb & P).
      assert (t' = []) as ->. { rewrite Eb in EL. destruct t' as [|? [|? ?]]; [reflexivity|discriminate|discriminate]. }
      rewrite rev_app_distr. cbn [rev app dropw]. rewrite ascii_space_is by lia. destruct (asciiSpace l).
      * apply IH. exact U.
      * cbn [rev]. rewrite !rev_involutive. rewrite E, Eb in V0. exact V0.
Qed.
Lemma TrimStart_utf8 cs s : utf8 cs s -> utf8 (trimw cs) (TrimStart s).
Proof.
  induction 1 as [|c cs b s C U IH]; [constructor|].
  assert (V : utf8 (c :: cs) (b ++ s)) by (constructor; assumption).
  destruct (char_ne _ _ C) as (h & t & E).
  assert (EQ : b ++ s = h :: (t ++ s)) by (rewrite E; reflexivity).
  rewrite EQ. cbn [TrimStart]. rewrite <- EQ. destruct (Z.leb_spec 128 h).
  - unfold trimw. apply TrimRightFunc_utf8. apply TrimLeft_utf8; [exact V|apply le_n].
  - destruct (char_ascii _ _ _ _ C E ltac:(lia)) as (-> & Eb & P).
    assert (t = []) as -> by (rewrite Eb in E; injection E as E'; symmetry; exact E').
    unfold trimw. cbn [dropw]. rewrite ascii_space_is by lia. destruct (asciiSpace h).
    + exact IH.
    + apply TrimStop_utf8. exact V.
Qed.
Lemma Trim_utf8 cs s : utf8 cs s -> exists mid, trimmed cs mid /\ utf8 mid (String_Trim s).
Proof. intros V. exists (trimw cs). split; [apply trimw_spec|apply TrimStart_utf8, V]. Qed.
Lemma trimmed_unique cs a b : trimmed cs a -> trimmed cs b -> a = b.
Proof.
  enough (H : forall cs a, trimmed cs a -> a = trimw cs) by (intros A B; rewrite (H _ _ A), (H _ _ B); reflexivity).
  clear. intros cs a (lead & tail & -> & F & G & N & M). unfold trimw.
  assert (D : forall l, Forall white l -> forall m, dropw (l ++ m) = dropw m).
  { induction 1 as [|x l X _ IH]; intros m; [reflexivity|]. cbn [app dropw]. apply IsSpace_white in X. rewrite X. apply IH. }
  assert (K : forall m, (forall c t, m = c :: t -> ~ white c) -> dropw m = m).
  { intros [|c m] Q; [reflexivity|]. cbn [dropw]. destruct (IsSpace c) eqn:W; [|reflexivity].
    exfalso. apply (Q c m eq_refl). apply IsSpace_white, W. }
  rewrite (D _ F). destruct a as [|c a].
  - cbn [app]. rewrite <- (app_nil_r tail), (D _ G). reflexivity.
  - rewrite (K ((c :: a) ++ tail)) by (intros d t E; injection E as <- _; apply (N c a); reflexivity).
    rewrite rev_app_distr, (D _ (Forall_rev G)), K.
    + rewrite rev_involutive. reflexivity.
    + intros d t E. apply (M (rev t) d). rewrite <- (rev_involutive (c :: a)), E. reflexivity.
Qed.

(** *** Case *)
Lemma isASCII_runes s : Forall (fun b => 0 <= b) s -> isASCII s = true -> utf8 s s.
Proof.
  intros P. induction P as [|b s Hb P IH]; cbn [isASCII forallb]; [constructor|].
  rewrite Bool.andb_true_iff, Z.ltb_lt. intros [L H].
  change (b :: s) with ([b] ++ s) at 2. constructor; [|apply IH, H].
  split; [unfold scalar; lia|]. left. split; [lia|reflexivity].
Qed.
Lemma lower_byte_spec c : ascii_lower c (lower_byte c).
Proof. unfold ascii_lower, lower_byte. destruct (Z.leb_spec 65 c), (Z.leb_spec c 90); cbn [andb]; lia. Qed.
Lemma upper_byte_spec c : ascii_upper c (upper_byte c).
Proof. unfold ascii_upper, upper_byte. destruct (Z.leb_spec 97 c), (Z.leb_spec c 122); cbn [andb]; lia. Qed.
Lemma ascii_lower_det c a b : ascii_lower c a -> ascii_lower c b -> a = b.
Proof. unfold ascii_lower. lia. Qed.
Lemma ascii_upper_det c a b : ascii_upper c a -> ascii_upper c b -> a = b.
Proof. unfold ascii_upper. lia. Qed.
Lemma utf8_ascii_det cs s : utf8 cs s -> isASCII s = true -> cs = s /\ Forall (fun b => 0 <= b < 128) s.
Proof.
  induction 1 as [|c cs b s C U IH]; intros A; [split; constructor|].
  unfold isASCII in A. rewrite forallb_app, Bool.andb_true_iff in A. destruct A as [A B].
  destruct (char_ne _ _ C) as (h & t & E). rewrite E in A. cbn [forallb] in A.
  rewrite Bool.andb_true_iff, Z.ltb_lt in A. destruct A as [A _].
  destruct (char_ascii _ _ _ _ C E A) as (-> & -> & P). destruct (IH B) as [-> F].
  split; [reflexivity|]. constructor; [lia|exact F].
Qed.
Lemma map_ext_Forall' (f g : Z -> Z) l : Forall (fun b => 0 <= b < 128) l -> (forall c, 0 <= c < 128 -> f c = g c) -> map f l = map g l.
Proof. intros F E. induction F as [|c l H F IH]; [reflexivity|]. cbn [map]. rewrite (E c H), IH. reflexivity. Qed.
Lemma ascii_utf8 l : Forall (fun b => 0 <= b < 128) l -> utf8 l l.
Proof.
  induction 1 as [|c l H F IH]; [constructor|]. change (c :: l) with ([c] ++ l) at 2.
  constructor; [|exact IH]. split; [unfold scalar; lia|]. left. split; [lia|reflexivity].
Qed.
Lemma case_utf8 byte (f : Z -> Z) cs s :
  (forall c, 0 <= c < 128 -> f c = byte c) -> (forall c, 0 <= c < 128 -> 0 <= byte c < 128) ->
  (forall c, scalar c -> scalar (f c)) -> utf8 cs s ->
  utf8 (map f cs) (if isASCII s then map byte s else strings_Map f s).
Proof.
  intros A R S V. destruct (isASCII s) eqn:E.
  - destruct (utf8_ascii_det _ _ V E) as [-> F]. rewrite (map_ext_Forall' f byte s F A). apply ascii_utf8.
    clear - F R. induction F as [|c l H F IH]; constructor; [apply R, H|exact IH].
  - unfold strings_Map. rewrite (runes_utf8 _ _ V). apply utf8_encode.
    pose proof (utf8_scalars _ _ V) as F. clear - F S. induction F; constructor; auto.
Qed.
Lemma lower_utf8 f cs s : (forall c, 0 <= c < 128 -> ascii_lower c (f c)) -> (forall c, scalar c -> scalar (f c)) ->
  utf8 cs s -> utf8 (map f cs) (String_ToLowercase f s).
Proof.
  intros A S V. apply case_utf8; try assumption.
  - intros c H. eapply ascii_lower_det; [apply A, H|apply lower_byte_spec].
  - intros c H. destruct (lower_byte_spec c); lia.
Qed.
Lemma upper_utf8 f cs s : (forall c, 0 <= c < 128 -> ascii_upper c (f c)) -> (forall c, scalar c -> scalar (f c)) ->
  utf8 cs s -> utf8 (map f cs) (String_ToUppercase f s).
Proof.
  intros A S V. apply case_utf8; try assumption.
  - intros c H. eapply ascii_upper_det; [apply A, H|apply upper_byte_spec].
  - intros c H. destruct (upper_byte_spec c); lia.
Qed.
