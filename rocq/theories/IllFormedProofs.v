(** IllFormedProofs.v -- the operations on strings for any bytes. *)
From Coq Require Import ZArith Lia Bool List.
From Verif Require Import Base BaseLemmas StringSpec StringSearchSpec IllFormedSpec StringModel StringSearchModel StringProofs StringSearchProofs.
Import ListNotations.
Local Open Scope Z_scope.

(** *** One character *)
Lemma DecodeRune_cases x t : byte x -> Forall byte t ->
  (exists c b rest, utf8_char c b /\ x :: t = b ++ rest /\ DecodeRune (x :: t) = (c, length b)) \/ DecodeRune (x :: t) = (RuneError, 1%nat).
Proof.
  unfold byte. intros B0 F. cbn [DecodeRune].
  destruct (Z.ltb_spec x 128). { left. exists x, [x], t. split; [|auto]. split; [unfold scalar; lia|]. left. split; [lia|reflexivity]. }
  destruct ((x <? 194) || (244 <? x)) eqn:E1; [right; reflexivity|].
  apply orb_false_iff in E1. destruct E1 as [E1 E2]. apply Z.ltb_ge in E1, E2.
  destruct (Z.ltb_spec x 224).
  - destruct t as [|b1 t]; [right; reflexivity|]. unfold cont.
    destruct ((128 <=? b1) && (b1 <=? 191)) eqn:E; [|right; reflexivity].
    apply andb_true_iff in E. rewrite !Z.leb_le in E. left. exists ((x - 192) * 64 + (b1 - 128)), [x; b1], t. split; [|auto].
    split; [unfold scalar; lia|]. right. left. split; [lia|]. exists (x - 192), b1. unfold trail. split; [do 2 f_equal; lia|lia].
  - destruct (Z.ltb_spec x 240).
    + destruct t as [|b1 [|b2 t]]; try (right; reflexivity). cbv zeta. unfold cont.
      destruct (((if x =? 224 then 160 else 128) <=? b1) && (b1 <=? (if x =? 237 then 159 else 191)) && ((128 <=? b2) && (b2 <=? 191))) eqn:E; [|right; reflexivity].
      rewrite !andb_true_iff, !Z.leb_le in E. left. exists ((x - 224) * 4096 + (b1 - 128) * 64 + (b2 - 128)), [x; b1; b2], t. split; [|auto].
      split; [unfold scalar; destruct (Z.eqb_spec x 224), (Z.eqb_spec x 237); lia|]. right. right. left.
      split; [destruct (Z.eqb_spec x 224), (Z.eqb_spec x 237); lia|]. exists (x - 224), b1, b2. unfold trail.
      split; [do 2 f_equal; lia|destruct (Z.eqb_spec x 224), (Z.eqb_spec x 237); lia].
    + destruct t as [|b1 [|b2 [|b3 t]]]; try (right; reflexivity). cbv zeta. unfold cont.
      destruct (((if x =? 240 then 144 else 128) <=? b1) && (b1 <=? (if x =? 244 then 143 else 191)) && ((128 <=? b2) && (b2 <=? 191)) && ((128 <=? b3) && (b3 <=? 191))) eqn:E; [|right; reflexivity].
      rewrite !andb_true_iff, !Z.leb_le in E. left. exists ((x - 240) * 262144 + (b1 - 128) * 4096 + (b2 - 128) * 64 + (b3 - 128)), [x; b1; b2; b3], t. split; [|auto].
      split; [unfold scalar; destruct (Z.eqb_spec x 240), (Z.eqb_spec x 244); lia|]. right. right. right.
      split; [destruct (Z.eqb_spec x 240), (Z.eqb_spec x 244); lia|]. exists (x - 240), b1, b2, b3. unfold trail.
      split; [do 2 f_equal; lia|destruct (Z.eqb_spec x 240), (Z.eqb_spec x 244); lia].
Qed.
Lemma stray_decode x t : byte x -> Forall byte t -> no_character (x :: t) -> DecodeRune (x :: t) = (RuneError, 1%nat).
Proof. intros B F N. destruct (DecodeRune_cases x t B F) as [(c & b & rest & C & E & _)|E]; [destruct (N c b rest C E)|exact E]. Qed.
Lemma long_error b : utf8_char RuneError b -> length b = 3%nat.
Proof.
  unfold RuneError. intros [_ [[A _]|[[A _]|[[A (x & y & z & -> & _)]|[A _]]]]]; try lia. reflexivity.
Qed.
Lemma decode_stray x t : DecodeRune (x :: t) = (RuneError, 1%nat) -> no_character (x :: t).
Proof.
  intros D c b rest C E. pose proof (DecodeRune_char c b rest C) as D'. rewrite <- E, D in D'. injection D' as <- L.
  pose proof (long_error b C). lia.
Qed.
Lemma char_bytes c b : utf8_char c b -> Forall byte b.
Proof.
  unfold byte. intros [S [[A ->]|[[A (x & y & -> & B & T & E)]|[[A (x & y & z & -> & B & T & T2 & E)]|[A (x & y & z & w & -> & B & T & T2 & T3 & E)]]]]];
    unfold trail, scalar in *; repeat constructor; lia.
Qed.

(** *** Pieces *)
Lemma pieced_concat us s : pieced us s -> bytes_of us = s.
Proof. unfold bytes_of. induction 1 as [|c b us s C P IH|x us s N P IH]; cbn [map concat snd]; [reflexivity|rewrite IH; reflexivity|rewrite IH; reflexivity]. Qed.
Theorem pieced_exists s : Forall byte s -> exists us, pieced us s.
Proof.
  enough (H : forall n s, (length s <= n)%nat -> Forall byte s -> exists us, pieced us s) by (intros F; eapply H; [apply le_n|exact F]).
  induction n as [|n IH]; intros s0 L F.
  - destruct s0; [exists []; constructor|cbn [length] in L; lia].
  - destruct s0 as [|x t]; [exists []; constructor|]. inversion F as [|? ? B Ft]; subst. cbn [length] in L.
    destruct (DecodeRune_cases x t B Ft) as [(c & b & rest & C & E & _)|E].
    + destruct (IH rest) as [us P].
      * pose proof (utf8_char_len _ _ C). apply (f_equal (@length Z)) in E. cbn [length] in E. rewrite app_length in E. lia.
      * rewrite E in F. apply Forall_app in F. apply F.
      * exists ((c, b) :: us). rewrite E. constructor; assumption.
    + destruct (IH t ltac:(lia) Ft) as [us P]. exists ((65533, [x]) :: us). constructor; [apply decode_stray, E|exact P].
Qed.
Theorem pieced_unique us us' s : pieced us s -> pieced us' s -> us = us'.
Proof.
  intros P. revert us'. induction P as [|c b us s C P IH|x us s N P IH]; intros us' Q.
  - inversion Q as [|c b us0 s0 C P E|]; subst; [reflexivity|]. destruct (char_ne _ _ C) as (h & t & ->). discriminate.
  - inversion Q as [E|c' b' us0 s0 C' P' E1 E|x us0 s0 N P' E1 E]; subst.
    + destruct (char_ne _ _ C) as (h & t & ->). discriminate.
    + pose proof (DecodeRune_char c b s C) as D. rewrite <- E, (DecodeRune_char c' b' s0 C') in D. injection D as -> L.
      assert (b' = b) by (rewrite (utf8_char_unique _ _ C), (utf8_char_unique _ _ C'); reflexivity). subst b'.
      apply app_inv_head in E. subst s0. f_equal. apply IH, P'.
    + exfalso. exact (N c b s C E).
  - inversion Q as [|c b us0 s0 C P' E1 E|x' us0 s0 N' P' E1 E]; subst.
    + exfalso. exact (N c b s0 C (eq_sym E)).
    + f_equal. apply IH, P'.
Qed.
Lemma pieced_utf8 cs s : utf8 cs s -> exists us, pieced us s /\ characters us = cs /\ Forall2 utf8_char cs (map snd us).
Proof.
  induction 1 as [|c cs b s C U (us & P & E & F)]; [exists []; repeat constructor|].
  exists ((c, b) :: us). split; [constructor; assumption|]. split; [cbn [characters map fst]; f_equal; exact E|cbn [map snd]; constructor; assumption].
Qed.
Lemma bytes_pieced us s : pieced us s -> Forall byte s -> Forall (fun u => snd u <> []) us.
Proof.
  induction 1 as [|c b us s C P IH|x us s N P IH]; intros F; [constructor| |].
  - apply Forall_app in F as [_ F]. constructor; [destruct (char_ne _ _ C) as (h & t & E); cbn; congruence|apply IH, F].
  - inversion F; subst. constructor; [discriminate|apply IH; assumption].
Qed.

(** *** Decoding *)
Lemma runes_pieced us s : pieced us s -> Forall byte s -> forall fuel, (length s <= fuel)%nat -> runes_go fuel s = characters us.
Proof.
  induction 1 as [|c b us s C P IH|x us s N P IH]; intros F fuel L.
  - destruct fuel; reflexivity.
  - apply Forall_app in F as [_ F]. destruct (char_ne _ _ C) as (h & t & E). rewrite app_length in L. pose proof (utf8_char_len _ _ C).
    destruct fuel as [|fuel]; [lia|].
    assert (EQ : runes_go (Datatypes.S fuel) (b ++ s) = let (r, size) := DecodeRune (b ++ s) in r :: runes_go fuel (skipn size (b ++ s))).
    { rewrite E. reflexivity. }
    rewrite EQ, (DecodeRune_char _ _ s C), skipn_len. cbn [characters map fst]. f_equal. apply IH; [exact F|lia].
  - inversion F as [|? ? B Fs]; subst. cbn [length] in L. destruct fuel as [|fuel]; [lia|]. cbn [runes_go].
    rewrite (stray_decode x s B Fs N). cbn [skipn characters map fst]. f_equal. apply IH; [exact Fs|lia].
Qed.
Lemma runes_any us s : pieced us s -> Forall byte s -> runes s = characters us.
Proof. intros P F. apply (runes_pieced _ _ P F). apply le_n. Qed.
Lemma chars_any us s : pieced us s -> Forall byte s -> String_Chars s = characters us.
Proof. intros P F. unfold String_Chars. rewrite fold_push. cbn. apply runes_any; assumption. Qed.
Lemma chars_scalar us s : pieced us s -> Forall scalar (characters us).
Proof.
  induction 1 as [|c b us s C P IH|x us s N P IH]; cbn [characters map fst]; [constructor| |]; constructor; try exact IH; [apply C|unfold scalar; lia].
Qed.
Lemma pop_any us u s : pieced (us ++ [u]) s -> Forall byte s -> String_Pop s = Ret (EncodeRunes (characters us), Some (fst u)).
Proof.
  intros P F. unfold String_Pop. assert (E : String_IsEmpty s = false).
  { destruct s; [|reflexivity]. pose proof (bytes_pieced _ _ P F) as Q. apply pieced_concat in P. unfold bytes_of in P. rewrite map_app, concat_app in P.
    apply app_eq_nil in P as [_ P]. cbn [map concat] in P. rewrite app_nil_r in P. apply Forall_app in Q as [_ Q]. inversion Q; contradiction. }
  rewrite E, (runes_any _ _ P F). unfold characters. rewrite map_app. cbn [map]. rewrite idx_snoc, firstn_snoc. reflexivity.
Qed.
Lemma explode_any us s : pieced us s -> Forall byte s -> explode_go (length us) s = map snd us.
Proof.
  induction 1 as [|c b us s C P IH|x us s N P IH]; intros F; [reflexivity| |].
  - apply Forall_app in F as [_ F]. specialize (IH F). cbn [length map snd]. destruct us as [|u us]; [inversion P; subst; rewrite app_nil_r; reflexivity|].
    cbn [length]. cbn [length] in IH. cbn [explode_go] in *. rewrite (DecodeRune_char _ _ s C). cbn [snd]. rewrite firstn_len, skipn_len. f_equal. exact IH.
  - inversion F as [|? ? B Fs]; subst. specialize (IH Fs). cbn [length map snd]. destruct us as [|u us]; [inversion P; subst; reflexivity|].
    cbn [length]. cbn [length] in IH. cbn [explode_go] in *. rewrite (stray_decode x s B Fs N). cbn [snd firstn skipn]. f_equal. exact IH.
Qed.
Lemma split_any us s : pieced us s -> Forall byte s -> String_Split s [] = map snd us.
Proof.
  intros P F. rewrite String_Split_eq. unfold strings_Split. rewrite (runes_any _ _ P F). unfold characters. rewrite map_length. apply explode_any; assumption.
Qed.
Lemma replace_any new us s : pieced us s -> Forall byte s -> replace_go (length us) false s [] new = flat_map (fun u => snd u ++ new) us.
Proof.
  induction 1 as [|c b us s C P IH|x us s N P IH]; intros F; [reflexivity| |].
  - apply Forall_app in F as [_ F]. cbn [length replace_go flat_map snd]. rewrite (DecodeRune_char _ _ s C). cbn [snd].
    rewrite firstn_len, Nat.add_0_r, skipn_len, (IH F), <- app_assoc. reflexivity.
  - inversion F as [|? ? B Fs]; subst. cbn [length replace_go flat_map snd]. rewrite (stray_decode x s B Fs N). cbn [snd firstn length Nat.add skipn].
    rewrite (IH Fs). reflexivity.
Qed.
Lemma Replace_any us s new : pieced us s -> Forall byte s -> String_Replace s [] new = new ++ flat_map (fun u => snd u ++ new) us.
Proof.
  intros P F. unfold String_Replace, strings_Replace. destruct (list_eq_dec Z.eq_dec [] new) as [<-|D].
  - rewrite <- (pieced_concat _ _ P). cbn [app]. unfold bytes_of. clear. induction us as [|u us IH]; [reflexivity|].
    cbn [concat map flat_map]. rewrite app_nil_r, IH at 1. reflexivity.
  - unfold strings_Count. rewrite (runes_any _ _ P F). unfold characters. rewrite map_length. cbn [replace_go firstn app].
    cbn [length Nat.add skipn]. rewrite (replace_any new _ _ P F). reflexivity.
Qed.
Lemma case_any byte_map f us s : pieced us s -> Forall byte s -> (forall c, 0 <= c < 128 -> f c = byte_map c) -> (forall c, 0 <= c < 128 -> 0 <= byte_map c < 128) ->
  (forall c, scalar c -> scalar (f c)) -> utf8 (map f (characters us)) (if isASCII s then map byte_map s else strings_Map f s).
Proof.
  intros P F A R S. destruct (isASCII s) eqn:E.
  - assert (V : utf8 s s). { apply isASCII_runes; [eapply Forall_impl; [|exact F]; intros b [H _]; exact H|exact E]. }
    assert (characters us = s) as ->. { rewrite <- (runes_any _ _ P F). apply runes_utf8, V. }
    pose proof (case_utf8 byte_map f s s A R S V) as Q. rewrite E in Q. exact Q.
  - unfold strings_Map. rewrite (runes_any _ _ P F). apply utf8_encode. pose proof (chars_scalar _ _ P) as Q. clear - Q S. induction Q; constructor; auto.
Qed.

(** *** Trim *)
Lemma no_character_prefix x s t : no_character (x :: s ++ t) -> no_character (x :: s).
Proof. intros N c b rest C E. apply (N c b (rest ++ t) C). rewrite app_assoc, <- E. reflexivity. Qed.
Lemma pieced_snoc us u : forall s, pieced (us ++ [u]) s -> exists s', s = s' ++ snd u /\ pieced us s' /\ (utf8_char (fst u) (snd u) \/ exists x, u = (65533, [x]) /\ no_character [x]).
Proof.
  induction us as [|v us IH]; intros s P; cbn [app] in P.
  - exists []. inversion P as [|c b us0 s0 C P0 E1 E|x us0 s0 N P0 E1 E]; subst; inversion P0; subst; cbn [app snd fst].
    + rewrite app_nil_r. split; [reflexivity|]. split; [constructor|left; exact C].
    + split; [reflexivity|]. split; [constructor|]. right. exists x. auto.
  - inversion P as [|c b us0 s0 C P0 E1 E|x us0 s0 N P0 E1 E]; subst.
    + destruct (IH _ P0) as (s' & -> & P' & U). exists (b ++ s'). split; [apply app_assoc|]. split; [constructor; assumption|exact U].
    + destruct (IH _ P0) as (s' & -> & P' & U). exists (x :: s'). split; [reflexivity|]. split; [constructor; [eapply no_character_prefix; exact N|exact P']|exact U].
Qed.
(** A character that stands in [s] is one of the pieces. *)
Lemma sync us s : pieced us s -> forall p c b q, utf8_char c b -> s = p ++ b ++ q ->
  exists us0 us1, us = us0 ++ (c, b) :: us1 /\ bytes_of us0 = p.
Proof.
  induction 1 as [|c0 b0 us s C0 P IH|x us s N P IH]; intros p c b q C E.
  - destruct (char_ne _ _ C) as (h & t & ->). destruct p; discriminate.
  - destruct p as [|y p].
    + exists [], us. split; [|reflexivity]. cbn [app]. pose proof (DecodeRune_char c0 b0 s C0) as D. rewrite E in D. cbn [app] in D.
      rewrite (DecodeRune_char c b q C) in D. injection D as -> L. f_equal. f_equal. rewrite (utf8_char_unique _ _ C), (utf8_char_unique _ _ C0). reflexivity.
    + destruct (utf8_char_first _ _ C) as (h & t & EB & H & _). destruct (utf8_char_first _ _ C0) as (h0 & t0 & EB0 & H0 & F0).
      destruct (Nat.le_gt_cases (length b0) (length (y :: p))) as [L|L].
      * destruct (app_len_prefix (y :: p) (b ++ q) b0 s (eq_sym E) L) as (z & EZ). rewrite EZ, <- app_assoc in E. apply app_inv_head in E.
        destruct (IH z c b q C E) as (us0 & us1 & -> & EQ). exists ((c0, b0) :: us0), us1. split; [reflexivity|].
        rewrite EZ. unfold bytes_of in *. cbn [map concat snd]. rewrite EQ. reflexivity.
      * exfalso. destruct (app_len_prefix b0 s (y :: p) (b ++ q) E ltac:(lia)) as (z & EZ). rewrite EZ, <- app_assoc in E. apply app_inv_head in E.
        destruct z as [|z0 z]; [rewrite app_nil_r in EZ; rewrite EZ in L; lia|]. rewrite EB in E. cbn [app] in E. injection E as -> _.
        rewrite EB0 in EZ. cbn [app] in EZ. injection EZ as _ ->. apply Forall_app in F0 as [_ F0]. inversion F0. congruence.
  - destruct p as [|y p]; [exfalso; exact (N c b q C E)|]. cbn [app] in E. injection E as <- E.
    destruct (IH p c b q C E) as (us0 & us1 & -> & EQ). exists ((65533, [x]) :: us0), us1. split; [reflexivity|]. unfold bytes_of in *. cbn [map concat snd app]. rewrite EQ. reflexivity.
Qed.
Lemma last_start_bound lim : forall back taken, (taken <= last_start lim back taken <= taken + length back)%nat.
Proof.
  induction lim as [|l IH]; intros back taken; destruct back as [|b t]; cbn [last_start length]; try lia.
  destruct (RuneStart b); [lia|]. specialize (IH t (Datatypes.S taken)). lia.
Qed.
Lemma DecodeLast_stray us s x : pieced (us ++ [(65533, [x])]) (s ++ [x]) -> Forall byte (s ++ [x]) -> no_character [x] -> DecodeLastRune (s ++ [x]) = (65533, 1%nat).
Proof.
  intros P F N. unfold DecodeLastRune. rewrite rev_app_distr. cbn [rev app].
  assert (X : byte x) by (apply Forall_app in F as [_ F]; inversion F; assumption).
  destruct (Z.ltb_spec x 128) as [L|L].
  { exfalso. apply (N x [x] []); [|reflexivity]. unfold byte in X. split; [unfold scalar; lia|]. left. split; [lia|reflexivity]. }
  pose proof (last_start_bound 3 (rev s) 1) as B. rewrite rev_length in B. set (taken := last_start 3 (rev s) 1) in *.
  assert (LS : length (s ++ [x]) = (length s + 1)%nat) by (rewrite app_length; reflexivity). rewrite LS.
  destruct (skipn (length s + 1 - taken) (s ++ [x])) as [|y t] eqn:ES.
  { exfalso. apply (f_equal (@length Z)) in ES. rewrite skipn_length, LS in ES. cbn [length] in ES. lia. }
  assert (SPL : s ++ [x] = firstn (length s + 1 - taken) (s ++ [x]) ++ y :: t) by (rewrite <- ES; symmetry; apply firstn_skipn).
  assert (LT : length (y :: t) = taken) by (rewrite <- ES, skipn_length, LS; lia).
  assert (FY : Forall byte (y :: t)) by (rewrite SPL in F; apply Forall_app in F as [_ F]; exact F).
  inversion FY as [|? ? BY FT]; subst.
  destruct (DecodeRune_cases y t BY FT) as [(c & b & rest & C & E & D)|D]; rewrite D.
  - destruct (Nat.eqb_spec (length b) taken) as [Q|Q]; [|reflexivity].
    (* a character would end here *)
    assert (rest = []) as -> by (apply (f_equal (@length Z)) in E; rewrite app_length, LT in E; destruct rest; [reflexivity|cbn [length] in E; lia]).
    rewrite app_nil_r in E. rewrite E in SPL. exfalso.
    destruct (sync _ _ P (firstn (length s + 1 - taken) (s ++ [x])) c b [] C ltac:(rewrite app_nil_r; exact SPL)) as (us0 & us1 & EU & EQ).
    assert (us1 = []).
    { pose proof (pieced_concat _ _ P) as PC. rewrite EU in PC. unfold bytes_of in *. rewrite map_app, concat_app, EQ in PC. cbn [map concat snd] in PC.
      rewrite SPL in PC at 2. apply app_inv_head in PC. rewrite <- (app_nil_r b) in PC at 2. apply app_inv_head in PC.
      destruct us1 as [|u us1]; [reflexivity|]. exfalso. pose proof (bytes_pieced _ _ P F) as NB. rewrite EU in NB. apply Forall_app in NB as [_ NB].
      inversion NB as [|? ? _ NB']; subst. inversion NB'; subst. cbn [map concat] in PC. apply app_eq_nil in PC as [PC _]. contradiction. }
    subst us1. apply app_inj_tail in EU as [_ EU]. injection EU as <- <-. pose proof (long_error _ C) as LE. discriminate LE.
  - destruct (Nat.eqb_spec 1 taken) as [Q|Q]; reflexivity.
Qed.
Fixpoint dropu (us : list (Z * list Z)) : list (Z * list Z) :=
  match us with [] => [] | u :: t => if IsSpace (fst u) then dropu t else us end.
Definition trimu (us : list (Z * list Z)) : list (Z * list Z) := rev (dropu (rev (dropu us))).
Lemma dropu_spec us : exists lead, us = lead ++ dropu us /\ Forall (fun u => white (fst u)) lead /\ (forall u t, dropu us = u :: t -> ~ white (fst u)).
Proof.
  induction us as [|c us (lead & E & F & G)]; cbn [dropu].
  - exists []. split; [reflexivity|]. split; [constructor|]. discriminate.
  - destruct (IsSpace (fst c)) eqn:W.
    + exists (c :: lead). split; [cbn; f_equal; exact E|]. split; [constructor; [apply IsSpace_white, W|exact F]|exact G].
    + exists []. split; [reflexivity|]. split; [constructor|]. intros d t H. injection H as -> ->.
      intros X. apply IsSpace_white in X. congruence.
Qed.
Lemma trimu_spec us : trimmed_pieces us (trimu us).
Proof.
  unfold trimu. destruct (dropu_spec us) as (lead & E & F & G).
  destruct (dropu_spec (rev (dropu us))) as (tail & E' & F' & G').
  exists lead, (rev tail). split.
  - rewrite E at 1. f_equal. rewrite <- (rev_involutive (dropu us)) at 1. rewrite E' at 1. rewrite rev_app_distr. reflexivity.
  - split; [exact F|]. split; [apply Forall_rev, F'|]. split.
    + intros c t H. apply (G c (t ++ rev tail)). rewrite <- (rev_involutive (dropu us)), E', rev_app_distr, H. reflexivity.
    + intros t c H. apply (G' c (rev t)). rewrite <- (rev_involutive (dropu (rev (dropu us)))), H, rev_app_distr. reflexivity.
Qed.
Lemma trimmed_pieces_unique us a b : trimmed_pieces us a -> trimmed_pieces us b -> a = b.
Proof.
  enough (H : forall us a, trimmed_pieces us a -> a = trimu us) by (intros A B; rewrite (H _ _ A), (H _ _ B); reflexivity).
  clear. intros us a (lead & tail & -> & F & G & N & M). unfold trimu.
  assert (D : forall l, Forall (fun u : Z * list Z => white (fst u)) l -> forall m, dropu (l ++ m) = dropu m).
  { induction 1 as [|x l X _ IH]; intros m; [reflexivity|]. cbn [app dropu]. apply IsSpace_white in X. rewrite X. apply IH. }
  assert (K : forall m : list (Z * list Z), (forall c t, m = c :: t -> ~ white (fst c)) -> dropu m = m).
  { intros [|c m] Q; [reflexivity|]. cbn [dropu]. destruct (IsSpace (fst c)) eqn:W; [|reflexivity].
    exfalso. apply (Q c m eq_refl). apply IsSpace_white, W. }
  rewrite (D _ F). destruct a as [|c a].
  - cbn [app]. rewrite <- (app_nil_r tail), (D _ G). reflexivity.
  - rewrite (K ((c :: a) ++ tail)) by (intros d t E; injection E as <- _; apply (N c a); reflexivity).
    rewrite rev_app_distr, (D _ (Forall_rev G)), K.
    + rewrite rev_involutive. reflexivity.
    + intros d t E. apply (M (rev t) d). rewrite <- (rev_involutive (c :: a)), E. reflexivity.
Qed.
Lemma stray_not_space : IsSpace 65533 = false. Proof. reflexivity. Qed.
Lemma TrimLeft_any us s : pieced us s -> Forall byte s -> forall fuel, (length s <= fuel)%nat ->
  TrimLeft_go fuel s = bytes_of (dropu us) /\ pieced (dropu us) (bytes_of (dropu us)) /\ Forall byte (bytes_of (dropu us)).
Proof.
  induction 1 as [|c b us s C P IH|x us s N P IH]; intros F fuel L.
  - destruct fuel; repeat constructor.
  - assert (P0 : pieced ((c, b) :: us) (b ++ s)) by (constructor; assumption). pose proof (pieced_concat _ _ P0) as BO. pose proof F as F0.
    apply Forall_app in F as [_ F]. destruct (char_ne _ _ C) as (h & t & E). pose proof (utf8_char_len _ _ C). rewrite app_length in L.
    destruct fuel as [|fuel]; [lia|]. cbn [TrimLeft_go dropu fst].
    rewrite (DecodeRune_char _ _ s C). rewrite E at 1. cbn [app].
    destruct (IsSpace c).
    + rewrite skipn_len. apply IH; [exact F|lia].
    + rewrite BO. auto.
  - assert (P0 : pieced ((65533, [x]) :: us) (x :: s)) by (constructor; assumption). pose proof (pieced_concat _ _ P0) as BO. pose proof F as F0.
    inversion F as [|? ? B Fs]; subst. cbn [length] in L. destruct fuel as [|fuel]; [lia|]. cbn [TrimLeft_go dropu fst].
    rewrite (stray_decode x s B Fs N). change (IsSpace RuneError) with false. rewrite stray_not_space. rewrite BO. auto.
Qed.
Lemma rev_snoc_drop us u : dropu (rev (us ++ [u])) = if IsSpace (fst u) then dropu (rev us) else u :: rev us.
Proof. rewrite rev_app_distr. reflexivity. Qed.
Lemma TrimRight_any us : forall s, pieced us s -> Forall byte s -> forall fuel, (length s <= fuel)%nat ->
  TrimRight_go fuel s = bytes_of (rev (dropu (rev us))).
Proof.
  induction us as [|u us IH] using rev_ind; intros s P F fuel L.
  - inversion P; subst. destruct fuel; reflexivity.
  - pose proof (pieced_concat _ _ P) as BO. destruct (pieced_snoc _ _ _ P) as (s' & E & P' & U). rewrite rev_snoc_drop.
    assert (NB : snd u <> []) by (pose proof (bytes_pieced _ _ P F) as NB; apply Forall_app in NB as [_ NB]; inversion NB; assumption).
    assert (LU : (1 <= length (snd u))%nat) by (destruct (snd u); [contradiction|cbn [length]; lia]).
    assert (D : DecodeLastRune s = (fst u, length (snd u))).
    { destruct U as [C|(x & -> & N)]; [rewrite E; apply DecodeLast_char, C|]. cbn [fst snd length] in *. rewrite E in *. eapply DecodeLast_stray; eassumption. }
    assert (LE : length s = (length s' + length (snd u))%nat) by (rewrite E, app_length; reflexivity).
    destruct fuel as [|fuel]; [lia|]. destruct s as [|q qs] eqn:EQ; [cbn [length] in LE; lia|]. rewrite <- EQ in *. cbn [TrimRight_go]. rewrite EQ at 1. cbv iota. rewrite D.
    destruct (IsSpace (fst u)).
    + rewrite LE. replace (length s' + length (snd u) - length (snd u))%nat with (length s') by lia. rewrite E, firstn_len.
      apply IH; [exact P'|rewrite E in F; apply Forall_app in F; apply F|lia].
    + cbn [rev]. rewrite rev_involutive, BO. reflexivity.
Qed.
Lemma TrimRightFunc_any us s : pieced us s -> Forall byte s -> TrimRightFunc s = bytes_of (rev (dropu (rev us))).
Proof. intros P F. apply TrimRight_any; [exact P|exact F|apply le_n]. Qed.
Lemma stray_high x : byte x -> no_character [x] -> 128 <= x.
Proof.
  intros X N. destruct (Z.le_gt_cases 128 x) as [|L]; [assumption|]. exfalso. unfold byte in X. apply (N x [x] []); [|reflexivity].
  split; [unfold scalar; lia|]. left. split; [lia|reflexivity].
Qed.
Lemma TrimStop_any us : forall s, pieced us s -> Forall byte s -> TrimStop (rev s) = bytes_of (rev (dropu (rev us))).
Proof.
  induction us as [|u us IH] using rev_ind; intros s P F.
  - inversion P; subst. reflexivity.
  - pose proof (pieced_concat _ _ P) as BO. destruct (pieced_snoc _ _ _ P) as (s' & E & P' & U). 
    assert (NB : snd u <> []) by (pose proof (bytes_pieced _ _ P F) as NB; apply Forall_app in NB as [_ NB]; inversion NB; assumption).
    destruct (exists_last NB) as (t' & l & EL).
    assert (RS : rev s = l :: rev (s' ++ t')) by (rewrite E, EL, app_assoc, rev_app_distr; reflexivity).
    rewrite RS. cbn [TrimStop]. rewrite <- RS, rev_involutive. destruct (Z.leb_spec 128 l).
    + apply TrimRightFunc_any; assumption.
    + destruct U as [C|(x & -> & N)].
      * destruct (char_last _ _ _ _ C EL ltac:(lia)) as (EF & Eb & Pl).
        assert (t' = []) as ->. { rewrite Eb in EL. destruct t' as [|? [|? ?]]; [reflexivity|discriminate|discriminate]. }
        rewrite rev_snoc_drop, EF, ascii_space_is by lia. destruct (asciiSpace l).
        -- rewrite app_nil_r. apply IH; [exact P'|rewrite E in F; apply Forall_app in F; apply F].
        -- cbn [rev]. rewrite rev_involutive, BO. reflexivity.
      * exfalso. cbn [snd] in *. destruct t' as [|? [|? ?]]; try discriminate. injection EL as ->.
        rewrite E in F. apply Forall_app in F as [_ F]. inversion F; subst. pose proof (stray_high l ltac:(assumption) N). lia.
Qed.
Lemma TrimStart_any us s : pieced us s -> Forall byte s -> TrimStart s = bytes_of (trimu us).
Proof.
  induction 1 as [|c b us s C P IH|x us s N P IH]; intros F; [reflexivity| |].
  - assert (P0 : pieced ((c, b) :: us) (b ++ s)) by (constructor; assumption).
    destruct (char_ne _ _ C) as (h & t & E).
    assert (EQ : b ++ s = h :: (t ++ s)) by (rewrite E; reflexivity).
    rewrite EQ. cbn [TrimStart]. rewrite <- EQ. destruct (Z.leb_spec 128 h).
    + unfold trimu. destruct (TrimLeft_any _ _ P0 F (length (b ++ s)) (le_n _)) as (EL & PL & FL). unfold TrimLeftFunc. rewrite EL. apply TrimRightFunc_any; assumption.
    + destruct (char_ascii _ _ _ _ C E ltac:(lia)) as (-> & Eb & Q).
      assert (t = []) as -> by (rewrite Eb in E; injection E as E'; symmetry; exact E').
      unfold trimu. cbn [dropu fst]. rewrite ascii_space_is by lia. destruct (asciiSpace h).
      * apply IH. apply Forall_app in F. apply F.
      * apply TrimStop_any; assumption.
  - assert (P0 : pieced ((65533, [x]) :: us) (x :: s)) by (constructor; assumption).
    inversion F as [|? ? B Fs]; subst.
    assert (128 <= x).
    { destruct (Z.le_gt_cases 128 x) as [|L]; [assumption|]. exfalso. unfold byte in B. apply (N x [x] s); [|reflexivity].
      split; [unfold scalar; lia|]. left. split; [lia|reflexivity]. }
    cbn [TrimStart]. destruct (Z.leb_spec 128 x); [|lia].
    destruct (TrimLeft_any _ _ P0 F (length (x :: s)) (le_n _)) as (EL & PL & FL). unfold TrimLeftFunc. rewrite EL. unfold trimu. apply TrimRightFunc_any; assumption.
Qed.
