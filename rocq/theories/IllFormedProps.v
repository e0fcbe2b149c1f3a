(** IllFormedProps.v -- C115: strings whose bytes are not UTF-8. *)
From Coq Require Import ZArith Lia Bool List.
From Verif Require Import Base StringSpec StringSearchSpec IllFormedSpec StringModel StringSearchModel StringProofs StringSearchProofs IllFormedProofs.
Import ListNotations.
Local Open Scope Z_scope.

(** Every byte string has exactly one reading; that of UTF-8 text is the text. *)
Theorem C115_reading : forall s, Forall byte s ->
  (exists us, pieced us s /\ forall us', pieced us' s -> us' = us) /\
  (forall us, pieced us s -> bytes_of us = s) /\
  (forall cs us, utf8 cs s -> pieced us s -> characters us = cs).
Proof.
  intros s F. split; [|split].
  - destruct (pieced_exists s F) as [us P]. exists us. split; [exact P|]. intros us' P'. eapply pieced_unique; eassumption.
  - intros us. apply pieced_concat.
  - intros cs us V P. destruct (pieced_utf8 _ _ V) as (us' & P' & E & _). rewrite (pieced_unique _ _ _ P P'). exact E.
Qed.
Print Assumptions C115_reading.
(** Chars lists the characters read.  Pop returns the last of them and leaves the UTF-8 of
    the others, so that stray bytes before it are replaced by U+FFFD. *)
Theorem C115_chars_pop : forall us s, pieced us s -> Forall byte s ->
  String_Chars s = characters us /\
  (us = [] -> String_Pop s = Ret (s, None)) /\
  (forall us' u, us = us' ++ [u] -> exists s', String_Pop s = Ret (s', Some (fst u)) /\ utf8 (characters us') s').
Proof.
  intros us s P F. split; [apply chars_any; assumption|]. split.
  - intros ->. inversion P. reflexivity.
  - intros us' u ->. eexists. split; [exact (pop_any us' u s P F)|]. apply utf8_encode.
    pose proof (chars_scalar _ _ P) as Q. unfold characters in *. rewrite map_app in Q. apply Forall_app in Q. apply Q.
Qed.
Print Assumptions C115_chars_pop.
(** Split at the empty string gives the bytes of every piece, stray bytes one by one;
    Replace of the empty string inserts between the pieces; Trim drops the pieces that are
    white space and leaves the other bytes as they are. *)
Theorem C115_bytes_kept : forall us s, pieced us s -> Forall byte s ->
  String_Split s [] = map snd us /\
  (forall new, String_Replace s [] new = new ++ flat_map (fun u => snd u ++ new) us) /\
  (forall mid, trimmed_pieces us mid -> String_Trim s = bytes_of mid) /\ (exists mid, trimmed_pieces us mid).
Proof.
  intros us s P F. split; [apply split_any; assumption|]. split; [intros new; apply Replace_any; assumption|]. split.
  - intros mid T. rewrite (trimmed_pieces_unique _ _ _ T (trimu_spec us)). apply TrimStart_any; assumption.
  - exists (trimu us). apply trimu_spec.
Qed.
Print Assumptions C115_bytes_kept.
(** Case conversion and Format work on the characters read: their results are UTF-8. *)
Theorem C115_case : forall f us s, pieced us s -> Forall byte s -> (forall c, scalar c -> scalar (f c)) ->
  ((forall c, 0 <= c < 128 -> ascii_lower c (f c)) -> utf8 (map f (characters us)) (String_ToLowercase f s)) /\
  ((forall c, 0 <= c < 128 -> ascii_upper c (f c)) -> utf8 (map f (characters us)) (String_ToUppercase f s)).
Proof.
  intros f us s P F S. split; intros A; apply case_any; try assumption.
  - intros c H. eapply ascii_lower_det; [apply A, H|apply lower_byte_spec].
  - intros c H. destruct (lower_byte_spec c); lia.
  - intros c H. eapply ascii_upper_det; [apply A, H|apply upper_byte_spec].
  - intros c H. destruct (upper_byte_spec c); lia.
Qed.
Print Assumptions C115_case.
Theorem C115_format : forall us s t params, pieced us s -> Forall byte s -> utf8 (characters us) t -> Format s params = Format t params.
Proof. intros us s t params P F V. unfold Format. rewrite (runes_any _ _ P F), (runes_utf8 _ _ V). reflexivity. Qed.
Print Assumptions C115_format.
(** A space, the lead byte of a longer character, U+3000 and a lone continuation byte: read
    as space, U+FFFD, U+3000, U+FFFD. *)
Example C115_nonvacuous :
  let s := [32; 227; 227; 128; 128; 133] in
  let us := [(32, [32]); (65533, [227]); (12288, [227; 128; 128]); (65533, [133])] in
  pieced us s /\ Forall byte s /\ String_Chars s = [32; 65533; 12288; 65533] /\
  String_Trim s = [227; 227; 128; 128; 133] /\ trimmed_pieces us (skipn 1 us) /\
  String_Split s [] = [[32]; [227]; [227; 128; 128]; [133]] /\
  String_Pop s = Ret ([32; 239; 191; 189; 227; 128; 128], Some 65533).
Proof.
  cbv zeta. split.
  { apply (pieced_char 32 [32]). { split; [unfold scalar; lia|]. left. split; [lia|reflexivity]. }
    apply pieced_stray. { apply decode_stray. vm_compute. reflexivity. }
    apply (pieced_char 12288 [227; 128; 128]).
    { split; [unfold scalar; lia|]. right. right. left. split; [lia|]. exists 3, 128, 128. unfold trail. repeat split; lia. }
    apply pieced_stray. { apply decode_stray. vm_compute. reflexivity. } constructor. }
  split; [repeat constructor; unfold byte; lia|]. split; [vm_compute; reflexivity|]. split; [vm_compute; reflexivity|].
  split; [|split; vm_compute; reflexivity].
  exists [(32, [32])], []. split; [reflexivity|]. split; [repeat constructor; unfold white; cbn; lia|]. split; [constructor|]. split.
  - intros u t E. injection E as <- _. unfold white. cbn. lia.
  - intros t u E. assert (L : last (skipn 1 [(32, [32]); (65533, [227]); (12288, [227; 128; 128]); (65533, [133])]) (0, []) = u) by (rewrite E; apply last_last).
    cbn in L. subst u. unfold white. cbn. lia.
Qed.
