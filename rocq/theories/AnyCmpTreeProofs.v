(** AnyCmpTreeProofs.v -- a key that compares equal to all others. *)
From Verif Require Import Base BaseLemmas BTreeSpec BTreeProofs BTreeTreeSpec BTreeProgSpec AnyCmpTreeSpec.
Local Open Scope nat_scope.

Section Nan.
  Context {K V : Type}.
  Variable cmp : K -> K -> ordering.
  Variable nan : K.
  Hypothesis N : forall x, cmp nan x = Equal.

  Lemma seek_nan (l : list (option (K * V))) : seek cmp nan l 0 = match nth 0 l None with Some _ => Some 0 | None => None end.
  Proof. destruct l as [|[e|] l]; try reflexivity. cbn [seek nth]. now rewrite N. Qed.
  Lemma slot_0 (l : list (option (K * V))) : slot_value l 0 = option_map snd (nth 0 l None).
  Proof. destruct l as [|[e|] l]; reflexivity. Qed.
  Lemma skip_nan (l : list (option (K * V))) : skip cmp nan l = 0.
  Proof. destruct l as [|[e|] l]; try reflexivity. cbn [skip]. now rewrite N. Qed.
  Lemma find_nan seps (kids : list (kid K V)) : find cmp seps kids nan =
    match nth 0 seps None with
    | Some _ => Some (Sep 0)
    | None => match nth 0 (cells (nth 0 kids no_kid)) None with Some _ => Some (Cell 0 0) | None => None end
    end.
  Proof.
    unfold find. cbv zeta. rewrite skip_nan, seek_nan. destruct (nth 0 seps None) as [e|]; [now rewrite N|]. now destruct (nth 0 (cells _) None).
  Qed.
  Lemma nan_value (t : tree K V) : value_of cmp t nan = option_map snd (looked_at_first t).
  Proof.
    destruct t as [s|seps kids total]; unfold value_of; cbn [tree_step slot_step lost looked_at_first].
    - rewrite seek_nan. destruct (nth 0 (all_slots s) None) eqn:E; [|reflexivity]. now rewrite slot_0, E.
    - rewrite find_nan. destruct (nth 0 seps None) eqn:E; [cbn [content]; now rewrite E|]. destruct (nth 0 (cells _) None) eqn:E2; [cbn [content]; now rewrite E2|reflexivity].
  Qed.
  Lemma nan_has (t : tree K V) : has cmp t nan = is_some (looked_at_first t).
  Proof.
    destruct t as [s|seps kids total]; unfold has; cbn [tree_step slot_step lost looked_at_first].
    - rewrite seek_nan. now destruct (nth 0 (all_slots s) None).
    - rewrite find_nan. destruct (nth 0 seps None); [reflexivity|]. now destruct (nth 0 (cells _) None).
  Qed.
  Lemma nth_0_set {A} (l : list A) x d : l <> [] -> nth 0 (list_set l 0 x) d = x.
  Proof. destruct l; [congruence|reflexivity]. Qed.
  Lemma nan_insert (t : tree K V) e v : looked_at_first t = Some e ->
    exists t', tree_step cmp t (BInsert nan v) = Some (t', Value (Some (snd e))) /\ size cmp t' = size cmp t /\ looked_at_first t' = Some (fst e, v).
  Proof.
    destruct t as [s|seps kids total]; cbn [looked_at_first tree_step slot_step lost]; intros E.
    - rewrite seek_nan, E. rewrite slot_0, E. cbn [option_map]. eexists. split; [reflexivity|]. split.
      + unfold size. cbn [tree_step slot_step lost]. unfold revalue. destruct (0 <? length (live s)); reflexivity.
      + cbn [looked_at_first]. destruct (all_slots s) as [|[e0|] r] eqn:A; try discriminate. cbn [nth] in E. injection E as ->.
        assert (NA : nth_error (all_slots s) 0 = Some (Some e)) by (rewrite A; reflexivity). rewrite (all_revalue s 0 e v NA), A. reflexivity.
    - rewrite find_nan. destruct (nth 0 seps None) as [e0|] eqn:E0.
      + injection E as ->. cbn [set_value content fst snd]. rewrite E0. cbn [option_map]. eexists. split; [reflexivity|]. split; [reflexivity|].
        cbn [looked_at_first]. rewrite nth_0_set by (intros ->; discriminate). reflexivity.
      + rewrite E. cbn [set_value content fst snd]. rewrite E. cbn [option_map]. eexists. split; [reflexivity|]. split; [reflexivity|].
        cbn [looked_at_first]. rewrite E0. rewrite nth_0_set by (intros ->; discriminate). cbn [cells].
        rewrite nth_0_set by (intros Z; rewrite Z in E; discriminate). reflexivity.
  Qed.
End Nan.
