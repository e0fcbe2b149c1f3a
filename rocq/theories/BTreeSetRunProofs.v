(** BTreeSetRunProofs.v -- histories of one set. *)
From Verif Require Import Base BaseLemmas Effect CmpSpec VecSpec HashModel BTreeModel BTreeSpec BTreeHistory BTreeProofs BTreeMapProofs BTreeLowProofs BTreeRemoveProofs
  BTreeSetProofs BTreeTopProofs BTreeShowSpec BTreeShowProofs BTreeSetRun.
Local Open Scope nat_scope.

Section SetRun.
  Context {K : Type}.
  Variable cmp : K -> K -> ordering.
  Hypothesis lawful : total_preorder cmp.
  Definition as_map (o : sop (K := K)) : bop K unit :=
    match o with
    | SAdd x => BInsert x tt | STake x => BRemove x | SHas x => BContainsKey x
    | SCount => BLen | SNone => BIsEmpty | SWipe => BClear
    end.
  Definition as_set (o : sop (K := K)) (a : banswer K unit) : sanswer :=
    match o, a with
    | SAdd _, Value v => STruth (negb (is_some v))
    | STake _, Value v => STruth (is_some v)
    | _, Truth b => STruth b
    | _, Number z => SNumber z
    | _, _ => SDone
    end.
  Fixpoint as_sets (ops : list (sop (K := K))) (l : list (banswer K unit)) : list sanswer :=
    match ops, l with o :: r, a :: s => as_set o a :: as_sets r s | _, _ => [] end.
  Lemma sexec_exec (s : BTreeSet) o h : sexec cmp s o h = (r <~ exec cmp s (as_map o) ;; mret (fst r, as_set o (snd r))) h.
  Proof.
    destruct o; cbn [sexec as_map exec]; try reflexivity.
    - unfold sInsert, mbind. destruct (Insert cmp s x tt h) as [[[m' [[]|]] h']| |]; reflexivity.
    - unfold sRemove, mbind. destruct (Remove cmp s x h) as [[[m' [[]|]] h']| |]; reflexivity.
    - unfold reading, Contains, asking, mbind. destruct (ContainsKey cmp s x h); reflexivity.
  Qed.
  Lemma srun_run ops : forall (s : BTreeSet) h, srun cmp s ops h = (r <~ run cmp s (map as_map ops) ;; mret (fst r, as_sets ops (snd r))) h.
  Proof.
    induction ops as [|o ops IH]; intros s h; cbn [srun map run as_sets]; [reflexivity|].
    unfold mbind. rewrite sexec_exec. unfold mbind. destruct (exec cmp s (as_map o) h) as [[[m1 a] h1]| |]; try reflexivity. unfold mret. cbn [fst snd].
    rewrite IH. unfold mbind, mret. destruct (run cmp m1 (map as_map ops) h1) as [[[m2 rs] h2]| |]; reflexivity.
  Qed.

  (** The entries of the map and the elements of the set. *)
  Notation pairs := (ForallOrdPairs (fun a b => cmp a b <> Equal)).
  Definition same (l : list (K * unit)) (xs : list K) : Prop :=
    sorted cmp l /\ pairs xs /\ forall x, mem cmp x (map fst l) = mem cmp x xs.
  Lemma same_len l xs : same l xs -> length l = length xs.
  Proof.
    intros (SO & P & M). rewrite <- (map_length fst l). apply Nat.le_antisymm; apply (same_length cmp lawful); auto.
    - now apply pairs_sorted.
    - intros x I. rewrite <- M. now apply (In_mem cmp lawful).
    - intros x I. rewrite M. now apply (In_mem cmp lawful).
  Qed.
  Lemma same_get l xs x : same l xs -> is_some (get cmp x l) = mem cmp x xs.
  Proof. intros (_ & _ & M). rewrite <- M. apply get_mem. Qed.
  Lemma above_exists x (l : list (K * unit)) : (exists y, In y (map fst l) /\ cmp x y = Less) -> above cmp x l <> None.
  Proof.
    induction l as [|[k v] l IH]; intros (y & I & C); [destruct I|]. cbn [above]. destruct (cmp x k) eqn:E; try discriminate;
      (apply IH; destruct I as [<- |I]; [cbn [fst] in C; congruence|eauto]).
  Qed.
  Lemma mem_without x y xs : mem cmp x (without cmp y xs) = (match cmp y x with Equal => false | _ => true end) && mem cmp x xs.
  Proof.
    unfold without. apply (mem_filter cmp). intros a b E. rewrite (Equal_cmp_r cmp lawful a b y E). reflexivity.
  Qed.
  Lemma pairs_filter (f : K -> bool) xs : pairs xs -> pairs (filter f xs).
  Proof.
    induction 1 as [|x xs F P IH]; [constructor|]. cbn [filter]. destruct (f x); [|exact IH]. constructor; [|exact IH].
    apply Forall_forall. intros y I. apply filter_In in I. rewrite Forall_forall in F. now apply F.
  Qed.
  Lemma same_step l xs o : same l xs -> set_mild cmp xs o ->
    mild cmp l (as_map o) /\ as_set o (snd (mild_step cmp l (as_map o))) = snd (set_step cmp xs o) /\
    same (fst (mild_step cmp l (as_map o))) (fst (set_step cmp xs o)).
  Proof.
    intros S MI. pose proof (same_len _ _ S) as L. pose proof S as (SO & P & M). destruct o; cbn [as_map mild mild_step map_step set_step as_set fst snd set_mild] in *.
    - rewrite (same_get l xs x S). split; [|split; [reflexivity|]].
      + intros G. rewrite <- (same_get l xs x S), G in MI. destruct MI as [MI|MI]; [discriminate|lia].
      + split; [now apply put_sorted|]. split.
        * destruct (mem cmp x xs) eqn:E; [exact P|]. constructor; [|exact P]. apply Forall_forall. intros y I C.
          assert (mem cmp x xs = true) by (apply mem_In; eauto). congruence.
        * intros y. rewrite <- get_mem, (get_put cmp lawful) by exact SO.
          transitivity (match cmp y x with Equal => true | _ => mem cmp y xs end).
          { destruct (cmp y x); [|reflexivity|]; now rewrite (same_get l xs y S). }
          destruct (mem cmp x xs) eqn:E.
          { destruct (cmp y x) eqn:C; auto. rewrite <- E. symmetry. now apply (mem_mem cmp lawful). }
          cbn [mem existsb]. fold (mem cmp y xs). destruct (cmp y x); reflexivity.
    - assert (RV : is_some (removed_value cmp x l) = mem cmp x xs).
      { rewrite <- (same_get l xs x S). unfold removed_value. destruct (get cmp x l); [|reflexivity]. now destruct (above cmp x l). }
      split; [|split; [now rewrite RV|]].
      + destruct MI as [MI|[MI|MI]].
        * left. rewrite <- (same_get l xs x S) in MI. destruct (get cmp x l); [discriminate|reflexivity].
        * right. left. lia.
        * right. right. apply above_exists. destruct MI as (y & I & C).
          assert (MY : mem cmp y (map fst l) = true) by (rewrite M; now apply (In_mem cmp lawful)).
          apply mem_In in MY. destruct MY as (z & J & E). exists z. split; [exact J|]. rewrite <- C. symmetry. now apply (Equal_cmp_r cmp lawful).
      + split; [apply drop_sorted; auto; exact tt|]. split; [now apply pairs_filter|].
        intros y. rewrite <- get_mem, (get_drop cmp lawful) by exact SO. rewrite mem_without, (tp_flip cmp lawful y x).
        destruct (cmp y x); cbn [flip andb is_some]; try reflexivity; apply (same_get l xs y S).
    - split; [exact I|]. split; [|exact S]. now rewrite (same_get l xs x S).
    - split; [exact I|]. split; [|exact S]. now rewrite L.
    - split; [exact I|]. split; [|exact S]. rewrite L. now destruct xs.
    - split; [exact I|]. split; [reflexivity|]. split; [exact I|]. split; [constructor|reflexivity].
  Qed.
  Lemma same_all ops : forall l xs, same l xs -> set_mild_all cmp xs ops ->
    mild_all cmp l (map as_map ops) /\ as_sets ops (snd (mild_run cmp l (map as_map ops))) = set_run cmp xs ops.
  Proof.
    induction ops as [|o ops IH]; intros l xs S MI; [split; [exact I|reflexivity]|]. destruct MI as (M1 & M2).
    destruct (same_step l xs o S M1) as (A & B & C). destruct (IH _ _ C M2) as (D & E).
    cbn [map mild_all mild_run set_run]. split; [split; auto|]. destruct (mild_step cmp l (as_map o)) as [l' a] eqn:ES. cbn [fst snd] in *.
    destruct (mild_run cmp l' (map as_map ops)) as [l'' rs] eqn:ER. cbn [snd as_sets] in *. now rewrite B, E.
  Qed.
  Theorem set_history ops h : set_mild_all cmp [] ops ->
    exists s h', srun cmp BTreeSetNew ops h = Ret ((s, set_run cmp [] ops), h').
  Proof.
    intros MI. destruct (same_all ops [] [] (conj I (conj (FOP_nil _) (fun _ => eq_refl))) MI) as (A & B).
    destruct (mild_slots cmp lawful _ no_slots [] (ok_new cmp) A) as (s' & E & _).
    destruct (run_sim cmp lawful _ h BTreeMapNew no_slots s' _ (rep_new h) E) as (h' & m' & R & _).
    exists m', h'. rewrite srun_run. unfold mbind. change BTreeSetNew with BTreeMapNew. rewrite R. unfold mret. cbn [fst snd]. now rewrite B.
  Qed.
End SetRun.
