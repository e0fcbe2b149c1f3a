(** BTreeSepProofs.v -- an operation on one map leaves the nodes of every other map alone. *)
From Verif Require Import Base BaseLemmas Effect CmpSpec VecSpec HashModel BTreeModel BTreeSpec BTreeHistory BTreeProofs BTreeSafeProofs.
Local Open Scope nat_scope.

Section Sep.
  Context {K V : Type}.
  Variable cmp : K -> K -> ordering.
  (** [O]: the addresses that belong to the map, among them all those not yet used. *)
  Variable O : nat -> Prop.
  Variable N : nat.
  Hypothesis O_fresh : forall a, N <= a -> O a.
  Implicit Types (nd : node K V) (h : heap K V).

  (** An address of the map that is in use, given that the first n are. *)
  Definition at_ (n a : nat) : Prop := O a /\ a < n.
  Definition own n (cs : list (option nat)) : Prop := forall c, In (Some c) cs -> at_ n c.
  Definition closed n nd : Prop := own n (childs nd).
  Definition inside h : Prop := N <= length h /\ forall a nd, O a -> nth_error h a = Some nd -> closed (length h) nd.
  Definition keeps h h' : Prop := forall a, ~ O a -> nth_error h' a = nth_error h a.
  Definition sep {A} n (m : M (heap K V) A) (Q : A -> nat -> Prop) : Prop :=
    forall h, n <= length h -> inside h ->
      match m h with Ret (a, h') => inside h' /\ keeps h h' /\ length h <= length h' /\ Q a (length h') | _ => True end.

  Lemma keeps_refl h : keeps h h. Proof. intros a _. reflexivity. Qed.
  Lemma keeps_trans h1 h2 h3 : keeps h1 h2 -> keeps h2 h3 -> keeps h1 h3.
  Proof. intros A B a NO. rewrite (B a NO). auto. Qed.
  Lemma at_mono n m a : at_ n a -> n <= m -> at_ m a. Proof. intros (A & B) L. split; auto. lia. Qed.
  Lemma own_mono n m cs : own n cs -> n <= m -> own m cs. Proof. intros A L c I. eapply at_mono; eauto. Qed.
  Lemma closed_mono n m nd : closed n nd -> n <= m -> closed m nd. Proof. apply own_mono. Qed.
  Lemma sep_bind {A B} n (m : M (heap K V) A) (k : A -> M (heap K V) B) Q R :
    sep n m Q -> (forall a n', n <= n' -> Q a n' -> sep n' (k a) R) -> sep n (mbind m k) R.
  Proof.
    intros T1 T2 h L G. specialize (T1 h L G). unfold mbind. destruct (m h) as [[a h']| |]; auto.
    destruct T1 as (G' & KE & LE & HQ). assert (L' : n <= length h') by lia. specialize (T2 a _ L' HQ h' (le_n _) G'). destruct (k a h') as [[b h'']| |]; auto.
    destruct T2 as (G'' & KE' & LE' & HR). split; auto. split; [eapply keeps_trans; eauto|]. split; [lia|auto].
  Qed.
  Lemma sep_ret {A} n (a : A) (Q : A -> nat -> Prop) : (forall n', n <= n' -> Q a n') -> sep n (mret a) Q.
  Proof. intros H h L G. cbn. split; auto. split; [apply keeps_refl|]. split; auto. Qed.
  Lemma sep_lift {A} n (m : out A) Q : (forall n', n <= n' -> yields m (fun a => Q a n')) -> sep n (lift m) Q.
  Proof. intros Y h L G. specialize (Y _ L). unfold lift. destruct m; cbn in *; auto. split; auto. split; [apply keeps_refl|]. split; auto. Qed.
  Lemma sep_diverge {A} n (Q : A -> nat -> Prop) : sep n (fun _ => Diverge) Q.
  Proof. intros h L G. exact I. Qed.
  Lemma sep_read {A} n (f : heap K V -> out A) Q : (forall h, n <= length h -> inside h -> yields (f h) (fun a => Q a (length h))) ->
    sep n (fun h => x <- f h ;; Ret (x, h)) Q.
  Proof. intros H h L G. specialize (H h L G). destruct (f h); cbn in *; auto. split; auto. split; [apply keeps_refl|]. split; auto. Qed.
  Lemma sep_rd n a : at_ n a -> sep n (rd a) (fun nd n' => closed n' nd).
  Proof.
    intros (Oa & _) h L G. unfold rd, idx. destruct (nth_error h a) eqn:E; cbn; auto. split; auto. split; [apply keeps_refl|]. split; auto.
    apply (proj2 G a); auto.
  Qed.
  Lemma sep_wr n a nd : at_ n a -> closed n nd -> sep n (wr a nd) (fun _ _ => True).
  Proof.
    intros (Oa & _) C h L G. unfold wr, upd. destruct (Nat.ltb_spec a (length h)); cbn; auto. rewrite list_set_length. split; [|split; auto].
    - split; [rewrite list_set_length; apply G|]. rewrite list_set_length. intros b nb Ob E. rewrite nth_error_list_set in E. destruct (Nat.eqb_spec a b).
      + destruct (b <? length h); [|discriminate]. injection E as <-. eapply closed_mono; eauto.
      + apply (proj2 G b); auto.
    - intros b NO. apply nth_error_list_set_neq. congruence.
  Qed.
  Lemma sep_alloc n nd : closed n nd -> sep n (alloc nd) (fun a n' => at_ n' a).
  Proof.
    intros C h L G. cbn. destruct G as (LN & G). split; [|split; [|split]].
    - split; [rewrite app_length; lia|]. intros b nb Ob E. destruct (Nat.ltb_spec b (length h)).
      + rewrite nth_error_app1 in E by auto. eapply closed_mono; [apply (G b); eauto|]. rewrite app_length. lia.
      + rewrite nth_error_app2 in E by auto. destruct (b - length h) as [|[|]]; cbn in E; try discriminate. injection E as <-.
        eapply closed_mono; eauto. rewrite app_length. lia.
    - intros b NO. apply nth_error_app1. destruct (Nat.lt_ge_cases b (length h)); auto. exfalso. apply NO, O_fresh. lia.
    - rewrite app_length. lia.
    - split; [apply O_fresh; auto|]. rewrite app_length. cbn. lia.
  Qed.

  Lemma sep_fueled {A} n (g : nat -> M (heap K V) A) (w : heap K V -> nat) Q : (forall f, sep n (g f) Q) -> sep n (fun h => g (w h) h) Q.
  Proof. intros H h. apply H. Qed.

  (** *** What the helpers do to the list of children *)
  Definition maybe n (x : option nat) : Prop := match x with Some c => at_ n c | None => True end.
  Lemma own_child n nd i : closed n nd -> yields (child nd i) (at_ n).
  Proof.
    intros C. unfold child, idx. destruct (nth_error (childs nd) i) as [[c|]|] eqn:E; cbn; auto. apply C. eapply nth_error_In; eauto.
  Qed.
  Lemma own_idx n cs i : own n cs -> yields (idx cs i) (maybe n).
  Proof. intros C. unfold idx. destruct (nth_error cs i) as [[c|]|] eqn:E; cbn; auto. apply C. eapply nth_error_In; eauto. Qed.
  Lemma own_upd n cs i x : own n cs -> maybe n x -> yields (upd cs i x) (own n).
  Proof.
    intros C X. unfold upd. destruct (i <? length cs); cbn; auto. intros c I. apply In_list_set in I. destruct I as [<-|I]; auto.
  Qed.
  Lemma own_repeat n m : own n (repeat None m).
  Proof. intros c I. apply repeat_spec in I. discriminate. Qed.
  Lemma own_shift_childs n c : forall j cs, own n cs -> yields (shift_childs c j cs) (own n).
  Proof.
    induction c; cbn [shift_childs]; intros j cs C; [exact C|]. eapply yields_bind; [apply own_idx; eauto|]. intros x X.
    eapply yields_bind; [apply own_upd; eauto|]. intros cs' C'. auto.
  Qed.
  Lemma own_move_childs_down n c : forall j cs, own n cs -> yields (move_childs_down c j cs) (own n).
  Proof.
    induction c; cbn [move_childs_down]; intros j cs C; [exact C|]. eapply yields_bind; [apply yields_any|]. intros j' _.
    eapply yields_bind; [apply own_idx; eauto|]. intros x X.
    eapply yields_bind; [apply own_upd; eauto|]. intros cs' C'. auto.
  Qed.
  Lemma own_copy_childs n c : forall j src so dst d, own n src -> own n dst -> yields (copy_childs c j src so dst d) (own n).
  Proof.
    induction c; cbn [copy_childs]; intros j src so dst d CS CD; [exact CD|]. eapply yields_bind; [apply own_idx; exact CS|]. intros x X.
    eapply yields_bind; [apply own_upd; eauto|]. intros cs' C'. auto.
  Qed.
  Lemma closed_set_n n nd m : closed n nd -> closed n (set_n nd m). Proof. auto. Qed.
  Lemma closed_set_childs n nd cs : own n cs -> closed n (set_childs nd cs). Proof. auto. Qed.
  Lemma closed_new n lf d : closed n (@new_node K V lf d). Proof. apply own_repeat. Qed.
  Lemma closed_set_kv n nd i k v : closed n nd -> yields (set_kv nd i k v) (closed n).
  Proof. intros C. unfold set_kv. destruct (upd (keys nd) i k); cbn; auto. destruct (upd (values nd) i v); cbn; auto. Qed.
  Lemma closed_copy_kv n src i dst j : closed n dst -> yields (copy_kv src i dst j) (closed n).
  Proof. intros C. unfold copy_kv. destruct (idx (keys src) i); cbn; auto. destruct (idx (values src) i); cbn; auto. apply closed_set_kv; auto. Qed.
  Lemma closed_shift_kv n c : forall j nd, closed n nd -> yields (shift_kv c j nd) (closed n).
  Proof. induction c; cbn [shift_kv]; intros; [exact H|]. eapply yields_bind; [apply closed_copy_kv; eauto|auto]. Qed.
  Lemma closed_copy_range n c : forall j src so dst d, closed n dst -> yields (copy_range c j src so dst d) (closed n).
  Proof. induction c; cbn [copy_range]; intros; [exact H|]. eapply yields_bind; [apply closed_copy_kv; eauto|auto]. Qed.
  Lemma closed_shift_greater n k j : forall nd, closed n nd -> yields (shift_greater cmp k j nd) (fun r => closed n (fst r)).
  Proof.
    induction j; cbn [shift_greater]; intros nd G; [exact G|].
    eapply yields_bind; [apply yields_any|]. intros [k'|] _; [|exact G].
    destruct (is _ _); [|exact G]. eapply yields_bind; [apply closed_copy_kv; eauto|auto].
  Qed.
  Lemma closed_close_gap n m : forall i nd, closed n nd -> yields (close_gap m i nd) (closed n).
  Proof.
    induction m; cbn [close_gap]; intros i nd G; [exact G|].
    eapply yields_bind; [apply yields_any|]. intros j _.
    eapply yields_bind; [apply closed_copy_kv; eauto|]. intros nd1 G1.
    eapply yields_bind; [apply (closed_set_kv n nd1 i None); auto|auto].
  Qed.
  Lemma closed_move_down n c : forall i nd, closed n nd -> yields (move_down c i nd) (closed n).
  Proof.
    induction c; cbn [move_down]; intros i nd G; [exact G|].
    eapply yields_bind; [apply yields_any|]. intros j _. eapply yields_bind; [apply closed_copy_kv; eauto|auto].
  Qed.

  Ltac any := apply (sep_lift _ _ (fun _ _ => True)); intros ? _; apply yields_any.
  Ltac mono :=
    match goal with
    | |- closed _ (set_n _ _) => apply closed_set_n; mono
    | |- closed _ (set_childs _ _) => apply closed_set_childs; mono
    | |- closed _ (new_node _ _) => apply closed_new
    | H : closed _ ?x |- closed _ ?x => apply (closed_mono _ _ _ H); lia
    | |- own _ (childs (set_n _ _)) => apply closed_set_n; mono
    | |- own _ (childs (set_childs _ _)) => apply closed_set_childs; mono
    | |- own _ (childs (new_node _ _)) => apply closed_new
    | H : own _ ?x |- own _ ?x => apply (own_mono _ _ _ H); lia
    | H : closed _ ?x |- own _ (childs ?x) => apply (closed_mono _ _ _ H); lia
    | H : at_ _ ?x |- at_ _ ?x => apply (at_mono _ _ _ H); lia
    | H : maybe _ ?x |- maybe _ ?x => destruct x; [apply (at_mono _ _ _ H); lia|exact I]
    | H : at_ _ ?x |- maybe _ (Some ?x) => apply (at_mono _ _ _ H); lia
    end.
  Ltac sub := match goal with
    | |- yields (if _ then Ret _ else _) (own _) => destruct (leaf _)
    | |- yields (Ret _) (own _) => cbn [yields]
    | |- yields (x <- idx _ _ ;; upd _ _ x) (own ?n) => apply (yields_bind _ _ (maybe n)); [apply own_idx|intros ? ?; apply own_upd]
    | |- yields (shift_childs _ _ _) (own _) => apply own_shift_childs
    | |- yields (copy_childs _ _ _ _ _ _) (own _) => apply own_copy_childs
    | |- yields (move_childs_down _ _ _) (own _) => apply own_move_childs_down
    | |- _ => mono
    end.
  Ltac next := let H := fresh "P" in intros ? ? ? H; cbv beta in H.
  Ltac lifted L P := eapply sep_bind; [apply (sep_lift _ _ P); intros ? ?; apply L; try mono|next].
  Ltac step :=
    match goal with
    | |- sep _ (mbind (rd _) _) _ => eapply sep_bind; [apply sep_rd; try mono|next]
    | |- sep _ (mbind (wr _ _) _) _ => eapply sep_bind; [apply sep_wr; try mono|intros ? ? ? _]
    | |- sep _ (mbind (alloc _) _) _ => eapply sep_bind; [apply sep_alloc; try mono|next]
    | |- sep _ (mbind (lift (child _ _)) _) _ => lifted own_child (fun a n => at_ n a)
    | |- sep _ (mbind (lift (copy_kv _ _ _ _)) _) _ => lifted closed_copy_kv (fun (nd : node K V) n => closed n nd)
    | |- sep _ (mbind (lift (set_kv _ _ _ _)) _) _ => lifted closed_set_kv (fun (nd : node K V) n => closed n nd)
    | |- sep _ (mbind (lift (shift_kv _ _ _)) _) _ => lifted closed_shift_kv (fun (nd : node K V) n => closed n nd)
    | |- sep _ (mbind (lift (copy_range _ _ _ _ _ _)) _) _ => lifted closed_copy_range (fun (nd : node K V) n => closed n nd)
    | |- sep _ (mbind (lift (move_down _ _ _)) _) _ => lifted closed_move_down (fun (nd : node K V) n => closed n nd)
    | |- sep _ (mbind (lift (close_gap _ _ _)) _) _ => lifted closed_close_gap (fun (nd : node K V) n => closed n nd)
    | |- sep _ (mbind (lift (shift_greater _ _ _ _)) _) _ => lifted closed_shift_greater (fun (r : node K V * nat) n => closed n (fst r))
    | |- sep _ (mbind (lift (shift_childs _ _ _)) _) _ => lifted own_shift_childs (fun cs n => own n cs)
    | |- sep _ (mbind (lift (move_childs_down _ _ _)) _) _ => lifted own_move_childs_down (fun cs n => own n cs)
    | |- sep _ (mbind (lift (upd _ _ (Some _))) _) _ => lifted own_upd (fun cs n => own n cs)
    | |- sep _ (mbind (lift (if leaf _ then Ret (childs _) else _)) _) _ => eapply sep_bind; [apply (sep_lift _ _ (fun cs n => own n cs)); intros ? ?; match goal with |- yields ?m (fun a => own ?n a) => change (yields m (own n)) end; repeat sub|next]
    | |- sep _ (mbind (lift _) _) _ => eapply sep_bind; [any|intros ? ? ? _]
    | |- sep _ (wr _ _) _ => apply sep_wr; try mono
    | |- sep _ (mret _) _ => apply sep_ret; intros; exact I
    | |- sep _ (let _ := _ in _) _ => cbv zeta
    end.
  Ltac steps := repeat step.

  Lemma sep_splitChild n a i y : at_ n a -> at_ n y -> sep n (splitChild a i y) (fun _ _ => True).
  Proof. intros Oa Oy. unfold splitChild. steps. Qed.
  Lemma sep_insert_non_full f : forall n a k v, at_ n a -> sep n (insert_non_full cmp f a k v) (fun _ _ => True).
  Proof.
    induction f; intros m a k v HO; cbn [insert_non_full]; [apply sep_diverge|].
    step. destruct (leaf a0).
    - steps.
    - do 3 step. eapply (sep_bind _ _ _ (fun _ _ => True)).
      + destruct (_ =? _); [|steps].
        eapply sep_bind; [apply sep_splitChild; mono|]. intros ? ? ? _. steps.
      + intros j ? ? _. do 2 step. apply IHf; mono.
  Qed.
  Lemma search_own f : forall h a k, inside h -> at_ (length h) a -> yields (search cmp f h a k) (fun x => match x with Some (b, _) => at_ (length h) b | None => True end).
  Proof.
    induction f; cbn [search]; intros h a k G Oa; [exact I|].
    unfold idx at 1. destruct (nth_error h a) as [nd|] eqn:E; cbn [of_option bind]; [|exact I].
    pose proof (proj2 G a nd (proj1 Oa) E) as C. cbn zeta. set (j := scan cmp k (keys nd) 0).
    assert (REC : yields (if leaf nd then Ret None else c <- idx (childs nd) j ;; match c with Some c' => search cmp f h c' k | None => Ret None end)
              (fun x => match x with Some (b, _) => at_ (length h) b | None => True end)).
    { destruct (leaf nd); [exact I|]. eapply yields_bind; [apply own_idx; exact C|]. intros [c|] Oc; [apply IHf; auto|exact I]. }
    destruct (nth_error (keys nd) j) as [[k'|]|] eqn:NK; auto.
    destruct (is (cmp k k') Equal); auto.
  Qed.
  Lemma edge_own (g : nat -> heap K V -> nat -> out nat) (pos : node K V -> nat) :
    (forall h a, g 0 h a = Diverge) -> (forall f h a, g (S f) h a = (nd <- idx h a ;; if leaf nd then Ret a else c <- child nd (pos nd) ;; g f h c)) ->
    forall f h a, inside h -> at_ (length h) a -> yields (g f h a) (at_ (length h)).
  Proof.
    intros G0 GS. induction f; intros h a G Oa; [rewrite G0; exact I|]. rewrite GS.
    unfold idx at 1. destruct (nth_error h a) as [nd|] eqn:E; cbn [of_option bind]; [|exact I].
    destruct (leaf nd); [exact Oa|]. eapply yields_bind; [apply own_child; apply (proj2 G a nd (proj1 Oa) E)|]. auto.
  Qed.
  Definition root_own (m : BTreeMap) (n : nat) : Prop := maybe n (root m).
  Lemma sep_Insert n m k v : root_own m n -> sep n (Insert cmp m k v) (fun r => root_own (fst r)).
  Proof.
    unfold root_own, Insert. intros RO. destruct (root m) as [r|] eqn:ER.
    2:{ step. step. apply sep_ret. intros. cbn [fst root]. mono. }
    cbn [maybe] in RO.
    eapply sep_bind; [apply (sep_read _ _ (fun x n => match x with Some (b, _) => at_ n b | None => True end)); intros h L G; apply search_own; auto; mono|]. intros [[a i]|] ? ? Q; cbv beta iota in Q.
    - step. step. eapply sep_bind; [any|]. intros vs ? ? _. step.
      { match goal with |- closed ?q _ => change (own q (childs a0)) end. mono. }
      step. apply sep_ret. intros. cbn [fst]. rewrite ER. cbn [maybe]. mono.
    - step. destruct (_ =? _).
      + step. step. eapply sep_bind; [apply sep_splitChild; mono|]. intros ? ? ? _. do 4 step.
        eapply sep_bind; [apply (sep_fueled _ (fun f => insert_non_full cmp f _ k v) fuel (fun _ _ => True)); intros ?; apply sep_insert_non_full; mono|].
        intros ? ? ? _. apply sep_ret. intros. cbn [fst root]. mono.
      + eapply sep_bind; [apply (sep_fueled _ (fun f => insert_non_full cmp f _ k v) fuel (fun _ _ => True)); intros ?; apply sep_insert_non_full; mono|].
        intros ? ? ? _. apply sep_ret. intros. cbn [fst root maybe]. mono.
  Qed.
  Lemma sep_borrow_from_prev n a i : at_ n a -> sep n (borrow_from_prev a i) (fun _ _ => True).
  Proof. intros Oa. unfold borrow_from_prev. steps. Qed.
  Lemma sep_borrow_from_next n a i : at_ n a -> sep n (borrow_from_next a i) (fun _ _ => True).
  Proof. intros Oa. unfold borrow_from_next. steps. Qed.
  Lemma sep_merge n a i : at_ n a -> sep n (merge a i) (fun _ _ => True).
  Proof. intros Oa. unfold merge. steps. Qed.
  Lemma sep_rich n nd i : closed n nd -> sep n (rich nd i) (fun _ _ => True).
  Proof. intros C. unfold rich. steps. Qed.
  Lemma sep_fill n a i : at_ n a -> sep n (fill a i) (fun _ _ => True).
  Proof.
    intros Oa. unfold fill. step. eapply (sep_bind _ _ _ (fun _ _ => True)); [destruct i; [steps|apply sep_rich; mono]|].
    intros [] ? ? _; [apply sep_borrow_from_prev; mono|].
    eapply (sep_bind _ _ _ (fun _ _ => True)); [destruct (_ =? _); [steps|apply sep_rich; mono]|].
    intros [] ? ? _; [apply sep_borrow_from_next; mono|]. destruct (_ =? _); [|apply sep_merge; mono]. step. apply sep_merge; mono.
  Qed.
  Lemma sep_remove f : forall n a k, at_ n a -> sep n (remove_ cmp f a k) (fun _ _ => True).
  Proof.
    induction f; intros m a k Oa; cbn [remove_]; [apply sep_diverge|].
    do 3 step.
    match goal with |- sep _ (if ?b then _ else _) _ => destruct b end.
    - destruct (leaf a0); [unfold remove_from_leaf; steps|].
      eapply sep_bind; [apply sep_rich; mono|]. intros [] ? ? _.
      + step. eapply sep_bind; [apply (sep_read _ _ (fun a n => at_ n a)); intros h L G; apply (edge_own rightmost (fun nd => BTreeModel.n nd)); auto; mono|]. intros pr ? ? Hpr; cbv beta in Hpr.
        do 6 step. apply IHf; mono.
      + eapply sep_bind; [apply sep_rich; mono|]. intros [] ? ? _.
        * step. eapply sep_bind; [apply (sep_read _ _ (fun a n => at_ n a)); intros h L G; apply (edge_own leftmost (fun nd => 0)); auto; mono|]. intros pr ? ? Hpr; cbv beta in Hpr.
          do 5 step. apply IHf; mono.
        * eapply sep_bind; [apply sep_merge; mono|]. intros ? ? ? _. do 3 step. apply IHf; mono.
    - destruct (leaf a0); [steps|]. cbv zeta.
      eapply sep_bind; [apply sep_rich; mono|]. intros p ? ? _.
      eapply (sep_bind _ _ _ (fun _ _ => True)); [destruct p; [steps|apply sep_fill; mono]|]. intros ? ? ? _.
      do 3 step. apply IHf; mono.
  Qed.
  Lemma sep_Remove n m k : root_own m n -> sep n (Remove cmp m k) (fun r => root_own (fst r)).
  Proof.
    unfold root_own, Remove. intros RO. destruct (root m) as [r|] eqn:ER; [|apply sep_ret; intros; cbn; now rewrite ER].
    cbn [maybe] in RO.
    eapply sep_bind; [apply (sep_read _ _ (fun _ _ => True)); intros h L G; apply yields_any|]. intros res ? ? _.
    eapply sep_bind; [apply (sep_fueled _ (fun f => remove_ cmp f _ k) fuel (fun _ _ => True)); intros ?; apply sep_remove; mono|]. intros ? ? ? _.
    step. eapply sep_bind.
    - apply (sep_lift _ _ (fun x n => maybe n x)). intros ? ?.
      destruct (BTreeModel.n a0); [|cbn; mono]. destruct (leaf a0); [exact I|apply own_idx; mono].
    - intros r' ? ? Hr; cbv beta in Hr. destruct res as [[b i]|]; [|apply sep_ret; intros; cbn [fst root]; mono].
      eapply sep_bind; [apply (sep_read _ _ (fun _ _ => True)); intros h L G; apply yields_any|]. intros v ? ? Hv. apply sep_ret. intros. cbn [fst root]. mono.
  Qed.
  Lemma root_mono m n n' : root_own m n -> n <= n' -> root_own m n'.
  Proof. unfold root_own, maybe. destruct (root m); auto. apply at_mono. Qed.
  Lemma sep_asking {A} n m (f : heap K V -> out A) g : root_own m n -> sep n (asking m f g) (fun r => root_own (fst r)).
  Proof.
    intros RO h L G. unfold asking. destruct (f h); cbn [bind]; auto. split; auto. split; [apply keeps_refl|]. split; auto. eapply root_mono; eauto.
  Qed.
  Lemma sep_exec n m o : root_own m n -> sep n (exec cmp m o) (fun r => root_own (fst r)).
  Proof.
    intros RO. destruct o; cbn [exec]; try (apply sep_asking; exact RO); try (apply sep_ret; intros; cbn [fst]; eapply root_mono; eauto; fail).
    - eapply sep_bind; [apply sep_Insert; auto|]. intros [m' w] ? ? Hw. apply sep_ret. intros. cbn [fst] in *. eapply root_mono; eauto.
    - eapply sep_bind; [apply sep_Remove; auto|]. intros [m' w] ? ? Hw. apply sep_ret. intros. cbn [fst] in *. eapply root_mono; eauto.
    - apply sep_ret. intros. exact I.
  Qed.

  (** *** Reading does not depend on the nodes of others *)
  Variables h h' : heap K V.
  Hypothesis H_len : length h <= length h'.
  Variable F : nat -> Prop.
  Hypothesis F_closed : forall a nd, F a -> nth_error h a = Some nd -> forall c, In (Some c) (childs nd) -> F c.
  Hypothesis F_same : forall a, F a -> nth_error h' a = nth_error h a.
  Lemma idx_F a : F a -> idx h' a = idx h a.
  Proof. intros Fa. unfold idx. now rewrite F_same. Qed.
  Lemma search_same f f' : f <= f' -> forall a k x, F a -> search cmp f h a k = Ret x -> search cmp f' h' a k = Ret x.
  Proof.
    revert f'; induction f as [|f IH]; intros f' LF a k x Fa; [discriminate|]. destruct f' as [|f']; [lia|].
    cbn [search]. unfold idx. rewrite (F_same a Fa). destruct (nth_error h a) as [nd|] eqn:E; cbn [of_option bind]; [|discriminate].
    cbn zeta. set (j := scan cmp k (keys nd) 0).
    assert (REC : (if leaf nd then Ret None else c <- idx (childs nd) j ;; match c with Some c' => search cmp f h c' k | None => Ret None end) = Ret x ->
                  (if leaf nd then Ret None else c <- idx (childs nd) j ;; match c with Some c' => search cmp f' h' c' k | None => Ret None end) = Ret x).
    { destruct (leaf nd); auto. unfold idx. destruct (nth_error (childs nd) j) as [[c|]|] eqn:NC; cbn [of_option bind]; auto.
      apply IH; [lia|]. eapply F_closed; eauto. eapply nth_error_In; eauto. }
    destruct (nth_error (keys nd) j) as [[k'|]|]; auto. destruct (is (cmp k k') Equal); auto.
  Qed.
  Lemma bind_same {A B} (m m' : out A) (g g' : A -> out B) x :
    (forall a, m = Ret a -> m' = Ret a) -> (forall a, m = Ret a -> g a = Ret x -> g' a = Ret x) -> bind m g = Ret x -> bind m' g' = Ret x.
  Proof. intros H1 H2. destruct m as [a| |]; cbn [bind]; try discriminate. rewrite (H1 a eq_refl). cbn [bind]. auto. Qed.
  Lemma to_vec_same f f' : f <= f' -> forall a x, F a -> to_vec f h a = Ret x -> to_vec f' h' a = Ret x.
  Proof.
    revert f'; induction f as [|f IH]; intros f' LF a x Fa; [discriminate|]. destruct f' as [|f']; [lia|].
    cbn [to_vec]. rewrite (idx_F a Fa). destruct (idx h a) as [nd| |] eqn:EI; cbn [bind]; [|discriminate|discriminate]. assert (E : nth_error h a = Some nd) by (unfold idx in EI; destruct (nth_error h a); cbn in EI; congruence).
    generalize (length (keys nd)) 0. intros m i. revert i x. induction m as [|m IHm]; intros i x; [auto|].
    apply bind_same.
    - destruct (leaf nd); auto. unfold idx. destruct (nth_error (childs nd) i) as [[c|]|] eqn:NC; cbn [of_option bind]; auto.
      intros l. apply IH; [lia|]. eapply F_closed; eauto. eapply nth_error_In; eauto.
    - intros cs _. apply bind_same; auto. intros k _. apply bind_same; auto. intros e _. apply bind_same; auto.
  Qed.
  Lemma to_key_vec_same f f' : f <= f' -> forall a x, F a -> to_key_vec f h a = Ret x -> to_key_vec f' h' a = Ret x.
  Proof.
    revert f'; induction f as [|f IH]; intros f' LF a x Fa; [discriminate|]. destruct f' as [|f']; [lia|].
    cbn [to_key_vec]. rewrite (idx_F a Fa). destruct (idx h a) as [nd| |] eqn:EI; cbn [bind]; [|discriminate|discriminate]. assert (E : nth_error h a = Some nd) by (unfold idx in EI; destruct (nth_error h a); cbn in EI; congruence).
    generalize (Nat.min (length (keys nd)) (n nd)) 0. intros m i. revert i x. induction m as [|m IHm]; intros i x; [auto|].
    apply bind_same.
    - destruct (leaf nd); auto. unfold idx. destruct (nth_error (childs nd) i) as [[c|]|] eqn:NC; cbn [of_option bind]; auto.
      intros l. apply IH; [lia|]. eapply F_closed; eauto. eapply nth_error_In; eauto.
    - intros cs _. apply bind_same; auto. intros k _. apply bind_same; auto.
  Qed.
  Lemma to_value_vec_same f f' : f <= f' -> forall a x, F a -> to_value_vec f h a = Ret x -> to_value_vec f' h' a = Ret x.
  Proof.
    revert f'; induction f as [|f IH]; intros f' LF a x Fa; [discriminate|]. destruct f' as [|f']; [lia|].
    cbn [to_value_vec]. rewrite (idx_F a Fa). destruct (idx h a) as [nd| |] eqn:EI; cbn [bind]; [|discriminate|discriminate]. assert (E : nth_error h a = Some nd) by (unfold idx in EI; destruct (nth_error h a); cbn in EI; congruence).
    generalize (length (keys nd)) 0. intros m i. revert i x. induction m as [|m IHm]; intros i x; [auto|].
    apply bind_same.
    - destruct (leaf nd); auto. unfold idx. destruct (nth_error (childs nd) i) as [[c|]|] eqn:NC; cbn [of_option bind]; auto.
      intros l. apply IH; [lia|]. eapply F_closed; eauto. eapply nth_error_In; eauto.
    - intros cs _. apply bind_same; auto. intros k _. apply bind_same; auto.
  Qed.
  Lemma fuel_le : fuel h <= fuel h'. Proof. unfold fuel. lia. Qed.
  (** Searches only reach nodes of the map. *)
  Lemma search_F f : forall a k b i, F a -> search cmp f h a k = Ret (Some (b, i)) -> F b.
  Proof.
    induction f as [|f IH]; intros a k b i Fa; cbn [search]; [discriminate|].
    unfold idx at 1. destruct (nth_error h a) as [nd|] eqn:E; cbn [of_option bind]; [|discriminate].
    cbn zeta. set (j := scan cmp k (keys nd) 0).
    assert (REC : (if leaf nd then Ret None else c <- idx (childs nd) j ;; match c with Some c' => search cmp f h c' k | None => Ret None end) = Ret (Some (b, i)) -> F b).
    { destruct (leaf nd); [discriminate|]. unfold idx. destruct (nth_error (childs nd) j) as [[c|]|] eqn:NC; cbn [of_option bind]; try discriminate.
      apply IH. eapply F_closed; eauto. eapply nth_error_In; eauto. }
    destruct (nth_error (keys nd) j) as [[k'|]|]; auto. destruct (is (cmp k k') Equal); auto. intros [= <- <-]. exact Fa.
  Qed.
  Definition reads (o : bop K V) : Prop := match o with BInsert _ _ | BRemove _ | BClear => False | _ => True end.
  Lemma read_same m o : (match root m with Some r => F r | None => True end) -> reads o ->
    forall x, exec cmp m o h = Ret x -> exec cmp m o h' = Ret (fst x, h').
  Proof.
    intros RF RD x. assert (W : forall A (f g : out A) (k : A -> banswer K V), (forall a, f = Ret a -> g = Ret a) ->
      (a <- f ;; Ret ((m, k a), h)) = Ret x -> (a <- g ;; Ret ((m, k a), h')) = Ret (fst x, h')).
    { intros A f g k H. destruct f as [a| |]; cbn [bind]; try discriminate. intros [= <-]. rewrite (H a eq_refl). reflexivity. }
    destruct o; cbn [exec reads] in *; try tauto; unfold asking.
    - apply W. intros a. unfold Get. destruct (root m) as [r|]; auto.
      destruct (search cmp (fuel h) h r k) as [[[b i]|]| |] eqn:SE; cbn [bind]; try discriminate; rewrite (search_same _ _ fuel_le _ _ _ RF SE); cbn [bind]; auto.
      unfold value_at, idx. now rewrite (F_same b (search_F _ _ _ _ _ RF SE)).
    - apply W. intros a. unfold ContainsKey. destruct (root m) as [r|]; auto.
      destruct (search cmp (fuel h) h r k) as [[[b i]|]| |] eqn:SE; cbn [bind]; try discriminate; rewrite (search_same _ _ fuel_le _ _ _ RF SE); cbn [bind]; auto.
    - intros [= <-]. reflexivity.
    - intros [= <-]. reflexivity.
    - apply W. intros a. unfold IntoIter_vec. destruct (root m) as [r|]; auto. apply to_vec_same; auto. apply fuel_le.
    - apply W. intros a. unfold Keys_vec. destruct (root m) as [r|]; auto. apply to_key_vec_same; auto. apply fuel_le.
    - apply W. intros a. unfold Values_vec. destruct (root m) as [r|]; auto. apply to_value_vec_same; auto. apply fuel_le.
  Qed.
End Sep.
