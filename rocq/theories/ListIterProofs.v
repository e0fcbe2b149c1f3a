(** ListIterProofs.v -- proofs about iteration over linked lists. *)
From Verif Require Import Base BaseLemmas Effect VecSpec ListModel ListProofs.
From Verif Require ListSpec DequeSpec.
Local Open Scope Z_scope.
Import ListSpec(forward, forward_nil, forward_node, list_shows, apart, extends).
Import DequeSpec(each_map, each_filter, each_fold).

Section Iter.
  Context {T : Type}.
  Implicit Types (h : heap T) (l : LinkedList) (p q : option nat) (cs : list (nat * T)).

  Lemma forward_extends : forall h h' p A v, forward h p A v -> (forall a, In a A -> nth_error h' a = nth_error h a) -> forward h' p A v.
  Proof.
    induction 1; intros H'; constructor.
    - rewrite H' by now left. exact H.
    - apply IHforward. intros b Hb. apply H'. now right.
  Qed.

  Lemma Next_nil : forall h p v, forward h p [] v -> p = None /\ v = [] /\ Next (mkIter p) h = Ret (mkIter p, None, h).
  Proof. intros h p v F. inversion F; subst. auto. Qed.
  Lemma Next_spec : forall h p A v, forward h p A v ->
    match v with
    | [] => Next (mkIter p) h = Ret (mkIter p, None, h)
    | x :: v' => exists q A', Next (mkIter p) h = Ret (mkIter q, Some x, h) /\ forward h q A' v' /\ A = match p with Some a => a | None => O end :: A'
    end.
  Proof.
    intros h p A v F. inversion F; subst; [reflexivity|]. exists (next n), addrs. split; [|auto].
    unfold Next. cbn [pointer]. rewrite (mb_Ret _ _ _ _ _ _ _ _ (load_spec _ _ _ H)). reflexivity.
  Qed.

  Lemma onheap_Ret : forall S A (m : M (heap T) A) h (s : S) a h', m h = Ret (a, h') -> onheap m (h, s) = Ret (a, (h', s)).
  Proof. intros S A m h s a h' H. unfold onheap. cbn [fst]. rewrite H. reflexivity. Qed.
  Lemma loop_ext : forall S A (b1 b2 : A -> T -> M (heap T * S) A), (forall a v hs, b1 a v hs = b2 a v hs) ->
    forall fuel it a hs, loop fuel it b1 a hs = loop fuel it b2 a hs.
  Proof.
    intros S A b1 b2 E. induction fuel as [|k IH]; intros it a hs; cbn [loop]; [reflexivity|].
    unfold mbind. destruct (onheap (Next it) hs) as [[p hs']| |]; auto. destruct (snd p); auto.
    rewrite E. destruct (b2 a t hs') as [[a' hs'']| |]; auto.
  Qed.

  (** Loops that push at most one element per round. *)
  Fixpoint each_opt {S} (f : T -> M S (option T)) (v : list T) : M S (list T) :=
    match v with
    | [] => mret []
    | x :: r => y <~ f x ;; k <~ each_opt f r ;; mret (match y with Some z => z :: k | None => k end)
    end.
  Definition push_body {S} (f : T -> M S (option T)) (n : LinkedList) (v : T) : M (heap T * S) LinkedList :=
    y <~ onuser (f v) ;; match y with Some z => onheap (PushBack n z) | None => mret n end.

  Lemma push_loop : forall S (f : T -> M S (option T)) v p A fuel h s n cs,
    forward h p A v -> own h n cs -> (length v < fuel)%nat -> apart (addrs cs) A -> Z.of_nat (length cs + length v) < 2 ^ 64 ->
    match each_opt f v s with
    | Ret (ys, s') => exists h' n' ds, loop fuel (mkIter p) (push_body f) n (h, s) = Ret (n', (h', s')) /\
        own h' n' (cs ++ ds) /\ vals ds = ys /\ changes h h' (addrs cs) /\ (forall a, In a (addrs ds) -> (length h <= a)%nat)
    | Panic => loop fuel (mkIter p) (push_body f) n (h, s) = Panic
    | Diverge => loop fuel (mkIter p) (push_body f) n (h, s) = Diverge
    end.
  Proof.
    intros S f. induction v as [|x v IH]; intros p A fuel h s n cs F O Hf Ap B; (destruct fuel as [|k]; [lia|]); cbn [loop each_opt].
    - pose proof (Next_spec _ _ _ _ F) as N. cbn in N. rewrite (mb_Ret _ _ _ _ _ _ _ _ (onheap_Ret _ _ _ _ s _ _ N)). cbn [snd].
      exists h, n, []. rewrite app_nil_r. split; [reflexivity|]. split; [exact O|]. split; [reflexivity|]. split; [apply changes_refl | intros a []].
    - pose proof (Next_spec _ _ _ _ F) as (q & A' & N & F' & EA). rewrite (mb_Ret _ _ _ _ _ _ _ _ (onheap_Ret _ _ _ _ s _ _ N)). cbn [snd fst].
      unfold push_body at 1. unfold push_body at 2. unfold push_body at 3.
      cbn [length] in *.
      destruct (f x s) as [[[z|] s1]| |] eqn:E.
      + rewrite (mb_Ret _ _ _ _ _ _ _ _ E).
        assert (Eu : @onuser T S _ (f x) (h, s) = Ret (Some z, (h, s1))) by (unfold onuser; cbn [snd]; rewrite E; reflexivity).
        destruct (PushBack_spec h n cs z O) as (h1 & n1 & Ep & O1 & C1); [lia|].
        assert (Eb : push_body f n x (h, s) = Ret (n1, (h1, s1))).
        { unfold push_body. rewrite (mb_Ret _ _ _ _ _ _ _ _ Eu). now apply onheap_Ret. }
        fold (push_body f n x). rewrite (mb_Ret _ _ _ _ _ _ _ _ Eb).
        assert (Ad : addrs (cs ++ [(length h, z)]) = addrs cs ++ [length h]) by now rewrite addrs_app.
        assert (F1 : forward h1 q A' v).
        { apply (forward_extends h); auto. intros a Ha. destruct C1 as [_ C1]. apply C1; [eapply forward_bound; eauto|].
          intros I. apply (Ap a I). subst A. now right. }
        specialize (IH q A' k h1 s1 n1 (cs ++ [(length h, z)]) F1 O1 ltac:(lia)).
        rewrite app_length in IH. cbn [length] in IH. specialize (fun H => IH H ltac:(lia)).
        rewrite Ad in IH.
        assert (Ap' : apart (addrs cs ++ [length h]) A').
        { intros a I1 I2. rewrite in_app_iff in I1. destruct I1 as [I1|[<-|[]]].
          - apply (Ap a I1). subst A. now right.
          - pose proof (forward_bound _ _ _ _ F' _ I2). lia. }
        specialize (IH Ap'). unfold mbind. destruct (each_opt f v s1) as [[ys s2]| |]; auto.
        destruct IH as (h' & n' & ds & El & O' & Ev & C' & Fr). exists h', n', ((length h, z) :: ds).
        rewrite <- app_assoc in O'. cbn [app] in O'. split; [exact El|]. split; [exact O'|]. split; [cbn; now rewrite <- Ev|].
        split.
        * eapply changes_trans; [exact C1 | exact C' |]. intros a Ia. rewrite in_app_iff in Ia. destruct Ia as [Ia|[<-|[]]]; auto.
        * intros a [<-|Ia]; [cbn; lia|]. apply Fr in Ia. destruct C1 as [C1 _]. lia.
      + rewrite (mb_Ret _ _ _ _ _ _ _ _ E).
        assert (Eb : push_body f n x (h, s) = Ret (n, (h, s1))).
        { unfold push_body, mbind, onuser. cbn [snd]. rewrite E. reflexivity. }
        fold (push_body f n x). rewrite (mb_Ret _ _ _ _ _ _ _ _ Eb).
        assert (Ap' : apart (addrs cs) A') by (intros a I1 I2; apply (Ap a I1); subst A; now right).
        specialize (IH q A' k h s1 n cs F' O ltac:(lia) Ap' ltac:(lia)).
        unfold mbind. destruct (each_opt f v s1) as [[ys s2]| |]; auto.
      + rewrite (mb_Panic _ _ _ _ _ _ E). fold (push_body f n x). apply mb_Panic. unfold push_body, mbind, onuser. cbn [snd]. now rewrite E.
      + rewrite (mb_Diverge _ _ _ _ _ _ E). fold (push_body f n x). apply mb_Diverge. unfold push_body, mbind, onuser. cbn [snd]. now rewrite E.
  Qed.

  (** The result of a pushing loop on a fresh list. *)
  Definition fresh_list (h h' : heap T) (n : LinkedList) (ys : list T) : Prop :=
    exists ds, own h' n ds /\ vals ds = ys /\ changes h h' [] /\ forall a, In a (addrs ds) -> (length h <= a)%nat.
  Lemma push_all_spec : forall S (f : T -> M S (option T)) v p A h s, forward h p A v -> Z.of_nat (length v) < 2 ^ 64 ->
    match each_opt f v s with
    | Ret (ys, s') => exists h' n', for_each (mkIter p) (push_body f) LinkedListNew (h, s) = Ret (n', (h', s')) /\ fresh_list h h' n' ys
    | Panic => for_each (mkIter p) (push_body f) LinkedListNew (h, s) = Panic
    | Diverge => for_each (mkIter p) (push_body f) LinkedListNew (h, s) = Diverge
    end.
  Proof.
    intros S f v p A h s F B. unfold for_each. cbn [fst].
    assert (Fu : (length v < length h + 1)%nat) by (pose proof (forward_short _ _ _ _ F); lia).
    assert (Ap : apart (addrs (T := T) []) A) by (intros a []).
    pose proof (push_loop S f v p A _ h s LinkedListNew [] F (own_new h) Fu Ap B) as H.
    destruct (each_opt f v s) as [[ys s']| |]; auto. destruct H as (h' & n' & ds & E & O & Ev & C & Fr).
    exists h', n'. split; [exact E|]. exists ds. auto.
  Qed.

  Lemma for_each_ext : forall S A (b1 b2 : A -> T -> M (heap T * S) A), (forall a v hs, b1 a v hs = b2 a v hs) ->
    forall it a hs, for_each it b1 a hs = for_each it b2 a hs.
  Proof. intros. unfold for_each. now apply loop_ext. Qed.

  Lemma It_Map_spec : forall S (f : T -> M S T) v p A h s, forward h p A v -> Z.of_nat (length v) < 2 ^ 64 ->
    match each_map f v s with
    | Ret (ys, s') => exists h' n', It_Map (mkIter p) f (h, s) = Ret (IntoIter n', (h', s')) /\ fresh_list h h' n' ys
    | Panic => It_Map (mkIter p) f (h, s) = Panic
    | Diverge => It_Map (mkIter p) f (h, s) = Diverge
    end.
  Proof.
    intros S f v p A h s F B. unfold It_Map. set (g := fun x => y <~ f x ;; mret (Some y)).
    assert (E : forall s, each_map f v s = each_opt g v s).
    { clear. induction v as [|x v IH]; intros s; cbn [each_map each_opt]; [reflexivity|]. unfold g at 1, mbind, mret.
      destruct (f x s) as [[y s1]| |]; auto. rewrite IH. destruct (each_opt g v s1) as [[k s2]| |]; auto. }
    rewrite E. pose proof (push_all_spec S g v p A h s F B) as H.
    assert (X : for_each (mkIter p) (fun n x => y <~ onuser (f x);; onheap (PushBack n y)) LinkedListNew (h, s)
               = for_each (mkIter p) (push_body g) LinkedListNew (h, s)).
    { apply for_each_ext. intros a x hs. unfold push_body, g, onuser, mbind, mret. destruct (f x (snd hs)) as [[y s1]| |]; auto. }
    destruct (each_opt g v s) as [[ys s']| |].
    - destruct H as (h' & n' & H & Fl). rewrite H in X. exists h', n'. split; [|exact Fl].
      rewrite (mb_Ret _ _ _ _ _ _ _ _ X). reflexivity.
    - rewrite H in X. now apply mb_Panic.
    - rewrite H in X. now apply mb_Diverge.
  Qed.
  Lemma It_Filter_spec : forall S (f : T -> M S bool) v p A h s, forward h p A v -> Z.of_nat (length v) < 2 ^ 64 ->
    match each_filter f v s with
    | Ret (ys, s') => exists h' n', It_Filter (mkIter p) f (h, s) = Ret (IntoIter n', (h', s')) /\ fresh_list h h' n' ys
    | Panic => It_Filter (mkIter p) f (h, s) = Panic
    | Diverge => It_Filter (mkIter p) f (h, s) = Diverge
    end.
  Proof.
    intros S f v p A h s F B. unfold It_Filter. set (g := fun x => b <~ f x ;; mret (if (b : bool) then Some x else None)).
    assert (E : forall s, each_filter f v s = each_opt g v s).
    { clear. induction v as [|x v IH]; intros s; cbn [each_filter each_opt]; [reflexivity|]. unfold g at 1, mbind, mret.
      destruct (f x s) as [[[|] s1]| |]; auto; rewrite IH; destruct (each_opt g v s1) as [[k s2]| |]; auto. }
    rewrite E. pose proof (push_all_spec S g v p A h s F B) as H.
    assert (X : for_each (mkIter p) (fun n x => b <~ onuser (f x);; if (b : bool) then onheap (PushBack n x) else mret n) LinkedListNew (h, s)
               = for_each (mkIter p) (push_body g) LinkedListNew (h, s)).
    { apply for_each_ext. intros a x hs. unfold push_body, g, onuser, mbind, mret. destruct (f x (snd hs)) as [[[|] s1]| |]; auto. }
    destruct (each_opt g v s) as [[ys s']| |].
    - destruct H as (h' & n' & H & Fl). rewrite H in X. exists h', n'. split; [|exact Fl].
      rewrite (mb_Ret _ _ _ _ _ _ _ _ X). reflexivity.
    - rewrite H in X. now apply mb_Panic.
    - rewrite H in X. now apply mb_Diverge.
  Qed.
  Lemma fold_loop : forall S B (f : B -> T -> M S B) (g : B -> list T -> M S B),
    (forall b s, g b [] s = Ret (b, s)) ->
    (forall b x v s, g b (x :: v) s = mbind (f b x) (fun b' => g b' v) s) ->
    forall v p A fuel h s b, forward h p A v -> (length v < fuel)%nat ->
    loop fuel (mkIter p) (fun r x => onuser (f r x)) b (h, s) = match g b v s with Ret (r, s') => Ret (r, (h, s')) | Panic => Panic | Diverge => Diverge end.
  Proof.
    intros S B f g G0 G1. induction v as [|x v IH]; intros p A fuel h s b F Hf; (destruct fuel as [|k]; [lia|]); cbn [loop].
    - pose proof (Next_spec _ _ _ _ F) as N. cbn in N. rewrite (mb_Ret _ _ _ _ _ _ _ _ (onheap_Ret _ _ _ _ s _ _ N)). cbn [snd].
      rewrite G0. reflexivity.
    - pose proof (Next_spec _ _ _ _ F) as (q & A' & N & F' & EA). rewrite (mb_Ret _ _ _ _ _ _ _ _ (onheap_Ret _ _ _ _ s _ _ N)). cbn [snd fst].
      rewrite G1. cbn [length] in Hf. unfold mbind. unfold onuser at 1. cbn [snd fst]. destruct (f b x s) as [[b' s']| |]; cbn [bind]; auto.
      cbn [fst snd]. erewrite IH; eauto. lia.
  Qed.
  Lemma for_each_fold : forall S B (f : B -> T -> M S B) (g : B -> list T -> M S B),
    (forall b s, g b [] s = Ret (b, s)) ->
    (forall b x v s, g b (x :: v) s = mbind (f b x) (fun b' => g b' v) s) ->
    forall v p A h s b, forward h p A v ->
    for_each (mkIter p) (fun r x => onuser (f r x)) b (h, s) = match g b v s with Ret (r, s') => Ret (r, (h, s')) | Panic => Panic | Diverge => Diverge end.
  Proof.
    intros S B f g G0 G1 v p A h s b F. unfold for_each. cbn [fst]. eapply fold_loop; eauto. pose proof (forward_short _ _ _ _ F). lia.
  Qed.
  Lemma It_Fold_spec : forall S (f : T -> T -> M S T) v p A h s b, forward h p A v ->
    It_Fold (mkIter p) b f (h, s) = match each_fold f b v s with Ret (r, s') => Ret (r, (h, s')) | Panic => Panic | Diverge => Diverge end.
  Proof.
    intros S f v p A h s b F. unfold It_Fold. eapply for_each_fold; eauto; intros; reflexivity.
  Qed.

  Lemma each_opt_pure : forall S (f : T -> T) v (s : S), each_opt (fun x => mret (Some (f x))) v s = Ret (map f v, s).
  Proof. intros S f. induction v as [|x v IH]; intros s; cbn [each_opt map]; [reflexivity|]. unfold mbind, mret at 1. rewrite IH. reflexivity. Qed.

  Lemma plain_push : forall (f : T -> T) (body : LinkedList -> T -> M (heap T * unit) LinkedList) v p A h, forward h p A v -> Z.of_nat (length v) < 2 ^ 64 ->
    (forall a x hs, body a x hs = onheap (PushBack a (f x)) hs) ->
    exists h' n', plain (for_each (mkIter p) body LinkedListNew) h = Ret (n', h') /\ fresh_list h h' n' (map f v).
  Proof.
    intros f body v p A h F B Hb. pose proof (push_all_spec unit (fun x => mret (Some (f x))) v p A h tt F B) as H.
    rewrite each_opt_pure in H. destruct H as (h' & n' & E & Fl). exists h', n'. split; [|exact Fl].
    unfold plain. rewrite (for_each_ext _ _ _ (push_body (fun x => mret (Some (f x))))); [rewrite E; reflexivity|].
    intros a x hs. rewrite Hb. unfold push_body, mbind, onuser, mret. cbn. destruct hs; reflexivity.
  Qed.
  Lemma It_Rev_spec : forall v p A h, forward h p A v -> Z.of_nat (length v) < 2 ^ 64 ->
    exists h' n', It_Rev (mkIter p) h = Ret (IntoIter n', h') /\ fresh_list h h' n' v.
  Proof.
    intros v p A h F B. unfold It_Rev.
    destruct (plain_push (fun x => x) (fun n v => onheap (PushBack n v)) v p A h F B) as (h' & n' & E & Fl); [reflexivity|].
    rewrite (mb_Ret _ _ _ _ _ _ _ _ E). rewrite map_id in Fl. exists h', n'. auto.
  Qed.
  Lemma It_CollectToLinkedList_spec : forall v p A h, forward h p A v -> Z.of_nat (length v) < 2 ^ 64 ->
    exists h' n', It_CollectToLinkedList (mkIter p) h = Ret (n', h') /\ fresh_list h h' n' v.
  Proof.
    intros v p A h F B. unfold It_CollectToLinkedList.
    destruct (plain_push (fun x => x) (fun n v => onheap (PushBack n v)) v p A h F B) as (h' & n' & E & Fl); [reflexivity|].
    rewrite map_id in Fl. exists h', n'. auto.
  Qed.
  Lemma Clone_spec : forall clone v l A h, forward h (head l) A v -> Z.of_nat (length v) < 2 ^ 64 ->
    exists h' n', Clone (Some clone) l h = Ret (n', h') /\ fresh_list h h' n' (map clone v).
  Proof.
    intros clone v l A h F B. unfold Clone, IntoIter. apply (plain_push clone _ v (head l) A h F B). reflexivity.
  Qed.
  Lemma It_CollectToVec_spec : forall v p A h, forward h p A v -> It_CollectToVec (mkIter p) h = Ret (v, h).
  Proof.
    intros v p A h F. unfold It_CollectToVec, plain.
    rewrite (for_each_ext _ _ _ (fun (r : list T) x => onuser (mret (r ++ [x])))) by (intros; unfold onuser, mret; cbn; destruct hs; reflexivity).
    rewrite (for_each_fold unit (list T) (fun r x => mret (r ++ [x])) (fun r v => mret (r ++ v))) with (v := v) (A := A); auto.
    - intros. now rewrite app_nil_r.
    - intros. unfold mbind, mret. now rewrite <- app_assoc.
  Qed.

  (** Display. *)
  Fixpoint disp (d : T -> list Z) (v : list T) : list Z :=
    match v with [] => [] | [x] => d x | x :: r => d x ++ [44; 32] ++ disp d r end.
  Lemma comma_disp : forall d v, comma_separated (map d v) = disp d v.
  Proof.
    induction v as [|x [|y v] IH]; auto. cbn [disp]. cbn [disp map] in IH. rewrite <- IH. reflexivity.
  Qed.
  Lemma to_int_small : forall z, 0 <= z < 2 ^ 63 -> to_int z = z.
  Proof. intros z H. unfold to_int. rewrite Z.mod_small; lia. Qed.
  Lemma Display_spec : forall d l A v h, forward h (head l) A v -> Len l = Z.of_nat (length v) -> Z.of_nat (length v) < 2 ^ 63 ->
    Display (Some d) l h = Ret ([76; 105; 110; 107; 101; 100; 76; 105; 115; 116; 91] ++ comma_separated (map d v) ++ [93], h).
  Proof.
    intros d l A v h F Ln B. unfold Display. set (open := [76; _; _; _; _; _; _; _; _; _; _]). rewrite comma_disp.
    set (step := fun (acc : list Z * Z) (e : T) => (fst acc ++ d e ++ (if snd acc <? to_int (Len l) - 1 then [44; 32] else []), snd acc + 1)).
    assert (E : plain (for_each (IntoIter l) (fun (acc : list Z * Z) e => let '(buffer, count) := acc in
      dd <~ (fun s => f <- of_option (Some d) ;; Ret (f e, s)) ;;
      let comma := if count <? to_int (Len l) - 1 then [44; 32] else [] in
      mret (buffer ++ dd ++ comma, count + 1)) (open, 0)) h = Ret (fold_left step v (open, 0), h)).
    { unfold plain, IntoIter.
      rewrite (for_each_ext _ _ _ (fun r x => onuser (mret (step r x)))) by (intros [? ?] ? [? ?]; reflexivity).
      rewrite (for_each_fold unit _ (fun r x => mret (step r x)) (fun r v => mret (fold_left step v r))) with (v := v) (A := A); auto. }
    rewrite (mb_Ret _ _ _ _ _ _ _ _ E). unfold mret. do 2 f_equal.
    assert (G : forall w k buf, Z.of_nat (length v) = k + Z.of_nat (length w) -> 0 <= k -> fold_left step w (buf, k) = (buf ++ disp d w, k + Z.of_nat (length w))).
    { induction w as [|x w IH]; intros k buf Hk K0; cbn [fold_left disp].
      - rewrite app_nil_r. f_equal. cbn. lia.
      - unfold step at 2. cbn [fst snd]. rewrite Ln, to_int_small by lia. cbn [length] in *. rewrite IH by lia. f_equal; [|lia].
        destruct w as [|y w].
        + cbn [disp length] in *. destruct (Z.ltb_spec k (Z.of_nat (length v) - 1)); [lia|]. now rewrite !app_nil_r.
        + cbn [length] in Hk. destruct (Z.ltb_spec k (Z.of_nat (length v) - 1)); [|lia]. cbn [disp]. now rewrite !app_assoc. }
    rewrite G by (cbn; lia). cbn [fst]. now rewrite app_assoc.
  Qed.

  Lemma eq_loop_spec : forall e v1 v2 p1 A1 p2 A2 h fuel, forward h p1 A1 v1 -> forward h p2 A2 v2 -> length v1 = length v2 -> (length v1 < fuel)%nat ->
    eq_loop fuel (Some e) (mkIter p1) (mkIter p2) h = Ret (same_elements e v1 v2, h).
  Proof.
    intros e. induction v1 as [|x v1 IH]; intros [|y v2] p1 A1 p2 A2 h fuel F1 F2 L Hf; cbn [length] in *; try discriminate;
      (destruct fuel as [|k]; [lia|]); cbn [eq_loop same_elements].
    - pose proof (Next_spec _ _ _ _ F1) as N1. pose proof (Next_spec _ _ _ _ F2) as N2. cbn in N1, N2.
      rewrite (mb_Ret _ _ _ _ _ _ _ _ N1), (mb_Ret _ _ _ _ _ _ _ _ N2). reflexivity.
    - pose proof (Next_spec _ _ _ _ F1) as (q1 & B1 & N1 & F1' & _). pose proof (Next_spec _ _ _ _ F2) as (q2 & B2 & N2 & F2' & _).
      rewrite (mb_Ret _ _ _ _ _ _ _ _ N1), (mb_Ret _ _ _ _ _ _ _ _ N2). cbn [snd fst]. unfold mbind. cbn [of_option bind].
      destruct (e x y); [|reflexivity]. cbn [andb]. eapply IH; eauto. lia.
  Qed.
  Lemma same_elements_length : forall (e : T -> T -> bool) v1 v2, length v1 <> length v2 -> same_elements e v1 v2 = false.
  Proof.
    intros e. induction v1 as [|x v1 IH]; intros [|y v2] L; cbn in *; auto; try congruence. rewrite IH by lia. now rewrite andb_false_r.
  Qed.
  Lemma Eq_spec : forall e l m A1 v1 A2 v2 h, forward h (head l) A1 v1 -> forward h (head m) A2 v2 ->
    Len l = Z.of_nat (length v1) -> Len m = Z.of_nat (length v2) -> Eq (Some e) l m h = Ret (same_elements e v1 v2, h).
  Proof.
    intros e l m A1 v1 A2 v2 h F1 F2 L1 L2. unfold Eq. rewrite L1, L2. destruct (Z.eqb_spec (Z.of_nat (length v1)) (Z.of_nat (length v2))); cbn [negb].
    - unfold IntoIter. eapply eq_loop_spec; eauto; [lia|]. pose proof (forward_short _ _ _ _ F1). lia.
    - rewrite same_elements_length by lia. reflexivity.
  Qed.
End Iter.
