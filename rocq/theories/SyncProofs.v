(** SyncProofs.v -- the channels behind Spawn/Join/IsFinished and gokio: an invariant
    of every reachable state. *)
From Verif Require Import Base BaseLemmas SyncModel SyncSpec.

Section Inv.
  Context {T : Type}.
  Notation event := (event T).
  Notation trace := (list event).
  Notation user := (user T).
  Notation val := (val T).
  Notation prog := (prog T).
  Notation config := (config T).
  Notation goroutine := (goroutine T).
  Notation chan := (@chan T).
  Implicit Types (ths : list goroutine) (chs : list chan) (tr e : trace).

  (** *** What goroutines there are, and where they can be *)
  Inductive kind := KMain | KJoin (h : nat) | KFut (h : nat).
  Definition chan_of (kd : kind) : option nat := match kd with KMain => None | KJoin h | KFut h => Some h end.
  Definition rest_of (kd : kind) : ending -> prog :=
    match kd with
    | KMain => main_rest
    | KJoin h => fun r => match r with Returned _ => Send h VUnit (Return VUnit) | Exited => Return VUnit | Panicked => Crash end
    | KFut h => fun r => match r with Returned v => Send h v (Close h (Return VUnit)) | Exited => Close h (Return VUnit)
                                    | Panicked => Close h Crash end
    end.
  Inductive sub : call user -> prog -> Prop :=
  | sub_body f : sub f (body f)
  | sub_new v a : sub (MutexNew v) (NewMutex a (fun m => Return (VMutex m)))
  | sub_lock m : sub (Lock m) (GetValue m (fun a => Return (VPtr a)))
  | sub_try m : sub (TryLock m) (GetValue m (fun a => Return (VOk (VPtr a))))
  | sub_spawn f h : sub (Spawn f) (Go f (rest_of (KJoin h)) (Return (VHandle h)))
  | sub_gokio z f h : sub (Gokio_Spawn z f) (Go f (rest_of (KFut h)) (Return (VFuture h))).
  Inductive shape : kind -> goroutine -> Prop :=
  | sh_run kd u : shape kd (mkG (Running u (rest_of kd)) false)
  | sh_in kd f p k w : sub f p -> (w = true -> exists h q, p = Recv h q) -> shape kd (mkG (Inside f p k (rest_of kd)) w)
  | sh_main v : shape KMain (mkG (Ending (Return v)) false)
  | sh_jsend h w : shape (KJoin h) (mkG (Ending (Send h VUnit (Return VUnit))) w)
  | sh_jdone h : shape (KJoin h) (mkG (Ending (Return VUnit)) false)
  | sh_crash kd : shape kd (mkG (Ending Crash) false)
  | sh_fsend h v w : shape (KFut h) (mkG (Ending (Send h v (Close h (Return VUnit)))) w)
  | sh_fclose h p : p = Return VUnit \/ p = Crash -> shape (KFut h) (mkG (Ending (Close h p)) false)
  | sh_fdone h : shape (KFut h) (mkG (Ending (Return VUnit)) false).

  (** What matters about a goroutine for the channels. *)
  Inductive view := AIdle | AGo (h : nat) | AWait (h : nat) | ASend (v : val) (w : bool) | AClose | ADone.
  Definition abs (g : goroutine) : view :=
    match code g with
    | Running _ _ => AIdle
    | Inside _ (Go _ _ (Return (VHandle h))) _ _ => AGo h
    | Inside _ (Go _ _ (Return (VFuture h))) _ _ => AGo h
    | Inside _ (Recv h _) _ _ => if waits g then AWait h else AIdle
    | Inside _ _ _ _ => AIdle
    | Ending (Send _ v _) => ASend v (waits g)
    | Ending (Close _ _) => AClose
    | Ending _ => ADone
    end.
  Definition vw ths (t : nat) : option view := option_map abs (nth_error ths t).
  Definition over (a : view) : Prop := match a with ASend _ _ | AClose | ADone => True | _ => False end.

  Inductive own := Pre (t : nat) | Post (t : nat).
  Definition ended tr (t : nat) : Prop := (exists v, finished tr t v) \/ gone tr t.

  Definition phase ths tr (owns : list own) (h : nat) (ch : chan) : Prop :=
    match nth_error owns h with
    | None => False
    | Some (Pre t) => sendq ch = [] /\ closed ch = false /\ joined tr h = [] /\ awaited tr h = []
    | Some (Post t) =>
        match zero ch with
        | None =>
            closed ch = false /\ spawned tr h t /\
            match vw ths t with
            | Some (ASend v w) => joined tr h = [] /\ (exists x, finished tr t x) /\
                                  sendq ch = (if w then [(t, v)] else []) /\ (w = true -> recvq ch = [])
            | Some ADone => sendq ch = [] /\ ((exists x, finished tr t x) /\ (exists x, joined tr h = [x]) \/
                                              gone tr t /\ joined tr h = [])
            | Some AClose => False
            | _ => sendq ch = [] /\ joined tr h = []
            end
        | Some z =>
            spawned_future tr h t z /\
            match vw ths t with
            | Some (ASend v w) => awaited tr h = [] /\ finished tr t v /\ closed ch = false /\
                                  sendq ch = (if w then [(t, v)] else []) /\ (w = true -> recvq ch = [])
            | Some AClose => closed ch = false /\ sendq ch = [] /\
                             ((exists v, awaited tr h = [v] /\ finished tr t v) \/ gone tr t /\ awaited tr h = [])
            | Some ADone => closed ch = true /\ sendq ch = [] /\ recvq ch = [] /\
                            exists n, (exists v, awaited tr h = v :: repeat z n /\ finished tr t v) \/
                                      gone tr t /\ awaited tr h = repeat z n
            | _ => sendq ch = [] /\ awaited tr h = [] /\ closed ch = false
            end
        end
    end.

  Definition kind_of_chan chs (h : nat) (z : option val) : Prop := exists ch, nth_error chs h = Some ch /\ zero ch = z.
  Definition call_ok chs (f : call user) (p : prog) : Prop :=
    match f with
    | Join h | IsFinished h => kind_of_chan chs h None
    | Await h => exists z, kind_of_chan chs h (Some z)
    | Spawn _ => forall r q h, p = Go r q (Return (VHandle h)) -> kind_of_chan chs h None
    | Gokio_Spawn z _ => forall r q h, p = Go r q (Return (VFuture h)) -> kind_of_chan chs h (Some z)
    | _ => True
    end.

  Record AInv ths chs tr (kinds : list kind) (owns : list own) : Prop := {
    a_kinds : length kinds = length ths;
    a_owns : length owns = length chs;
    a_shape : forall t g, nth_error ths t = Some g -> exists kd, nth_error kinds t = Some kd /\ shape kd g;
    a_go : forall t h, vw ths t = Some (AGo h) <-> nth_error owns h = Some (Pre t);
    a_own : forall t h, nth_error owns h = Some (Post t) <-> exists kd, nth_error kinds t = Some kd /\ chan_of kd = Some h;
    a_zero : forall t h ch, nth_error chs h = Some ch ->
      (nth_error kinds t = Some (KJoin h) -> zero ch = None) /\ (nth_error kinds t = Some (KFut h) -> zero ch <> None);
    a_call : forall t f p k rest w, nth_error ths t = Some (mkG (Inside f p k rest) w) -> call_ok chs f p;
    a_wait : forall h ch t, nth_error chs h = Some ch -> (In t (recvq ch) <-> vw ths t = Some (AWait h));
    a_nodup : forall h ch, nth_error chs h = Some ch -> NoDup (recvq ch);
    a_phase : forall h ch, nth_error chs h = Some ch -> phase ths tr owns h ch;
    a_fin : forall t, ended tr t -> exists a, vw ths t = Some a /\ over a;
    a_fin1 : forall t v w, finished tr t v -> finished tr t w -> v = w;
    a_excl : forall t v, finished tr t v -> ~ gone tr t;
    a_fresh : forall h, length chs <= h -> joined tr h = [] /\ awaited tr h = [] }.

  (** *** Small facts *)
  Lemma vw_set ths t g g0 x : nth_error ths t = Some g0 ->
    vw (list_set ths t g) x = if x =? t then Some (abs g) else vw ths x.
  Proof.
    intros H. unfold vw. rewrite nth_error_list_set. rewrite (Nat.eqb_sym t x).
    destruct (Nat.eqb_spec x t) as [->|N]; [|reflexivity].
    assert (t < length ths) by (apply nth_error_Some; congruence).
    destruct (Nat.ltb_spec t (length ths)); [reflexivity|lia].
  Qed.
  Lemma nth_set ths t g g0 x : nth_error ths t = Some g0 ->
    nth_error (list_set ths t g) x = if x =? t then Some g else nth_error ths x.
  Proof.
    intros H. rewrite nth_error_list_set. rewrite (Nat.eqb_sym t x).
    destruct (Nat.eqb_spec x t) as [->|N]; [|reflexivity].
    assert (t < length ths) by (apply nth_error_Some; congruence).
    destruct (Nat.ltb_spec t (length ths)); [reflexivity|lia].
  Qed.
  Lemma chan_set chs h ch ch0 x : nth_error chs h = Some ch0 ->
    nth_error (list_set chs h ch) x = if x =? h then Some ch else nth_error chs x.
  Proof.
    intros H. rewrite nth_error_list_set. rewrite (Nat.eqb_sym h x).
    destruct (Nat.eqb_spec x h) as [->|N]; [|reflexivity].
    assert (h < length chs) by (apply nth_error_Some; congruence).
    destruct (Nat.ltb_spec h (length chs)); [reflexivity|lia].
  Qed.

  Lemma joined_app tr e h : joined (tr ++ e) h = joined tr h ++ joined e h.
  Proof.
    induction tr as [|x tr IH]; [reflexivity|].
    cbn [app joined]. destruct x as [t f|t f v|t t'|t v|t|t|t a v|t a v|t]; try exact IH.
    destruct f; try exact IH.
    - destruct (h0 =? h); [cbn [app]; f_equal|]; exact IH.
    - destruct v; try exact IH. destruct b; [|exact IH]. destruct (h0 =? h); [cbn [app]; f_equal|]; exact IH.
  Qed.
  Lemma awaited_app tr e h : awaited (tr ++ e) h = awaited tr h ++ awaited e h.
  Proof.
    induction tr as [|x tr IH]; [reflexivity|].
    cbn [app awaited]. destruct x as [t f|t f v|t t'|t v|t|t|t a v|t a v|t]; try exact IH.
    destruct f; try exact IH. destruct (h0 =? h); [cbn [app]; f_equal|]; exact IH.
  Qed.
  Lemma spawned_app tr e h t : spawned tr h t -> spawned (tr ++ e) h t.
  Proof. intros (u & f & a & b & ->). exists u, f, a, (b ++ e). rewrite <- app_assoc. reflexivity. Qed.
  Lemma spawned_future_app tr e h t z : spawned_future tr h t z -> spawned_future (tr ++ e) h t z.
  Proof. intros (u & f & a & b & ->). exists u, f, a, (b ++ e). rewrite <- app_assoc. reflexivity. Qed.
  Lemma finished_app tr e t v : finished tr t v -> finished (tr ++ e) t v.
  Proof. intros H. unfold finished. apply in_or_app. left. exact H. Qed.

  Lemma gone_app tr e t : gone tr t -> gone (tr ++ e) t.
  Proof. intros [H|H]; [left|right]; apply in_or_app; left; exact H. Qed.
  Lemma gone_app_inv tr e t : gone (tr ++ e) t -> gone tr t \/ gone e t.
  Proof. intros [H|H]; apply in_app_or in H; destruct H as [H|H]; [left; left|right; left|left; right|right; right]; exact H. Qed.
  Lemma finished_app_inv tr e t v : finished (tr ++ e) t v -> finished tr t v \/ finished e t v.
  Proof. intros H. apply in_app_or in H. exact H. Qed.

  (** Events that end no function. *)
  Definition noend e : Prop := forall t, ~ ended e t.
  Lemma noend_finished tr e t v : noend e -> finished (tr ++ e) t v -> finished tr t v.
  Proof. intros N F. apply finished_app_inv in F. destruct F as [F|F]; [exact F|]. exfalso. apply (N t). left. exists v. exact F. Qed.
  Lemma noend_gone tr e t : noend e -> gone (tr ++ e) t -> gone tr t.
  Proof. intros N F. apply gone_app_inv in F. destruct F as [F|F]; [exact F|]. exfalso. apply (N t). right. exact F. Qed.
  Lemma noend_ended tr e t : noend e -> ended (tr ++ e) t -> ended tr t.
  Proof.
    intros N [(v & F)|F]; [left; exists v; apply (noend_finished _ _ _ _ N F)|right; apply (noend_gone _ _ _ N F)].
  Qed.
  Definition ends (x : event) : bool := match x with EFinish _ _ | EExit _ | EPanic _ => true | _ => false end.
  Lemma noend_ends e : existsb ends e = false -> noend e.
  Proof.
    intros H t E. assert (X : exists x, In x e /\ ends x = true).
    { destruct E as [(v & F)|[F|F]]; eexists; (split; [exact F|reflexivity]). }
    apply existsb_exists in X. congruence.
  Qed.

  (** Events that no channel cares about. *)
  Definition quiet e : Prop := (forall h, joined e h = [] /\ awaited e h = []) /\ noend e.
  Lemma quiet_joined tr e h : quiet e -> joined (tr ++ e) h = joined tr h.
  Proof. intros [Q _]. rewrite joined_app. destruct (Q h) as [-> _]. apply app_nil_r. Qed.
  Lemma quiet_awaited tr e h : quiet e -> awaited (tr ++ e) h = awaited tr h.
  Proof. intros [Q _]. rewrite awaited_app. destruct (Q h) as [_ ->]. apply app_nil_r. Qed.
  Lemma quiet_finished tr e t v : quiet e -> finished (tr ++ e) t v -> finished tr t v.
  Proof. intros [_ Q]. apply noend_finished. exact Q. Qed.

  Definition norm (o : option view) : option view :=
    match o with Some AIdle | Some (AGo _) | Some (AWait _) => None | _ => o end.
  Lemma phase_mono ths ths' tr e owns h ch :
    (forall t, nth_error owns h = Some (Post t) -> norm (vw ths' t) = norm (vw ths t)) ->
    joined e h = [] -> awaited e h = [] ->
    phase ths tr owns h ch -> phase ths' (tr ++ e) owns h ch.
  Proof.
    intros V J A P. unfold phase in *. rewrite joined_app, awaited_app, J, A, !app_nil_r.
    destruct (nth_error owns h) as [[t|t]|]; [exact P| |exact P].
    specialize (V t eq_refl). destruct (zero ch).
    - destruct P as [S P]. split; [apply spawned_future_app; exact S|].
      destruct (vw ths t) as [[| | |x w| |]|], (vw ths' t) as [[| | |x' w'| |]|]; try discriminate V; try exact P.
      + injection V as -> ->. destruct P as (P1 & P2 & P3). split; [exact P1|]. split; [apply finished_app; exact P2|exact P3].
      + destruct P as (P1 & P2 & P3). split; [exact P1|]. split; [exact P2|].
        destruct P3 as [(x & P3 & P4)|[P3 P4]]; [left; exists x; split; [exact P3|apply finished_app; exact P4]|right].
        split; [apply gone_app; exact P3|exact P4].
      + destruct P as (P1 & P2 & PR & n & P3). split; [exact P1|]. split; [exact P2|]. split; [exact PR|]. exists n.
        destruct P3 as [(x & P3 & P4)|[P3 P4]]; [left; exists x; split; [exact P3|apply finished_app; exact P4]|right].
        split; [apply gone_app; exact P3|exact P4].
    - destruct P as (C & S & P). split; [exact C|]. split; [apply spawned_app; exact S|].
      destruct (vw ths t) as [[| | |x w| |]|], (vw ths' t) as [[| | |x' w'| |]|]; try discriminate V; try exact P.
      + injection V as -> ->. destruct P as (P1 & (y & P2) & P3). split; [exact P1|]. split; [exists y; apply finished_app; exact P2|exact P3].
      + destruct P as (P1 & P). split; [exact P1|].
        destruct P as [[(y & P2) P3]|[P2 P3]]; [left|right]; (split; [|exact P3]); [exists y; apply finished_app|apply gone_app]; exact P2.
  Qed.

  (** *** Steps that no channel notices *)
  Lemma frame ths chs tr kinds owns t g g' kd e :
    AInv ths chs tr kinds owns -> nth_error ths t = Some g -> nth_error kinds t = Some kd ->
    shape kd g' -> abs g' = abs g -> quiet e ->
    (forall f p k rest w, g' = mkG (Inside f p k rest) w -> call_ok chs f p) ->
    AInv (list_set ths t g') chs (tr ++ e) kinds owns.
  Proof.
    intros [I1 I2 I3 I4 I5 I6 I7 I8 I9 I10 I11 I12 I14 I13] G K S E Q C.
    assert (V : forall x, vw (list_set ths t g') x = vw ths x).
    { intros x. rewrite (vw_set _ _ _ _ _ G). destruct (Nat.eqb_spec x t) as [->|N]; [|reflexivity].
      unfold vw. rewrite G. cbn [option_map]. rewrite E. reflexivity. }
    split.
    - rewrite list_set_length. exact I1.
    - exact I2.
    - intros x gx X. rewrite (nth_set _ _ _ _ _ G) in X. destruct (Nat.eqb_spec x t) as [->|N].
      + injection X as <-. exists kd. split; assumption.
      + apply I3. exact X.
    - intros x h. rewrite V. apply I4.
    - exact I5.
    - exact I6.
    - intros x f p k rest w X. rewrite (nth_set _ _ _ _ _ G) in X. destruct (Nat.eqb_spec x t) as [->|N].
      + injection X as X. eapply C. exact X.
      + eapply I7. exact X.
    - intros h ch x H. rewrite V. apply I8. exact H.
    - exact I9.
    - intros h ch H. apply phase_mono with ths; [intros; f_equal; apply V| | |apply I10; exact H]; apply Q.
    - intros x F. rewrite V. apply (I11 x). apply (noend_ended _ _ _ (proj2 Q) F).
    - intros x v w F F'. apply (I12 x); apply (quiet_finished _ e); assumption.
    - intros x v F F'. apply (I14 x v); [apply (quiet_finished _ e)|apply (noend_gone _ e x (proj2 Q))]; assumption.
    - intros h H. rewrite (quiet_joined _ _ _ Q), (quiet_awaited _ _ _ Q). apply I13. exact H.
  Qed.

  Lemma owner_unique ths chs tr kinds owns h h' t :
    AInv ths chs tr kinds owns -> nth_error owns h = Some (Post t) -> nth_error owns h' = Some (Post t) -> h = h'.
  Proof.
    intros I A B. apply (a_own _ _ _ _ _ I) in A. apply (a_own _ _ _ _ _ I) in B.
    destruct A as (kd & A1 & A2), B as (kd' & B1 & B2). congruence.
  Qed.

  (** *** The function of a goroutine ends *)
  Definition end_event (t : nat) (r : ending) : event :=
    match r with Returned v => EFinish t v | Exited => EExit t | Panicked => EPanic t end.
  Definition end_view (kd : kind) (r : ending) : view :=
    match kd, r with
    | KMain, _ => ADone
    | KJoin _, Returned _ => ASend VUnit false
    | KJoin _, _ => ADone
    | KFut _, Returned v => ASend v false
    | KFut _, _ => AClose
    end.
  Lemma finish_step ths chs tr kinds owns t kd u r :
    AInv ths chs tr kinds owns -> nth_error ths t = Some (mkG (Running u (rest_of kd)) false) ->
    nth_error kinds t = Some kd ->
    AInv (list_set ths t (mkG (Ending (rest_of kd r)) false)) chs (tr ++ [end_event t r]) kinds owns.
  Proof.
    intros I G K.
    assert (NE : ~ ended tr t).
    { intros F. destruct (a_fin _ _ _ _ _ I _ F) as (a & V & O). unfold vw in V. rewrite G in V.
      injection V as <-. exact O. }
    assert (NF : forall x, ~ finished tr t x) by (intros x F; apply NE; left; exists x; exact F).
    assert (NG : ~ gone tr t) by (intros F; apply NE; right; exact F).
    assert (V : forall x, x <> t -> vw (list_set ths t (mkG (Ending (rest_of kd r)) false)) x = vw ths x).
    { intros x N. rewrite (vw_set _ _ _ _ _ G). apply Nat.eqb_neq in N. rewrite N. reflexivity. }
    assert (Vt : vw (list_set ths t (mkG (Ending (rest_of kd r)) false)) t = Some (end_view kd r)).
    { rewrite (vw_set _ _ _ _ _ G), Nat.eqb_refl. destruct kd, r; reflexivity. }
    assert (V0 : vw ths t = Some AIdle) by (unfold vw; rewrite G; reflexivity).
    assert (EF : forall x v, finished [end_event t r] x v -> x = t /\ r = Returned v).
    { intros x v [F|[]]. destruct r; try discriminate F. injection F as -> ->. split; reflexivity. }
    assert (EG : forall x, gone [end_event t r] x -> x = t /\ forall v, r <> Returned v).
    { intros x [[F|[]]|[F|[]]]; destruct r; try discriminate F; injection F as ->; (split; [reflexivity|discriminate]). }
    assert (GN : (forall v, r <> Returned v) -> gone (tr ++ [end_event t r]) t).
    { intros N. destruct r as [v| |]; [destruct (N v eq_refl)|left|right]; apply in_or_app; right; left; reflexivity. }
    assert (QU : forall h, joined [end_event t r] h = [] /\ awaited [end_event t r] h = []).
    { intros h. destruct r; split; reflexivity. }
    assert (QJ : forall h, joined (tr ++ [end_event t r]) h = joined tr h).
    { intros h. rewrite joined_app. destruct (QU h) as [-> _]. apply app_nil_r. }
    assert (QA : forall h, awaited (tr ++ [end_event t r]) h = awaited tr h).
    { intros h. rewrite awaited_app. destruct (QU h) as [_ ->]. apply app_nil_r. }
    destruct I as [I1 I2 I3 I4 I5 I6 I7 I8 I9 I10 I11 I12 I14 I13].
    split.
    - rewrite list_set_length. exact I1.
    - exact I2.
    - intros x gx X. rewrite (nth_set _ _ _ _ _ G) in X. destruct (Nat.eqb_spec x t) as [->|N].
      + injection X as <-. exists kd. split; [exact K|]. destruct kd, r; constructor; auto.
      + apply I3. exact X.
    - intros x h. destruct (Nat.eq_dec x t) as [->|N]; [|rewrite (V _ N); apply I4].
      split; intros H.
      + rewrite Vt in H. destruct kd, r; discriminate H.
      + apply I4 in H. congruence.
    - exact I5.
    - exact I6.
    - intros x f p k rest w X. rewrite (nth_set _ _ _ _ _ G) in X. destruct (Nat.eqb_spec x t) as [->|N].
      + injection X as X. discriminate X.
      + eapply I7. exact X.
    - intros h ch x H. destruct (Nat.eq_dec x t) as [->|N]; [|rewrite (V _ N); apply I8; exact H].
      split; intros H'.
      + apply (I8 _ _ _ H) in H'. congruence.
      + rewrite Vt in H'. destruct kd, r; discriminate H'.
    - exact I9.
    - intros h ch H. specialize (I10 h ch H).
      destruct (nth_error owns h) as [[y|y]|] eqn:O.
      + apply phase_mono with ths; try exact I10; try apply QU. intros y' Y. congruence.
      + destruct (Nat.eq_dec y t) as [->|N].
        2:{ apply phase_mono with ths; try exact I10; try apply QU. intros y' Y.
            assert (y' = y) by congruence. subst y'. f_equal. apply V. exact N. }
        assert (KO := proj1 (I5 t h) O). destruct KO as (kd' & K' & Cc). assert (kd' = kd) by congruence. subst kd'.
        unfold phase in *. rewrite O in *. rewrite V0 in I10. rewrite Vt, QJ, QA.
        destruct kd as [|h'|h']; try discriminate Cc; cbn [chan_of] in Cc; injection Cc as ->.
        * rewrite (proj1 (I6 t h ch H) K) in I10 |- *.
          destruct I10 as (C & S & Q & J). split; [exact C|]. split; [apply spawned_app; exact S|].
          destruct r as [v| |]; cbn [end_view].
          -- split; [exact J|]. split; [exists v; apply in_or_app; right; left; reflexivity|]. split; [exact Q|discriminate].
          -- split; [exact Q|]. right. split; [apply GN; discriminate|exact J].
          -- split; [exact Q|]. right. split; [apply GN; discriminate|exact J].
        * destruct (zero ch) as [z|] eqn:Z; [|exfalso; exact (proj2 (I6 t h ch H) K Z)].
          destruct I10 as (S & Q & J & C). split; [apply spawned_future_app; exact S|].
          destruct r as [v| |]; cbn [end_view].
          -- split; [exact J|]. split; [apply in_or_app; right; left; reflexivity|]. split; [exact C|]. split; [exact Q|discriminate].
          -- split; [exact C|]. split; [exact Q|]. right. split; [apply GN; discriminate|exact J].
          -- split; [exact C|]. split; [exact Q|]. right. split; [apply GN; discriminate|exact J].
      + unfold phase in I10. rewrite O in I10. contradiction.
    - intros x F. destruct (Nat.eq_dec x t) as [->|N].
      + rewrite Vt. eexists. split; [reflexivity|]. destruct kd, r; exact I.
      + rewrite (V _ N). apply I11. destruct F as [(w & F)|F].
        * left. exists w. apply finished_app_inv in F. destruct F as [F|F]; [exact F|]. apply EF in F. destruct F as [F _]. contradiction.
        * right. apply gone_app_inv in F. destruct F as [F|F]; [exact F|]. apply EG in F. destruct F as [F _]. contradiction.
    - intros x w w' F F'. apply finished_app_inv in F, F'.
      destruct F as [F|F], F' as [F'|F'].
      + apply (I12 x); assumption.
      + apply EF in F'. destruct F' as [-> _]. exfalso. exact (NF _ F).
      + apply EF in F. destruct F as [-> _]. exfalso. exact (NF _ F').
      + apply EF in F, F'. destruct F as [_ F], F' as [_ F']. congruence.
    - intros x w F F'. apply finished_app_inv in F. apply gone_app_inv in F'.
      destruct F as [F|F], F' as [F'|F'].
      + exact (I14 _ _ F F').
      + apply EG in F'. destruct F' as [-> _]. exact (NF _ F).
      + apply EF in F. destruct F as [-> _]. exact (NG F').
      + apply EF in F. apply EG in F'. destruct F as [_ F], F' as [_ F']. exact (F' _ F).
    - intros h H. rewrite QJ, QA. apply I13. exact H.
  Qed.

  (** *** Spawn makes its channel *)
  Lemma nth_app_last {A} (l : list A) x i : nth_error (l ++ [x]) i = if i =? length l then Some x else nth_error l i.
  Proof.
    destruct (Nat.eqb_spec i (length l)) as [->|N].
    - rewrite nth_error_app2, Nat.sub_diag by lia. reflexivity.
    - destruct (Nat.lt_ge_cases i (length l)) as [L|L].
      + apply nth_error_app1. exact L.
      + rewrite nth_error_app2 by lia. destruct (i - length l) as [|n] eqn:E; [lia|].
        replace (nth_error l i) with (@None A) by (symmetry; apply nth_error_None; lia).
        destruct n; reflexivity.
  Qed.
  Lemma nth_lt {A} (l : list A) i x : nth_error l i = Some x -> i < length l.
  Proof. intros H. apply nth_error_Some. congruence. Qed.
  Lemma kind_of_chan_app chs x h z : kind_of_chan chs h z -> kind_of_chan (chs ++ [x]) h z.
  Proof. intros (ch & H & Z). exists ch. split; [|exact Z]. rewrite nth_error_app1; [exact H|exact (nth_lt _ _ _ H)]. Qed.
  Lemma call_ok_app chs x f p : call_ok chs f p -> call_ok (chs ++ [x]) f p.
  Proof.
    destruct f; cbn; try exact (fun H => H); try apply kind_of_chan_app.
    - intros H r q h E. apply kind_of_chan_app. exact (H _ _ _ E).
    - intros H r q h E. apply kind_of_chan_app. exact (H _ _ _ E).
    - intros (z & H). exists z. apply kind_of_chan_app. exact H.
  Qed.
  Lemma make_step ths chs tr kinds owns t kd f p p' k z :
    AInv ths chs tr kinds owns -> nth_error ths t = Some (mkG (Inside f p k (rest_of kd)) false) ->
    nth_error kinds t = Some kd -> abs (mkG (Inside f p k (rest_of kd)) false) = AIdle ->
    sub f p' -> abs (mkG (Inside f p' k (rest_of kd)) false) = AGo (length chs) ->
    call_ok (chs ++ [mkChan z [] [] false]) f p' ->
    AInv (list_set ths t (mkG (Inside f p' k (rest_of kd)) false)) (chs ++ [mkChan z [] [] false]) tr kinds (owns ++ [Pre t]).
  Proof.
    intros I G K A0 S A1 C.
    set (g' := mkG (Inside f p' k (rest_of kd)) false) in *.
    assert (V : forall x, x <> t -> vw (list_set ths t g') x = vw ths x).
    { intros x N. rewrite (vw_set _ _ _ _ _ G). apply Nat.eqb_neq in N. rewrite N. reflexivity. }
    assert (Vt : vw (list_set ths t g') t = Some (AGo (length chs))).
    { rewrite (vw_set _ _ _ _ _ G), Nat.eqb_refl, A1. reflexivity. }
    assert (V0 : vw ths t = Some AIdle) by (unfold vw; rewrite G; cbn [option_map]; rewrite A0; reflexivity).
    destruct I as [I1 I2 I3 I4 I5 I6 I7 I8 I9 I10 I11 I12 I14 I13].
    split.
    - rewrite list_set_length. exact I1.
    - rewrite !app_length. cbn. lia.
    - intros x gx X. rewrite (nth_set _ _ _ _ _ G) in X. destruct (Nat.eqb_spec x t) as [->|N].
      + injection X as <-. exists kd. split; [exact K|]. constructor; [exact S|discriminate].
      + apply I3. exact X.
    - intros x h. rewrite nth_app_last, I2. destruct (Nat.eqb_spec h (length chs)) as [->|Nh].
      + destruct (Nat.eq_dec x t) as [->|N].
        * rewrite Vt. split; reflexivity.
        * rewrite (V _ N). split; intros H; [|injection H as ->; contradiction].
          apply I4 in H. apply nth_lt in H. lia.
      + destruct (Nat.eq_dec x t) as [->|N].
        * rewrite Vt. split; intros H; [injection H as H; congruence|]. apply I4 in H. congruence.
        * rewrite (V _ N). apply I4.
    - intros x h. rewrite nth_app_last, I2. destruct (Nat.eqb_spec h (length chs)) as [->|Nh]; [|apply I5].
      split; [discriminate|]. intros H. apply I5 in H. apply nth_lt in H. lia.
    - intros x h ch H. rewrite nth_app_last in H. destruct (Nat.eqb_spec h (length chs)) as [->|Nh]; [|exact (I6 _ _ _ H)].
      split; intros H'; exfalso.
      + assert (B := proj2 (I5 x (length chs)) (ex_intro _ _ (conj H' eq_refl))). apply nth_lt in B. lia.
      + assert (B := proj2 (I5 x (length chs)) (ex_intro _ _ (conj H' eq_refl))). apply nth_lt in B. lia.
    - intros x f0 p0 k0 rest w X. rewrite (nth_set _ _ _ _ _ G) in X. destruct (Nat.eqb_spec x t) as [->|N].
      + injection X as <- <- <- <- <-. exact C.
      + apply call_ok_app. eapply I7. exact X.
    - intros h ch x H. rewrite nth_app_last in H. destruct (Nat.eqb_spec h (length chs)) as [->|Nh].
      + injection H as <-. cbn [recvq]. split; [intros []|]. intros H.
        destruct (Nat.eq_dec x t) as [->|N]; [congruence|]. rewrite (V _ N) in H.
        unfold vw in H. destruct (nth_error ths x) as [gx|] eqn:X; [|discriminate].
        injection H as H. destruct (I3 _ _ X) as (kx & _ & Sx).
        destruct Sx; try discriminate H. destruct H0; try discriminate H.
        destruct f0; try discriminate H; cbn [abs code body p_Join p_Await] in H;
          destruct w; try discriminate H; injection H as ->.
        * destruct (I7 _ _ _ _ _ _ X) as (c0 & B & _). apply nth_lt in B. lia.
        * destruct (I7 _ _ _ _ _ _ X) as (z0 & c0 & B & _). apply nth_lt in B. lia.
      + destruct (Nat.eq_dec x t) as [->|N]; [|rewrite (V _ N); apply I8; exact H].
        rewrite Vt. split; intros H'; [apply (I8 _ _ _ H) in H'; congruence|discriminate].
    - intros h ch H. rewrite nth_app_last in H. destruct (Nat.eqb_spec h (length chs)) as [->|Nh]; [|exact (I9 _ _ H)].
      injection H as <-. constructor.
    - intros h ch H. rewrite nth_app_last in H. destruct (Nat.eqb_spec h (length chs)) as [->|Nh].
      + injection H as <-. unfold phase. rewrite nth_app_last, I2, Nat.eqb_refl. cbn. destruct (I13 _ (le_n _)). auto.
      + specialize (I10 _ _ H). assert (O : nth_error (owns ++ [Pre t]) h = nth_error owns h).
        { rewrite nth_app_last, I2. apply Nat.eqb_neq in Nh. rewrite Nh. reflexivity. }
        assert (P : phase (list_set ths t g') (tr ++ []) (owns ++ [Pre t]) h ch); [|rewrite app_nil_r in P; exact P].
        apply phase_mono with ths; try reflexivity.
        * rewrite O. intros y Y. destruct (Nat.eq_dec y t) as [->|N]; [|f_equal; apply V; exact N].
          rewrite Vt, V0. reflexivity.
        * unfold phase. rewrite O. exact I10.
    - intros x F. destruct (I11 _ F) as (a & A & B). destruct (Nat.eq_dec x t) as [->|N].
      + rewrite V0 in A. injection A as <-. contradiction.
      + rewrite (V _ N). exists a. split; assumption.
    - exact I12.
    - exact I14.
    - intros h H. rewrite app_length in H. apply I13. lia.
  Qed.

  (** *** Spawn starts its goroutine and returns *)
  Lemma go_step ths chs tr kinds owns t kd g u h z kd' k e :
    AInv ths chs tr kinds owns -> nth_error ths t = Some g -> nth_error kinds t = Some kd -> abs g = AGo h ->
    kind_of_chan chs h z -> kd' = match z with None => KJoin h | Some _ => KFut h end ->
    quiet e ->
    match z with None => spawned e h (length ths) | Some z => spawned_future e h (length ths) z end ->
    AInv (list_set (ths ++ [mkG (Running u (rest_of kd')) false]) t (mkG (Running k (rest_of kd)) false)) chs (tr ++ e)
      (kinds ++ [kd']) (list_set owns h (Post (length ths))).
  Proof.
    intros I G K A0 (ch0 & CH & Z) KD Q SP.
    set (new := mkG (Running u (rest_of kd')) false). set (n := length ths).
    assert (Lt := nth_lt _ _ _ G).
    assert (G1 : nth_error (ths ++ [new]) t = Some g) by (rewrite nth_error_app1; [exact G|exact Lt]).
    assert (V : forall x, vw (list_set (ths ++ [new]) t (mkG (Running k (rest_of kd)) false)) x =
      if x =? t then Some AIdle else if x =? n then Some AIdle else vw ths x).
    { intros x. rewrite (vw_set _ _ _ _ _ G1). destruct (x =? t); [reflexivity|].
      unfold vw. rewrite nth_app_last. fold n. destruct (x =? n); reflexivity. }
    assert (V0 : vw ths t = Some (AGo h)) by (unfold vw; rewrite G; cbn [option_map]; rewrite A0; reflexivity).
    assert (Vn : vw ths n = None).
    { unfold vw. replace (nth_error ths n) with (@None goroutine) by (symmetry; apply nth_error_None; unfold n; lia). reflexivity. }
    assert (NV : forall x, norm (vw (list_set (ths ++ [new]) t (mkG (Running k (rest_of kd)) false)) x) = norm (vw ths x)).
    { intros x. rewrite V. destruct (Nat.eqb_spec x t) as [->|N]; [rewrite V0; reflexivity|].
      destruct (Nat.eqb_spec x n) as [->|N']; [rewrite Vn; reflexivity|reflexivity]. }
    assert (O : nth_error owns h = Some (Pre t)) by (apply (a_go _ _ _ _ _ I); exact V0).
    assert (Lh := nth_lt _ _ _ O).
    assert (OS : forall x, nth_error (list_set owns h (Post n)) x = if x =? h then Some (Post n) else nth_error owns x).
    { intros x. rewrite nth_error_list_set. rewrite (Nat.eqb_sym h x). destruct (Nat.eqb_spec x h) as [->|N]; [|reflexivity].
      destruct (Nat.ltb_spec h (length owns)); [reflexivity|lia]. }
    destruct I as [I1 I2 I3 I4 I5 I6 I7 I8 I9 I10 I11 I12 I14 I13].
    assert (KS : forall x, nth_error (kinds ++ [kd']) x = if x =? n then Some kd' else nth_error kinds x).
    { intros x. rewrite nth_app_last, I1. reflexivity. }
    assert (Kn : nth_error kinds n = None) by (apply nth_error_None; unfold n; lia).
    split.
    - rewrite list_set_length, !app_length. cbn. lia.
    - rewrite list_set_length. exact I2.
    - intros x gx X. rewrite (nth_set _ _ _ _ _ G1) in X. rewrite KS. destruct (Nat.eqb_spec x t) as [->|N].
      + injection X as <-. destruct (Nat.eqb_spec t n); [unfold n in *; lia|]. exists kd. split; [exact K|constructor].
      + rewrite nth_app_last in X. fold n in X. destruct (Nat.eqb_spec x n) as [->|N'].
        * injection X as <-. exists kd'. split; [reflexivity|constructor].
        * apply I3. exact X.
    - intros x y. rewrite V, OS. destruct (Nat.eqb_spec x t) as [->|N].
      + split; [discriminate|]. destruct (Nat.eqb_spec y h) as [->|Ny]; [discriminate|]. intros H. apply I4 in H. congruence.
      + destruct (Nat.eqb_spec x n) as [->|N'].
        * split; [discriminate|]. destruct (Nat.eqb_spec y h) as [->|Ny]; [discriminate|]. intros H. apply I4 in H. congruence.
        * destruct (Nat.eqb_spec y h) as [->|Ny]; [|apply I4].
          split; intros H; [|discriminate]. apply I4 in H. congruence.
    - intros x y. rewrite OS. split.
      + destruct (Nat.eqb_spec y h) as [->|Ny]; intros H.
        * injection H as <-. exists kd'. rewrite KS, Nat.eqb_refl. split; [reflexivity|]. rewrite KD. destruct z; reflexivity.
        * apply I5 in H. destruct H as (kx & H1 & H2). exists kx. rewrite KS. destruct (Nat.eqb_spec x n) as [->|N']; [congruence|]. split; assumption.
      + intros (kx & H1 & H2). rewrite KS in H1. destruct (Nat.eqb_spec x n) as [->|N'].
        * injection H1 as <-. rewrite KD in H2. assert (y = h) by (destruct z; cbn in H2; congruence). subst y.
          rewrite Nat.eqb_refl. reflexivity.
        * assert (H3 := proj2 (I5 x y) (ex_intro _ kx (conj H1 H2))).
          destruct (Nat.eqb_spec y h) as [->|Ny]; [congruence|exact H3].
    - intros x y ch H. rewrite KS. destruct (Nat.eqb_spec x n) as [->|N']; [|apply I6; exact H].
      split; intros H'.
      + injection H' as H'. rewrite KD in H'. destruct z; [discriminate|]. injection H' as ->. congruence.
      + injection H' as H'. rewrite KD in H'. destruct z; [|discriminate]. injection H' as ->. congruence.
    - intros x f p k0 rest w X. rewrite (nth_set _ _ _ _ _ G1) in X. destruct (Nat.eqb_spec x t) as [->|N]; [discriminate|].
      rewrite nth_app_last in X. destruct (x =? length ths); [discriminate|]. eapply I7. exact X.
    - intros y ch x H. rewrite V. destruct (Nat.eqb_spec x t) as [->|N].
      + split; [|discriminate]. intros H'. apply (I8 _ _ _ H) in H'. congruence.
      + destruct (Nat.eqb_spec x n) as [->|N']; [|apply I8; exact H].
        split; [|discriminate]. intros H'. apply (I8 _ _ _ H) in H'. congruence.
    - exact I9.
    - intros y ch H. specialize (I10 y ch H). destruct (Nat.eq_dec y h) as [->|Ny].
      + assert (ch0 = ch) by congruence. subst ch0. unfold phase in *. rewrite OS, Nat.eqb_refl. rewrite O in I10.
        destruct I10 as (P1 & P2 & P3 & P4). rewrite Z.
        rewrite (quiet_joined _ _ _ Q), (quiet_awaited _ _ _ Q), V.
        assert (SP' : match z with None => spawned (tr ++ e) h n | Some z => spawned_future (tr ++ e) h n z end).
        { destruct z as [z|].
          - destruct SP as (x & f & a & b & ->). exists x, f, (tr ++ a), b. rewrite <- app_assoc. reflexivity.
          - destruct SP as (x & f & a & b & ->). exists x, f, (tr ++ a), b. rewrite <- app_assoc. reflexivity. }
        destruct (Nat.eqb_spec n t); [unfold n in *; lia|]. rewrite Nat.eqb_refl.
        destruct z as [z|]; repeat split; assumption.
      + assert (P : phase (list_set (ths ++ [new]) t (mkG (Running k (rest_of kd)) false)) (tr ++ e) owns y ch).
        { apply phase_mono with ths; [intros; apply NV| | |exact I10]; apply Q. }
        unfold phase in P |- *. rewrite OS. apply Nat.eqb_neq in Ny. rewrite Ny. exact P.
    - intros x F. apply (noend_ended _ _ _ (proj2 Q)) in F. destruct (I11 _ F) as (a & A & B). rewrite V.
      destruct (Nat.eqb_spec x t) as [->|N]; [rewrite V0 in A; injection A as <-; contradiction|].
      destruct (Nat.eqb_spec x n) as [->|N']; [congruence|]. exists a. split; assumption.
    - intros x v w F F'. apply (I12 x); apply (quiet_finished _ e); assumption.
    - intros x v F F'. apply (I14 x v); [apply (quiet_finished _ e)|apply (noend_gone _ e x (proj2 Q))]; assumption.
    - intros y H. rewrite (quiet_joined _ _ _ Q), (quiet_awaited _ _ _ Q). apply I13. exact H.
  Qed.

  (** *** The sender waits *)
  Lemma send_park ths chs tr kinds owns t h ch p v :
    AInv ths chs tr kinds owns -> nth_error ths t = Some (mkG (Ending p) false) -> abs (mkG (Ending p) false) = ASend v false ->
    nth_error owns h = Some (Post t) -> nth_error chs h = Some ch -> recvq ch = [] ->
    AInv (list_set ths t (mkG (Ending p) true))
      (list_set chs h (mkChan (zero ch) (sendq ch ++ [(t, v)]) [] (closed ch))) tr kinds owns.
  Proof.
    intros I G A0 O CH R.
    assert (A1 : abs (mkG (Ending p) true) = ASend v true) by (destruct p; try discriminate A0; injection A0 as ->; reflexivity).
    assert (V : forall x, vw (list_set ths t (mkG (Ending p) true)) x = if x =? t then Some (ASend v true) else vw ths x).
    { intros x. rewrite (vw_set _ _ _ _ _ G), A1. reflexivity. }
    assert (V0 : vw ths t = Some (ASend v false)) by (unfold vw; rewrite G; cbn [option_map]; rewrite A0; reflexivity).
    set (ch' := mkChan (zero ch) (sendq ch ++ [(t, v)]) [] (closed ch)).
    assert (CS : forall x, nth_error (list_set chs h ch') x = if x =? h then Some ch' else nth_error chs x).
    { intros x. apply (chan_set _ _ _ _ _ CH). }
    assert (U := fun h' => owner_unique _ _ _ _ _ h h' t I O).
    destruct I as [I1 I2 I3 I4 I5 I6 I7 I8 I9 I10 I11 I12 I14 I13].
    split.
    - rewrite list_set_length. exact I1.
    - rewrite list_set_length. exact I2.
    - intros x gx X. rewrite (nth_set _ _ _ _ _ G) in X. destruct (Nat.eqb_spec x t) as [->|N]; [|apply I3; exact X].
      injection X as <-. destruct (I3 _ _ G) as (kd & K & S). exists kd. split; [exact K|].
      inversion S; subst; try discriminate A0; constructor.
    - intros x y. rewrite V. destruct (Nat.eqb_spec x t) as [->|N]; [|apply I4].
      split; [discriminate|]. intros H. apply I4 in H. congruence.
    - exact I5.
    - intros x y c H. rewrite CS in H. destruct (Nat.eqb_spec y h) as [->|Ny]; [|apply I6; exact H].
      injection H as <-. exact (I6 x h ch CH).
    - intros x f q k0 rest w X. rewrite (nth_set _ _ _ _ _ G) in X. destruct (Nat.eqb_spec x t) as [->|N]; [discriminate|].
      specialize (I7 _ _ _ _ _ _ X).
      assert (KC : forall y z, kind_of_chan chs y z -> kind_of_chan (list_set chs h ch') y z).
      { intros y z (c & C1 & C2). unfold kind_of_chan. rewrite CS. destruct (Nat.eqb_spec y h) as [->|Ny].
        - exists ch'. split; [reflexivity|]. cbn. congruence.
        - exists c. split; assumption. }
      destruct f; cbn in I7 |- *; auto.
      + intros; eapply KC, I7; eassumption.
      + intros; eapply KC, I7; eassumption.
      + destruct I7 as (z & I7). exists z. apply KC. exact I7.
    - intros y c x H. rewrite CS in H. rewrite V. destruct (Nat.eqb_spec y h) as [->|Ny].
      + injection H as <-. cbn. split; [intros []|]. destruct (Nat.eqb_spec x t) as [->|N]; [discriminate|].
        intros H. apply (I8 _ _ _ CH) in H. rewrite R in H. exact H.
      + destruct (Nat.eqb_spec x t) as [->|N]; [|apply I8; exact H].
        split; [|discriminate]. intros H'. apply (I8 _ _ _ H) in H'. congruence.
    - intros y c H. rewrite CS in H. destruct (Nat.eqb_spec y h) as [->|Ny]; [|exact (I9 _ _ H)].
      injection H as <-. constructor.
    - intros y c H. rewrite CS in H. destruct (Nat.eqb_spec y h) as [->|Ny].
      + injection H as <-. specialize (I10 _ _ CH). unfold phase in *. rewrite O in *. rewrite V, Nat.eqb_refl.
        rewrite V0 in I10. unfold ch'. cbn [zero sendq recvq closed]. destruct (zero ch) as [z|].
        * destruct I10 as (S & P1 & P2 & P3 & P4 & P5). rewrite P4. repeat split; assumption.
        * destruct I10 as (C & S & P1 & P2 & P4 & P5). rewrite P4. repeat split; assumption.
      + specialize (I10 _ _ H).
        assert (P : phase (list_set ths t (mkG (Ending p) true)) (tr ++ []) owns y c); [|rewrite app_nil_r in P; exact P].
        apply phase_mono with ths; try reflexivity; [|exact I10]. intros x X. rewrite V.
        destruct (Nat.eqb_spec x t) as [->|N]; [|reflexivity]. exfalso. apply Ny. symmetry. apply U. exact X.
    - intros x F. destruct (I11 _ F) as (a & A & B). rewrite V. destruct (Nat.eqb_spec x t) as [->|N].
      + eexists. split; [reflexivity|]. exact I.
      + exists a. split; assumption.
    - exact I12.
    - exact I14.
    - rewrite list_set_length. exact I13.
  Qed.

  Lemma call_ok_set chs h ch ch' f p : nth_error chs h = Some ch -> zero ch' = zero ch ->
    call_ok chs f p -> call_ok (list_set chs h ch') f p.
  Proof.
    intros CH Z.
    assert (KC : forall y z, kind_of_chan chs y z -> kind_of_chan (list_set chs h ch') y z).
    { intros y z (c & C1 & C2). unfold kind_of_chan. rewrite (chan_set _ _ _ _ _ CH). destruct (Nat.eqb_spec y h) as [->|Ny].
      - exists ch'. split; [reflexivity|]. congruence.
      - exists c. split; assumption. }
    destruct f; cbn; intros H; auto.
    - intros; eapply KC, H; eassumption.
    - intros; eapply KC, H; eassumption.
    - destruct H as (z & H). exists z. apply KC. exact H.
  Qed.

  Lemma NoDup_app_snoc {A} (l : list A) x : NoDup l -> ~ In x l -> NoDup (l ++ [x]).
  Proof.
    induction l as [|y l IH]; intros N H; cbn; [constructor; [intros []|constructor]|].
    inversion N; subst. constructor.
    - rewrite in_app_iff. intros [B|[B|[]]]; [contradiction|]. subst. apply H. left. reflexivity.
    - apply IH; [assumption|]. intros B. apply H. right. exact B.
  Qed.

  (** *** A value goes from the sender to a receiver *)
  Lemma transfer ths chs tr kinds owns s r h ch p p' v w gr k kdr q e kds :
    AInv ths chs tr kinds owns ->
    nth_error ths s = Some (mkG (Ending p) w) -> abs (mkG (Ending p) w) = ASend v w ->
    nth_error kinds s = Some kds -> shape kds (mkG (Ending p') false) ->
    abs (mkG (Ending p') false) = (match zero ch with None => ADone | Some _ => AClose end) ->
    nth_error owns h = Some (Post s) -> nth_error chs h = Some ch ->
    nth_error ths r = Some gr -> nth_error kinds r = Some kdr -> abs gr = (if w then AIdle else AWait h) ->
    (if w then q = recvq ch else recvq ch = r :: q) ->
    (forall x, x <> h -> joined e x = [] /\ awaited e x = []) ->
    match zero ch with None => exists x, joined e h = [x] | Some _ => awaited e h = [v] end ->
    noend e ->
    AInv (list_set (list_set ths s (mkG (Ending p') false)) r (mkG (Running k (rest_of kdr)) false))
      (list_set chs h (mkChan (zero ch) [] q (closed ch))) (tr ++ e) kinds owns.
  Proof.
    intros I GS A0 KS SH A1 O CH GR KR AR Hq E1 E2 E3.
    assert (NE : r <> s).
    { intros ->. rewrite GS in GR. injection GR as <-. rewrite AR in A0. destruct w; discriminate. }
    set (gs' := mkG (Ending p') false) in *. set (gr' := mkG (Running k (rest_of kdr)) false).
    assert (GR1 : nth_error (list_set ths s gs') r = Some gr).
    { rewrite (nth_set _ _ _ _ _ GS). apply Nat.eqb_neq in NE. rewrite NE. exact GR. }
    set (as' := match zero ch with None => ADone | Some _ => AClose end) in *.
    assert (N : forall x, nth_error (list_set (list_set ths s gs') r gr') x =
      if x =? r then Some gr' else if x =? s then Some gs' else nth_error ths x).
    { intros x. rewrite (nth_set _ _ _ _ _ GR1), (nth_set _ _ _ _ _ GS). reflexivity. }
    assert (V : forall x, vw (list_set (list_set ths s gs') r gr') x =
      if x =? r then Some AIdle else if x =? s then Some as' else vw ths x).
    { intros x. unfold vw. rewrite N. destruct (x =? r); [reflexivity|]. destruct (x =? s); [|reflexivity].
      cbn [option_map]. rewrite A1. reflexivity. }
    assert (VS : vw ths s = Some (ASend v w)) by (unfold vw; rewrite GS; cbn [option_map]; rewrite A0; reflexivity).
    assert (VR : vw ths r = Some (if w then AIdle else AWait h)) by (unfold vw; rewrite GR; cbn [option_map]; rewrite AR; reflexivity).
    set (ch' := mkChan (zero ch) [] q (closed ch)).
    assert (CS : forall x, nth_error (list_set chs h ch') x = if x =? h then Some ch' else nth_error chs x).
    { intros x. apply (chan_set _ _ _ _ _ CH). }
    assert (U := fun h' => owner_unique _ _ _ _ _ h h' s I O).
    destruct I as [I1 I2 I3 I4 I5 I6 I7 I8 I9 I10 I11 I12 I14 I13].
    assert (PH := I10 _ _ CH). unfold phase in PH. rewrite O, VS in PH.
    assert (FE : forall x y, finished (tr ++ e) x y -> finished tr x y) by (intros x y; apply noend_finished; exact E3).
    assert (FG : forall x, gone (tr ++ e) x -> gone tr x) by (intros x; apply noend_gone; exact E3).
    assert (FN : forall x, ended (tr ++ e) x -> ended tr x) by (intros x; apply noend_ended; exact E3).
    split.
    - rewrite !list_set_length. exact I1.
    - rewrite list_set_length. exact I2.
    - intros x gx X. rewrite N in X. destruct (Nat.eqb_spec x r) as [->|Nr].
      + injection X as <-. exists kdr. split; [exact KR|constructor].
      + destruct (Nat.eqb_spec x s) as [->|Ns]; [|apply I3; exact X].
        injection X as <-. exists kds. split; assumption.
    - intros x y. rewrite V. destruct (Nat.eqb_spec x r) as [->|Nr].
      + split; [discriminate|]. intros H. apply I4 in H. rewrite VR in H. destruct w; discriminate.
      + destruct (Nat.eqb_spec x s) as [->|Ns]; [|apply I4].
        split; [unfold as'; destruct (zero ch); discriminate|]. intros H. apply I4 in H. congruence.
    - exact I5.
    - intros x y c H. rewrite CS in H. destruct (Nat.eqb_spec y h) as [->|Ny]; [|apply I6; exact H].
      injection H as <-. exact (I6 x h ch CH).
    - intros x f p0 k0 rest w0 X. rewrite N in X. destruct (Nat.eqb_spec x r); [discriminate|].
      destruct (Nat.eqb_spec x s); [discriminate|].
      apply (call_ok_set _ _ ch); [exact CH|reflexivity|]. eapply I7. exact X.
    - intros y c x H. rewrite CS in H. rewrite V. destruct (Nat.eqb_spec y h) as [->|Ny].
      + injection H as <-. cbn [recvq ch'].
        destruct (Nat.eqb_spec x r) as [->|Nr].
        * split; [|discriminate]. intros H. exfalso. destruct w.
          -- rewrite Hq in H. apply (I8 _ _ _ CH) in H. congruence.
          -- assert (ND := I9 _ _ CH). rewrite Hq in ND. inversion ND. contradiction.
        * destruct (Nat.eqb_spec x s) as [->|Ns].
          -- split; [|unfold as'; destruct (zero ch); discriminate]. intros H. exfalso.
             assert (H' : In s (recvq ch)) by (destruct w; [congruence|rewrite Hq; right; exact H]).
             apply (I8 _ _ _ CH) in H'. congruence.
          -- rewrite <- (I8 _ _ x CH). destruct w; [subst q; reflexivity|]. rewrite Hq. cbn [In]. split; [auto|].
             intros [H|H]; [congruence|exact H].
      + destruct (Nat.eqb_spec x r) as [->|Nr].
        * split; [|discriminate]. intros H'. apply (I8 _ _ _ H) in H'. rewrite VR in H'. destruct w; congruence.
        * destruct (Nat.eqb_spec x s) as [->|Ns]; [|apply I8; exact H].
          split; [|unfold as'; destruct (zero ch); discriminate]. intros H'. apply (I8 _ _ _ H) in H'. congruence.
    - intros y c H. rewrite CS in H. destruct (Nat.eqb_spec y h) as [->|Ny]; [|exact (I9 _ _ H)].
      injection H as <-. cbn [recvq ch']. assert (ND := I9 _ _ CH). destruct w; [subst q; exact ND|].
      rewrite Hq in ND. inversion ND. assumption.
    - intros y c H. rewrite CS in H. destruct (Nat.eqb_spec y h) as [->|Ny].
      + injection H as <-. unfold phase. rewrite O, V. cbn [ch' zero sendq recvq closed].
        replace (s =? r) with false by (symmetry; apply Nat.eqb_neq; congruence). rewrite Nat.eqb_refl. unfold as'.
        destruct (zero ch) as [z|].
        * destruct PH as (S & P1 & P2 & P3 & P4 & P5). split; [apply spawned_future_app; exact S|].
          split; [exact P3|]. split; [reflexivity|]. left. exists v. rewrite awaited_app, P1, E2.
          split; [reflexivity|apply finished_app; exact P2].
        * destruct PH as (C & S & P1 & (x & P2) & P4 & P5). split; [exact C|]. split; [apply spawned_app; exact S|].
          split; [reflexivity|]. left. split; [exists x; apply finished_app; exact P2|]. rewrite joined_app, P1. exact E2.
      + apply phase_mono with ths; [|apply E1; exact Ny|apply E1; exact Ny|exact (I10 _ _ H)].
        intros x X. rewrite V. destruct (Nat.eqb_spec x r) as [->|Nr]; [rewrite VR; destruct w; reflexivity|].
        destruct (Nat.eqb_spec x s) as [->|Ns]; [|reflexivity]. exfalso. apply Ny. symmetry. apply U. exact X.
    - intros x F. apply FN in F. destruct (I11 _ F) as (a & A & B). rewrite V.
      destruct (Nat.eqb_spec x r) as [->|Nr]; [rewrite VR in A; injection A as <-; destruct w; contradiction|].
      destruct (Nat.eqb_spec x s) as [->|Ns].
      + eexists. split; [reflexivity|]. unfold as'. destruct (zero ch); exact I.
      + exists a. split; assumption.
    - intros x y y' F F'. apply (I12 x); apply FE; assumption.
    - intros x y F F'. apply (I14 x y); [apply FE|apply FG]; assumption.
    - intros y H. rewrite list_set_length in H. assert (y <> h) by (intros ->; apply nth_lt in CH; lia).
      rewrite joined_app, awaited_app. destruct (E1 y) as [-> ->]; [assumption|]. rewrite !app_nil_r. apply I13. exact H.
  Qed.

  (** *** A receive from a closed channel *)
  Lemma zero_step ths chs tr kinds owns t h ch g k kd z e :
    AInv ths chs tr kinds owns -> nth_error ths t = Some g -> nth_error kinds t = Some kd -> abs g = AIdle ->
    nth_error chs h = Some ch -> zero ch = Some z -> closed ch = true ->
    (forall x, x <> h -> joined e x = [] /\ awaited e x = []) -> awaited e h = [z] -> joined e h = [] ->
    noend e ->
    AInv (list_set ths t (mkG (Running k (rest_of kd)) false)) chs (tr ++ e) kinds owns.
  Proof.
    intros I G K A0 CH Z C E1 E2 EJ E3.
    assert (V : forall x, vw (list_set ths t (mkG (Running k (rest_of kd)) false)) x = vw ths x).
    { intros x. rewrite (vw_set _ _ _ _ _ G). destruct (Nat.eqb_spec x t) as [->|N]; [|reflexivity].
      unfold vw. rewrite G. cbn [option_map]. rewrite A0. reflexivity. }
    destruct I as [I1 I2 I3 I4 I5 I6 I7 I8 I9 I10 I11 I12 I14 I13].
    assert (FE : forall x y, finished (tr ++ e) x y -> finished tr x y) by (intros x y; apply noend_finished; exact E3).
    assert (FG : forall x, gone (tr ++ e) x -> gone tr x) by (intros x; apply noend_gone; exact E3).
    assert (FN : forall x, ended (tr ++ e) x -> ended tr x) by (intros x; apply noend_ended; exact E3).
    split.
    - rewrite list_set_length. exact I1.
    - exact I2.
    - intros x gx X. rewrite (nth_set _ _ _ _ _ G) in X. destruct (Nat.eqb_spec x t) as [->|N]; [|apply I3; exact X].
      injection X as <-. exists kd. split; [exact K|constructor].
    - intros x y. rewrite V. apply I4.
    - exact I5.
    - exact I6.
    - intros x f p k0 rest w X. rewrite (nth_set _ _ _ _ _ G) in X. destruct (Nat.eqb_spec x t) as [->|N]; [discriminate|].
      eapply I7. exact X.
    - intros y c x H. rewrite V. apply I8. exact H.
    - exact I9.
    - intros y c H. destruct (Nat.eq_dec y h) as [->|Ny].
      + assert (c = ch) by congruence. subst c. specialize (I10 _ _ CH). unfold phase in *.
        destruct (nth_error owns h) as [[u|u]|]; [destruct I10 as (_ & X & _); congruence| |exact I10].
        rewrite Z in *. destruct I10 as [S P]. split; [apply spawned_future_app; exact S|]. rewrite V.
        destruct (vw ths u) as [[| | |x w| |]|].
        * destruct P as (_ & _ & X); congruence.
        * destruct P as (_ & _ & X); congruence.
        * destruct P as (_ & _ & X); congruence.
        * destruct P as (_ & _ & X & _); congruence.
        * destruct P as (X & _); congruence.
        * destruct P as (P1 & P2 & PR & n & P3). split; [exact P1|]. split; [exact P2|]. split; [exact PR|]. exists (n + 1).
          rewrite awaited_app, E2. destruct P3 as [(v & P3 & P4)|[P3 P4]]; [left; exists v|right]; rewrite repeat_app.
          -- rewrite P3. split; [reflexivity|apply finished_app; exact P4].
          -- rewrite P4. split; [apply gone_app; exact P3|reflexivity].
        * destruct P as (_ & _ & X); congruence.
      + apply phase_mono with ths; [intros; f_equal; apply V|apply E1; exact Ny|apply E1; exact Ny|apply I10; exact H].
    - intros x F. rewrite V. apply I11. apply FN. exact F.
    - intros x y y' F F'. apply (I12 x); apply FE; assumption.
    - intros x y F F'. apply (I14 x y); [apply FE|apply FG]; assumption.
    - intros y H. assert (y <> h) by (intros ->; apply nth_lt in CH; lia).
      rewrite joined_app, awaited_app. destruct (E1 y) as [-> ->]; [assumption|]. rewrite !app_nil_r. apply I13. exact H.
  Qed.

  (** *** A receiver waits *)
  Lemma recv_park ths chs tr kinds owns t h ch f p k kd :
    AInv ths chs tr kinds owns -> nth_error ths t = Some (mkG (Inside f p k (rest_of kd)) false) ->
    (exists q, p = Recv h q) -> nth_error chs h = Some ch -> sendq ch = [] -> closed ch = false ->
    AInv (list_set ths t (mkG (Inside f p k (rest_of kd)) true))
      (list_set chs h (mkChan (zero ch) [] (recvq ch ++ [t]) (closed ch))) tr kinds owns.
  Proof.
    intros I G (q & ->) CH SQ C.
    set (g' := mkG (Inside f (Recv h q) k (rest_of kd)) true) in *.
    assert (V : forall x, vw (list_set ths t g') x = if x =? t then Some (AWait h) else vw ths x).
    { intros x. rewrite (vw_set _ _ _ _ _ G). reflexivity. }
    assert (V0 : vw ths t = Some AIdle) by (unfold vw; rewrite G; reflexivity).
    assert (NV : forall x, norm (vw (list_set ths t g') x) = norm (vw ths x)).
    { intros x. rewrite V. destruct (Nat.eqb_spec x t) as [->|N]; [rewrite V0|]; reflexivity. }
    set (ch' := mkChan (zero ch) [] (recvq ch ++ [t]) (closed ch)).
    assert (CS : forall x, nth_error (list_set chs h ch') x = if x =? h then Some ch' else nth_error chs x).
    { intros x. apply (chan_set _ _ _ _ _ CH). }
    destruct I as [I1 I2 I3 I4 I5 I6 I7 I8 I9 I10 I11 I12 I14 I13].
    split.
    - rewrite list_set_length. exact I1.
    - rewrite list_set_length. exact I2.
    - intros x gx X. rewrite (nth_set _ _ _ _ _ G) in X. destruct (Nat.eqb_spec x t) as [->|N]; [|apply I3; exact X].
      injection X as <-. destruct (I3 _ _ G) as (kx & K & S). exists kx. split; [exact K|].
      inversion S; subst; unfold g'; match goal with E : rest_of _ = rest_of _ |- _ => rewrite <- E end;
        constructor; [assumption|intros; eauto].
    - intros x y. rewrite V. destruct (Nat.eqb_spec x t) as [->|N]; [|apply I4].
      split; [discriminate|]. intros H. apply I4 in H. congruence.
    - exact I5.
    - intros x y c H. rewrite CS in H. destruct (Nat.eqb_spec y h) as [->|Ny]; [|apply I6; exact H].
      injection H as <-. exact (I6 x h ch CH).
    - intros x f0 p0 k0 rest w0 X. rewrite (nth_set _ _ _ _ _ G) in X. apply (call_ok_set _ _ ch); [exact CH|reflexivity|].
      destruct (Nat.eqb_spec x t) as [->|N]; [|eapply I7; exact X].
      injection X as <- <- <- <- <-. eapply I7. exact G.
    - intros y c x H. rewrite CS in H. rewrite V. destruct (Nat.eqb_spec y h) as [->|Ny].
      + injection H as <-. cbn [recvq ch']. rewrite in_app_iff. destruct (Nat.eqb_spec x t) as [->|N].
        * split; [reflexivity|]. intros _. right. left. reflexivity.
        * rewrite (I8 _ _ x CH). split; [intros [H|[H|[]]]; [exact H|congruence]|auto].
      + destruct (Nat.eqb_spec x t) as [->|N]; [|apply I8; exact H].
        split; [|intros H'; injection H' as H'; congruence]. intros H'. apply (I8 _ _ _ H) in H'. congruence.
    - intros y c H. rewrite CS in H. destruct (Nat.eqb_spec y h) as [->|Ny]; [|exact (I9 _ _ H)].
      injection H as <-. cbn [recvq ch']. apply NoDup_app_snoc. exact (I9 _ _ CH).
      intros H. apply (I8 _ _ _ CH) in H. congruence.
    - intros y c H. rewrite CS in H. destruct (Nat.eqb_spec y h) as [->|Ny].
      + injection H as <-. specialize (I10 _ _ CH).
        assert (P : phase (list_set ths t g') (tr ++ []) owns h ch).
        { apply phase_mono with ths; try reflexivity; [|exact I10]. intros; apply NV. }
        rewrite app_nil_r in P. clear I10. unfold phase in *. cbn [ch' zero sendq recvq closed].
        destruct (nth_error owns h) as [[u|u]|]; [destruct P as (P1 & P2); split; [reflexivity|exact P2]| |exact P].
        destruct (zero ch) as [z|].
        * destruct P as [S P]. split; [exact S|].
          destruct (vw (list_set ths t g') u) as [[| | |x w| |]|]; try (destruct P as (_ & P); split; [reflexivity|exact P]).
          -- destruct P as (P1 & P2 & P3 & P4 & P5). destruct w; [congruence|]. repeat split; try assumption. discriminate.
          -- destruct P as (P1 & P2 & P3). auto.
          -- destruct P as (P1 & _). congruence.
        * destruct P as (S1 & S & P). split; [exact S1|]. split; [exact S|].
          destruct (vw (list_set ths t g') u) as [[| | |x w| |]|]; try (destruct P as (_ & P); split; [reflexivity|exact P]).
          -- destruct P as (P1 & P2 & P4 & P5). destruct w; [congruence|]. repeat split; try assumption. discriminate.
          -- exact P.
      + specialize (I10 _ _ H).
        assert (P : phase (list_set ths t g') (tr ++ []) owns y c); [|rewrite app_nil_r in P; exact P].
        apply phase_mono with ths; try reflexivity; [|exact I10]. intros; apply NV.
    - intros x F. destruct (I11 _ F) as (a & A & B). rewrite V. destruct (Nat.eqb_spec x t) as [->|N].
      + rewrite V0 in A. injection A as <-. contradiction.
      + exists a. split; assumption.
    - exact I12.
    - exact I14.
    - rewrite list_set_length. exact I13.
  Qed.

  (** *** Close wakes every receiver *)
  Lemma close_step ths ths' chs tr kinds owns t h ch z e p :
    AInv ths chs tr kinds owns -> nth_error ths t = Some (mkG (Ending (Close h p)) false) -> p = Return VUnit \/ p = Crash ->
    nth_error kinds t = Some (KFut h) -> nth_error chs h = Some ch -> zero ch = Some z ->
    length ths' = length ths ->
    nth_error ths' t = Some (mkG (Ending p) false) ->
    (forall x, x <> t -> ~ In x (recvq ch) -> nth_error ths' x = nth_error ths x) ->
    (forall x, In x (recvq ch) -> exists k f p k' rest w, nth_error ths' x = Some (mkG (Running k rest) false) /\
       nth_error ths x = Some (mkG (Inside f p k' rest) w)) ->
    e = map (fun r => EAnswer r (Await h) z) (recvq ch) ->
    AInv ths' (list_set chs h (mkChan (zero ch) (sendq ch) [] true)) (tr ++ e) kinds owns.
  Proof.
    intros I G PP K CH Z L Gt N1 N2 E.
    assert (E1 : forall x, joined e x = [] /\ awaited e x = if x =? h then repeat z (length (recvq ch)) else []).
    { intros x. rewrite E. clear. induction (recvq ch) as [|r q [IH1 IH2]]; cbn [map joined awaited length repeat].
      - split; [reflexivity|]. destruct (x =? h); reflexivity.
      - split; [exact IH1|]. rewrite IH2, (Nat.eqb_sym h x). destruct (x =? h); reflexivity. }
    assert (E3 : noend e).
    { apply noend_ends. rewrite E. clear. induction (recvq ch) as [|r q IH]; [reflexivity|exact IH]. }
    assert (V0 : vw ths t = Some AClose) by (unfold vw; rewrite G; reflexivity).
    assert (Vt : vw ths' t = Some ADone) by (unfold vw; rewrite Gt; destruct PP as [-> | ->]; reflexivity).
    assert (VR : forall x, In x (recvq ch) -> vw ths x = Some (AWait h) /\ vw ths' x = Some AIdle).
    { intros x H. split; [apply (a_wait _ _ _ _ _ I _ _ _ CH); exact H|].
      destruct (N2 _ H) as (k & f & p0 & k' & rest & w & B & _). unfold vw. rewrite B. reflexivity. }
    assert (VO : forall x, x <> t -> ~ In x (recvq ch) -> vw ths' x = vw ths x).
    { intros x A B. unfold vw. rewrite (N1 _ A B). reflexivity. }
    assert (NV : forall x, x <> t -> norm (vw ths' x) = norm (vw ths x)).
    { intros x A. destruct (in_dec Nat.eq_dec x (recvq ch)) as [B|B]; [|rewrite (VO _ A B); reflexivity].
      destruct (VR _ B) as [-> ->]. reflexivity. }
    set (ch' := mkChan (zero ch) (sendq ch) [] true).
    assert (CS : forall x, nth_error (list_set chs h ch') x = if x =? h then Some ch' else nth_error chs x).
    { intros x. apply (chan_set _ _ _ _ _ CH). }
    assert (O : nth_error owns h = Some (Post t)).
    { apply (a_own _ _ _ _ _ I). exists (KFut h). split; [exact K|reflexivity]. }
    assert (U := fun h' => owner_unique _ _ _ _ _ h h' t I O).
    assert (FE : forall x y, finished (tr ++ e) x y -> finished tr x y) by (intros x y; apply noend_finished; exact E3).
    assert (FG : forall x, gone (tr ++ e) x -> gone tr x) by (intros x; apply noend_gone; exact E3).
    assert (FN : forall x, ended (tr ++ e) x -> ended tr x) by (intros x; apply noend_ended; exact E3).
    destruct I as [I1 I2 I3 I4 I5 I6 I7 I8 I9 I10 I11 I12 I14 I13].
    assert (D : forall x, x = t \/ (x <> t /\ In x (recvq ch)) \/ (x <> t /\ ~ In x (recvq ch))).
    { intros x. destruct (Nat.eq_dec x t); [auto|]. destruct (in_dec Nat.eq_dec x (recvq ch)); auto. }
    split.
    - rewrite L. exact I1.
    - rewrite list_set_length. exact I2.
    - intros x gx X. destruct (D x) as [->|[[A B]|[A B]]].
      + rewrite Gt in X. injection X as <-. exists (KFut h). split; [exact K|]. destruct PP as [-> | ->]; constructor.
      + destruct (N2 _ B) as (k & f & p0 & k' & rest & w & B1 & B2). rewrite B1 in X. injection X as <-.
        destruct (I3 _ _ B2) as (kx & Kx & Sx). exists kx. split; [exact Kx|].
        inversion Sx; subst. constructor.
      + rewrite (N1 _ A B) in X. apply I3. exact X.
    - intros x y. destruct (D x) as [->|[[A B]|[A B]]].
      + rewrite Vt. split; [discriminate|]. intros H. apply I4 in H. congruence.
      + destruct (VR _ B) as [B1 B2]. rewrite B2. split; [discriminate|]. intros H. apply I4 in H. congruence.
      + rewrite (VO _ A B). apply I4.
    - exact I5.
    - intros x y c H. rewrite CS in H. destruct (Nat.eqb_spec y h) as [->|Ny]; [|apply I6; exact H].
      injection H as <-. exact (I6 x h ch CH).
    - intros x f p0 k0 rest w X. apply (call_ok_set _ _ ch); [exact CH|reflexivity|]. destruct (D x) as [->|[[A B]|[A B]]].
      + rewrite Gt in X. discriminate.
      + destruct (N2 _ B) as (k & f' & p' & k' & rest' & w' & B1 & B2). congruence.
      + rewrite (N1 _ A B) in X. eapply I7. exact X.
    - intros y c x H. rewrite CS in H. destruct (Nat.eqb_spec y h) as [->|Ny].
      + injection H as <-. cbn [recvq ch']. split; [intros []|]. intros H. destruct (D x) as [->|[[A B]|[A B]]].
        * congruence.
        * destruct (VR _ B). congruence.
        * rewrite (VO _ A B) in H. apply (I8 _ _ _ CH) in H. contradiction.
      + destruct (D x) as [->|[[A B]|[A B]]].
        * rewrite Vt. split; [|discriminate]. intros H'. apply (I8 _ _ _ H) in H'. congruence.
        * destruct (VR _ B) as [B1 B2]. rewrite B2. split; [|discriminate]. intros H'. apply (I8 _ _ _ H) in H'. congruence.
        * rewrite (VO _ A B). apply I8. exact H.
    - intros y c H. rewrite CS in H. destruct (Nat.eqb_spec y h) as [->|Ny]; [|exact (I9 _ _ H)].
      injection H as <-. constructor.
    - intros y c H. rewrite CS in H. destruct (Nat.eqb_spec y h) as [->|Ny].
      + injection H as <-. specialize (I10 _ _ CH). unfold phase in *. rewrite O in *. cbn [ch' zero sendq recvq closed].
        rewrite Z in *. rewrite V0 in I10. rewrite Vt. destruct I10 as (S & P1 & P2 & P3).
        split; [apply spawned_future_app; exact S|]. split; [reflexivity|]. split; [exact P2|]. split; [reflexivity|].
        exists (length (recvq ch)). rewrite awaited_app. destruct (E1 h) as [_ ->]. rewrite Nat.eqb_refl.
        destruct P3 as [(v & P3 & P4)|[P3 P4]]; [left; exists v; rewrite P3; split; [reflexivity|apply finished_app; exact P4]|right].
        rewrite P4. split; [apply gone_app; exact P3|reflexivity].
      + destruct (E1 y) as [EJ EA]. apply Nat.eqb_neq in Ny. rewrite Ny in EA.
        apply phase_mono with ths; [|exact EJ|exact EA|exact (I10 _ _ H)].
        intros x X. destruct (Nat.eq_dec x t) as [->|Nx]; [|apply NV; exact Nx].
        apply U in X. apply Nat.eqb_neq in Ny. congruence.
    - intros x F. apply FN in F. destruct (I11 _ F) as (a & A1 & A2). destruct (D x) as [->|[[A B]|[A B]]].
      + exists ADone. split; [exact Vt|exact I].
      + destruct (VR _ B) as [B1 _]. rewrite B1 in A1. injection A1 as <-. contradiction.
      + rewrite (VO _ A B). exists a. split; assumption.
    - intros x y y' F F'. apply (I12 x); apply FE; assumption.
    - intros x y F F'. apply (I14 x y); [apply FE|apply FG]; assumption.
    - intros y H. rewrite list_set_length in H. assert (Ny : y <> h) by (intros ->; apply nth_lt in CH; lia).
      rewrite joined_app, awaited_app. destruct (E1 y) as [-> ->]. apply Nat.eqb_neq in Ny. rewrite Ny, !app_nil_r.
      apply I13. exact H.
  Qed.

  (** *** Every step keeps the invariant *)
  Lemma continue_return (c : config) t f p k rest w v :
    nth_error (threads c) t = Some (mkG (Inside f p k rest) w) ->
    continue_ c t (Return v) = (set_thread c t (mkG (Running (k v) rest) false), [EAnswer t f v]).
  Proof. intros H. unfold continue_. rewrite H. reflexivity. Qed.
  Lemma continue_ending (c : config) t p p' w :
    nth_error (threads c) t = Some (mkG (Ending p) w) ->
    continue_ c t p' = (set_thread c t (mkG (Ending p') false), []).
  Proof. intros H. unfold continue_. rewrite H. reflexivity. Qed.

  Lemma wake_all_spec (c : config) rs v h :
    NoDup rs ->
    (forall x, In x rs -> exists k rest w, nth_error (threads c) x = Some (mkG (Inside (Await h) (p_Await h) k rest) w)) ->
    exists ths', wake_all c rs v = (mkConfig ths' (cells c) (mutexes c) (chans c) (dead c), map (fun r => EAnswer r (Await h) v) rs) /\
      length ths' = length (threads c) /\
      (forall x, ~ In x rs -> nth_error ths' x = nth_error (threads c) x) /\
      (forall x, In x rs -> exists k k' rest w, nth_error ths' x = Some (mkG (Running k rest) false) /\
         nth_error (threads c) x = Some (mkG (Inside (Await h) (p_Await h) k' rest) w) /\ k = k' v).
  Proof.
    revert c. induction rs as [|r rs IH]; intros c ND H.
    - exists (threads c). destruct c. cbn. repeat split; auto. intros x [].
    - inversion ND as [|? ? NI ND']; subst. destruct (H r (or_introl eq_refl)) as (k & rest & w & G).
      cbn [wake_all map]. unfold wake_receiver, gost_code. rewrite G. cbn [p_Await].
      rewrite (continue_return _ _ _ _ _ _ _ _ G).
      assert (OT : forall x, x <> r -> nth_error (list_set (threads c) r (mkG (Running (k v) rest) false)) x = nth_error (threads c) x).
      { intros x N. rewrite (nth_set _ _ _ _ _ G). apply Nat.eqb_neq in N. rewrite N. reflexivity. }
      destruct (IH (set_thread c r (mkG (Running (k v) rest) false))) as (ths' & E & L & N1 & N2); [exact ND'| |].
      { intros x X. cbn [set_thread threads]. rewrite OT by (intros ->; contradiction). apply H. right. exact X. }
      rewrite E. cbn [set_thread threads cells mutexes chans dead] in *.
      exists ths'. split; [reflexivity|]. split; [rewrite L, list_set_length; reflexivity|]. split.
      + intros x X. rewrite N1 by (intros B; apply X; right; exact B). apply OT. intros ->. apply X. left. reflexivity.
      + intros x [->|X].
        * exists (k v), k, rest, w. split; [|split; [exact G|reflexivity]]. rewrite N1 by exact NI.
          rewrite (nth_set _ _ _ _ _ G), Nat.eqb_refl. reflexivity.
        * destruct (N2 _ X) as (a & b & r0 & w0 & B1 & B2 & B3). exists a, b, r0, w0. split; [exact B1|].
          rewrite OT in B2 by (intros ->; contradiction). split; [exact B2|exact B3].
  Qed.

  Lemma sendq_spec ths chs tr kinds owns h ch s v q :
    AInv ths chs tr kinds owns -> nth_error chs h = Some ch -> sendq ch = (s, v) :: q ->
    q = [] /\ nth_error owns h = Some (Post s) /\ vw ths s = Some (ASend v true) /\ recvq ch = [].
  Proof.
    intros I CH SQ. assert (P := a_phase _ _ _ _ _ I _ _ CH). unfold phase in P.
    destruct (nth_error owns h) as [[u|u]|] eqn:O; [destruct P; congruence| |contradiction].
    destruct (zero ch) as [z|].
    - destruct P as [_ P]. destruct (vw ths u) as [[| | |x w| |]|] eqn:E; try (destruct P; congruence).
      + destruct P as (_ & _ & _ & P1 & P2). destruct w; [|congruence]. rewrite P1 in SQ. injection SQ as <- <- <-. auto.
      + destruct P as (_ & P & _). congruence.
      + destruct P as (_ & P & _). congruence.
    - destruct P as (_ & _ & P). destruct (vw ths u) as [[| | |x w| |]|] eqn:E; try (destruct P; congruence).
      + destruct P as (_ & _ & P1 & P2). destruct w; [|congruence]. rewrite P1 in SQ. injection SQ as <- <- <-. auto.
  Qed.
  (** The sender behind a view. *)
  Lemma sender_spec ths chs tr kinds owns h ch s v w :
    AInv ths chs tr kinds owns -> nth_error owns h = Some (Post s) -> vw ths s = Some (ASend v w) -> nth_error chs h = Some ch ->
    exists kd p', nth_error kinds s = Some kd /\ nth_error ths s = Some (mkG (Ending (Send h v p')) w) /\
      shape kd (mkG (Ending p') false) /\
      abs (mkG (Ending p') false) = (match zero ch with None => ADone | Some _ => AClose end) /\
      (zero ch = None -> v = VUnit).
  Proof.
    intros I O V CH. destruct (proj1 (a_own _ _ _ _ _ I s h) O) as (kd & K & Ck).
    unfold vw in V. destruct (nth_error ths s) as [g|] eqn:G; [|discriminate]. injection V as V.
    destruct (a_shape _ _ _ _ _ I _ _ G) as (kd' & K' & S). assert (kd' = kd) by congruence. subst kd'.
    destruct (a_zero _ _ _ _ _ I s h ch CH) as [Z1 Z2].
    destruct S; try discriminate V.
    - destruct H; try discriminate V. destruct f; try discriminate V; destruct w0; discriminate V.
    - injection V as <- <-. cbn in Ck. injection Ck as ->. exists (KJoin h), (Return VUnit).
      rewrite (Z1 K). split; [exact K|]. split; [reflexivity|]. split; [constructor|]. split; [reflexivity|]. reflexivity.
    - injection V as <- <-. cbn in Ck. injection Ck as ->. exists (KFut h), (Close h (Return VUnit)).
      split; [exact K|]. split; [reflexivity|]. split; [constructor; left; reflexivity|].
      destruct (zero ch); [|exfalso; apply Z2; auto]. split; [reflexivity|discriminate].
  Qed.
  (** The receiver at the head of a queue. *)
  Lemma receiver_spec ths chs tr kinds owns h ch r :
    AInv ths chs tr kinds owns -> nth_error chs h = Some ch -> In r (recvq ch) ->
    exists kd k, nth_error kinds r = Some kd /\
      nth_error ths r = Some (mkG (Inside (match zero ch with None => Join h | Some _ => Await h end)
        (match zero ch with None => p_Join h | Some _ => p_Await h end) k (rest_of kd)) true).
  Proof.
    intros I CH R. assert (V := proj1 (a_wait _ _ _ _ _ I _ _ _ CH) R).
    unfold vw in V. destruct (nth_error ths r) as [g|] eqn:G; [|discriminate]. injection V as V.
    destruct (a_shape _ _ _ _ _ I _ _ G) as (kd & K & S).
    destruct S; try discriminate V.
    destruct H; try discriminate V. destruct f; try discriminate V; destruct w; try discriminate V; injection V as ->.
    - destruct (a_call _ _ _ _ _ I _ _ _ _ _ _ G) as (c0 & B & Z). assert (c0 = ch) by congruence. subst c0. rewrite Z.
      exists kd, k. split; [exact K|reflexivity].
    - destruct (a_call _ _ _ _ _ I _ _ _ _ _ _ G) as (z0 & c0 & B & Z). assert (c0 = ch) by congruence. subst c0. rewrite Z.
      exists kd, k. split; [exact K|reflexivity].
  Qed.

  Lemma list_set_comm {A} (l : list A) i j x y : i <> j -> list_set (list_set l i x) j y = list_set (list_set l j y) i x.
  Proof.
    revert i j. induction l as [|a l IH]; intros i j N; [reflexivity|].
    destruct i, j; cbn; try congruence. f_equal. apply IH. congruence.
  Qed.
  Lemma chan_exists ths chs tr kinds owns h o : AInv ths chs tr kinds owns -> nth_error owns h = Some o ->
    exists ch, nth_error chs h = Some ch.
  Proof.
    intros I O. apply nth_lt in O. rewrite (a_owns _ _ _ _ _ I) in O. apply nth_error_Some in O.
    destruct (nth_error chs h); [eauto|contradiction].
  Qed.

  Lemma quiet_one_answer (t : nat) (f : call user) (v : val) :
    match f with Join _ | Await _ => False | IsFinished _ => v = VBool false | _ => True end -> quiet [EAnswer t f v].
  Proof.
    intros H. split.
    - intros h. destruct f; try contradiction; try (split; reflexivity). rewrite H. split; reflexivity.
    - apply noend_ends. reflexivity.
  Qed.
  Lemma quiet_nil : quiet [].
  Proof. split; [intros; split; reflexivity|apply noend_ends; reflexivity]. Qed.

  (** A goroutine goes on and returns from a call that no channel notices. *)
  Lemma return_step ths chs tr kinds owns t f p k kd w v :
    AInv ths chs tr kinds owns -> nth_error ths t = Some (mkG (Inside f p k (rest_of kd)) w) -> nth_error kinds t = Some kd ->
    abs (mkG (Inside f p k (rest_of kd)) w) = AIdle ->
    match f with Join _ | Await _ => False | IsFinished _ => v = VBool false | _ => True end ->
    AInv (list_set ths t (mkG (Running (k v) (rest_of kd)) false)) chs (tr ++ [EAnswer t f v]) kinds owns.
  Proof.
    intros I G K A Q. eapply frame; try eassumption.
    - constructor.
    - rewrite A. reflexivity.
    - apply quiet_one_answer. exact Q.
    - intros; discriminate.
  Qed.

  Lemma send_step (c c' : config) tr kinds owns t l h v p' e kd :
    AInv (threads c) (chans c) tr kinds owns ->
    nth_error (threads c) t = Some (mkG (Ending (Send h v p')) false) -> nth_error kinds t = Some kd -> chan_of kd = Some h ->
    operate c t l (Send h v p') = Some (c', e) ->
    AInv (threads c') (chans c') (tr ++ e) kinds owns.
  Proof.
    intros I G K Ck H.
    assert (O : nth_error owns h = Some (Post t)).
    { apply (a_own _ _ _ _ _ I). exists kd. split; assumption. }
    destruct (chan_exists _ _ _ _ _ _ _ I O) as (ch & CH).
    assert (V : vw (threads c) t = Some (ASend v false)) by (unfold vw; rewrite G; reflexivity).
    assert (CF : closed ch = false).
    { assert (P := a_phase _ _ _ _ _ I _ _ CH). unfold phase in P. rewrite O, V in P.
      destruct (zero ch); [destruct P as (_ & _ & _ & P & _)|destruct P as (P & _)]; exact P. }
    assert (SQ : sendq ch = []).
    { assert (P := a_phase _ _ _ _ _ I _ _ CH). unfold phase in P. rewrite O, V in P.
      destruct (zero ch); [destruct P as (_ & _ & _ & _ & P & _)|destruct P as (_ & _ & _ & _ & P & _)]; exact P. }
    cbn [operate] in H. rewrite CH, CF in H.
    destruct (recvq ch) as [|r q] eqn:R.
    - injection H as <- <-. rewrite app_nil_r. unfold park. cbn [set_chan threads]. rewrite G. cbn [set_thread threads chans set_chan code].
      rewrite <- CF. apply send_park; try assumption. reflexivity.
    - destruct (receiver_spec _ _ _ _ _ _ _ r I CH) as (kr & k & KR & GR); [rewrite R; left; reflexivity|].
      destruct (sender_spec _ _ _ _ _ _ _ _ _ _ I O V CH) as (kd' & p2 & K' & G' & SH & AB & ZV).
      assert (kd' = kd) by congruence. subst kd'. assert (p2 = p') by congruence. subst p2.
      assert (NE : r <> t) by (intros ->; rewrite G in GR; discriminate).
      unfold wake_receiver, gost_code in H. cbn [set_chan threads] in H. rewrite GR in H.
      assert (W : exists x, continue_ (set_chan c h (mkChan (zero ch) (sendq ch) q false)) r x =
        (set_thread (set_chan c h (mkChan (zero ch) (sendq ch) q false)) r
           (mkG (Running (k (match zero ch with None => VOk VUnit | Some _ => v end)) (rest_of kr)) false),
         [EAnswer r (match zero ch with None => Join h | Some _ => Await h end) (match zero ch with None => VOk VUnit | Some _ => v end)]) /\
        x = match zero ch with None => Return (VOk VUnit) | Some _ => Return v end).
      { destruct (zero ch); eexists; (split; [|reflexivity]); eapply continue_return; exact GR. }
      destruct W as (x & W & X).
      replace (match (match zero ch with None => p_Join h | Some _ => p_Await h end) with
               | Recv _ k0 => continue_ (set_chan c h (mkChan (zero ch) (sendq ch) q false)) r (k0 v)
               | _ => (set_chan c h (mkChan (zero ch) (sendq ch) q false), []) end)
        with (continue_ (set_chan c h (mkChan (zero ch) (sendq ch) q false)) r x) in H
        by (rewrite X; destruct (zero ch); reflexivity).
      rewrite W in H. unfold then_ in H.
      assert (GT : nth_error (list_set (threads c) r
        (mkG (Running (k (match zero ch with None => VOk VUnit | Some _ => v end)) (rest_of kr)) false)) t = Some (mkG (Ending (Send h v p')) false)).
      { rewrite (nth_set _ _ _ _ _ GR). apply Nat.eqb_neq in NE. rewrite Nat.eqb_sym, NE. exact G. }
      erewrite continue_ending in H by exact GT. injection H as <- <-.
      cbn [set_thread set_chan threads chans]. rewrite list_set_comm by exact NE. rewrite SQ.
      replace (mkChan (zero ch) [] q false) with (mkChan (zero ch) [] q (closed ch)) by (rewrite CF; reflexivity).
      eapply transfer with (w := false); try eassumption; try reflexivity.
      + destruct (zero ch); reflexivity.
      + intros y Ny. cbn [app joined awaited]. destruct (zero ch); cbn [joined awaited app];
          apply not_eq_sym in Ny; apply Nat.eqb_neq in Ny; rewrite Ny; split; reflexivity.
      + destruct (zero ch); cbn [joined awaited app]; rewrite Nat.eqb_refl; [reflexivity|eauto].
      + apply noend_ends. reflexivity.
  Qed.

  Lemma take_step (c : config) tr kinds owns t h ch s v q f p k kd a :
    AInv (threads c) (chans c) tr kinds owns ->
    nth_error (threads c) t = Some (mkG (Inside f p k (rest_of kd)) false) -> nth_error kinds t = Some kd ->
    abs (mkG (Inside f p k (rest_of kd)) false) = AIdle ->
    nth_error (chans c) h = Some ch -> sendq ch = (s, v) :: q ->
    (zero ch = None -> f = Join h \/ f = IsFinished h /\ a = VBool true) ->
    (zero ch <> None -> f = Await h /\ a = v) ->
    let r := then_ (wake_sender (set_chan c h (mkChan (zero ch) q (recvq ch) (closed ch))) s) (fun c => continue_ c t (Return a)) in
    AInv (threads (fst r)) (chans (fst r)) (tr ++ snd r) kinds owns.
  Proof.
    intros I G K A CH SQ F1 F2.
    destruct (sendq_spec _ _ _ _ _ _ _ _ _ _ I CH SQ) as (-> & O & V & R).
    destruct (sender_spec _ _ _ _ _ _ _ _ _ _ I O V CH) as (ks & p' & KS & GS & SH & AB & _).
    assert (NE : t <> s) by (intros ->; rewrite G in GS; discriminate).
    unfold wake_sender, gost_code. cbn [set_chan threads]. rewrite GS.
    erewrite continue_ending by exact GS. unfold then_.
    assert (GT : nth_error (list_set (threads c) s (mkG (Ending p') false)) t = Some (mkG (Inside f p k (rest_of kd)) false)).
    { rewrite (nth_set _ _ _ _ _ GS). apply Nat.eqb_neq in NE. rewrite NE. exact G. }
    erewrite continue_return by exact GT. cbn [fst snd app set_thread set_chan threads chans].
    eapply transfer with (w := true); try eassumption; try reflexivity.
    - intros y Ny. apply not_eq_sym in Ny. apply Nat.eqb_neq in Ny. destruct (zero ch) eqn:Z.
      + destruct F2 as [-> ->]; [discriminate|]. cbn [joined awaited]. rewrite Ny. split; reflexivity.
      + destruct (F1 eq_refl) as [->|[-> ->]]; cbn [joined awaited]; rewrite Ny; split; reflexivity.
    - destruct (zero ch) eqn:Z.
      + destruct F2 as [-> ->]; [discriminate|]. cbn [joined awaited]. rewrite Nat.eqb_refl. reflexivity.
      + destruct (F1 eq_refl) as [->|[-> ->]]; cbn [joined awaited]; rewrite Nat.eqb_refl; eauto.
    - apply noend_ends. reflexivity.
  Qed.

  Lemma close_op (c c' : config) tr kinds owns t l h e p :
    AInv (threads c) (chans c) tr kinds owns ->
    nth_error (threads c) t = Some (mkG (Ending (Close h p)) false) -> p = Return VUnit \/ p = Crash -> nth_error kinds t = Some (KFut h) ->
    operate c t l (Close h p) = Some (c', e) ->
    AInv (threads c') (chans c') (tr ++ e) kinds owns.
  Proof.
    intros I G PP K H.
    assert (O : nth_error owns h = Some (Post t)).
    { apply (a_own _ _ _ _ _ I). exists (KFut h). split; [assumption|reflexivity]. }
    destruct (chan_exists _ _ _ _ _ _ _ I O) as (ch & CH).
    assert (V : vw (threads c) t = Some AClose) by (unfold vw; rewrite G; reflexivity).
    destruct (a_zero _ _ _ _ _ I t h ch CH) as [_ Z2]. specialize (Z2 K).
    destruct (zero ch) as [z|] eqn:Z; [clear Z2|congruence].
    assert (P := a_phase _ _ _ _ _ I _ _ CH). unfold phase in P. rewrite O, V, Z in P.
    destruct P as (_ & CF & SQ & _).
    cbn [operate] in H. rewrite CH, CF in H. unfold zero_of in H. rewrite Z in H.
    destruct (wake_all_spec (set_chan c h (mkChan (Some z) (sendq ch) [] true)) (recvq ch) z h) as (ths' & E & L & N1 & N2).
    { eapply a_nodup; eassumption. }
    { intros y Y. destruct (receiver_spec _ _ _ _ _ _ _ y I CH Y) as (kr & k & KR & GR). rewrite Z in GR.
      eexists _, _, _. exact GR. }
    rewrite E in H. unfold then_ in H.
    assert (NI : ~ In t (recvq ch)).
    { intros B. apply (a_wait _ _ _ _ _ I _ _ _ CH) in B. congruence. }
    assert (GT : nth_error ths' t = Some (mkG (Ending (Close h p)) false)).
    { rewrite (N1 _ NI). exact G. }
    erewrite continue_ending in H by exact GT. injection H as <- <-.
    cbn [set_thread set_chan threads chans] in *. rewrite app_nil_r. rewrite <- Z.
    eapply close_step with (z := z); try eassumption; try reflexivity.
    - rewrite list_set_length. exact L.
    - rewrite (nth_set _ _ _ _ _ GT), Nat.eqb_refl. reflexivity.
    - intros y Ny NIy. rewrite (nth_set _ _ _ _ _ GT). apply Nat.eqb_neq in Ny. rewrite Ny. apply N1. exact NIy.
    - intros y Y. rewrite (nth_set _ _ _ _ _ GT). destruct (Nat.eqb_spec y t) as [->|Ny]; [contradiction|].
      destruct (N2 y Y) as (k & k' & rest & w & B1 & B2 & _). exists k, (Await h), (p_Await h), k', rest, w. split; assumption.
  Qed.

  Definition Inv (c : config) tr : Prop := exists kinds owns, AInv (threads c) (chans c) tr kinds owns.

  (** Channels never change hands. *)
  Definition grows (owns owns' : list own) : Prop :=
    forall h t, nth_error owns h = Some (Post t) -> nth_error owns' h = Some (Post t).
  Lemma keep_owns (ths : list goroutine) chs tr kinds owns :
    AInv ths chs tr kinds owns -> exists kinds' owns', AInv ths chs tr kinds' owns' /\ grows owns owns'.
  Proof. intros I. exists kinds, owns. split; [exact I|intros h t H; exact H]. Qed.

  Lemma post_set (owns : list own) h t x y o : nth_error owns x = Some (Post y) -> nth_error owns h = Some (Pre t) ->
    nth_error (list_set owns h o) x = Some (Post y).
  Proof. intros A B. rewrite nth_error_list_set. destruct (Nat.eqb_spec h x) as [->|]; [congruence|exact A]. Qed.

  Lemma step_grow c t l c' e tr kinds owns : AInv (threads c) (chans c) tr kinds owns -> step c t l = Some (c', e) ->
    exists kinds' owns', AInv (threads c') (chans c') (tr ++ e) kinds' owns' /\ grows owns owns'.
  Proof.
    intros I H. unfold step in H. destruct (dead c); [discriminate|].
    destruct (nth_error (threads c) t) as [[th [|]]|] eqn:G; try discriminate.
    destruct (a_shape _ _ _ _ _ I _ _ G) as (kd & K & S).
    inversion S as [kd0 u|kd0 f p k w SB WT|v|h w|h|kd0|h v w|h p PP|h]; subst; try discriminate.
    - (* user code *)
      destruct u as [v|f k|a k|a v k| |].
      + injection H as <- <-. apply (keep_owns _ _ _ kinds owns). eapply (finish_step _ _ _ _ _ t kd _ (Returned v)); eassumption.
      + destruct (typed c f) eqn:TY; [|discriminate]. injection H as <- <-. apply (keep_owns _ _ _ kinds owns).
        eapply frame; try eassumption.
        * constructor; [constructor|discriminate].
        * destruct f; reflexivity.
        * split; [intros; split; reflexivity|apply noend_ends; reflexivity].
        * intros f0 p0 k0 rest w B. injection B as <- <- <- <- <-.
          destruct f; cbn in TY |- *; try exact Logic.I; try (intros ? ? ? B; discriminate).
          -- unfold is_handle in TY. destruct (nth_error (chans c) h) as [[[z|] ? ? ?]|] eqn:CH; try discriminate.
             eexists. split; [exact CH|reflexivity].
          -- unfold is_handle in TY. destruct (nth_error (chans c) h) as [[[z|] ? ? ?]|] eqn:CH; try discriminate.
             eexists. split; [exact CH|reflexivity].
          -- unfold is_future in TY. destruct (nth_error (chans c) h) as [[[z|] ? ? ?]|] eqn:CH; try discriminate.
             exists z. eexists. split; [exact CH|reflexivity].
      + destruct (nth_error (cells c) a); [|discriminate]. injection H as <- <-. apply (keep_owns _ _ _ kinds owns).
        eapply frame; try eassumption; try reflexivity; [constructor| |intros; discriminate].
        split; [intros; split; reflexivity|apply noend_ends; reflexivity].
      + destruct (nth_error (cells c) a); [|discriminate]. injection H as <- <-. apply (keep_owns _ _ _ kinds owns).
        eapply frame; try eassumption; try reflexivity; [constructor| |intros; discriminate].
        split; [intros; split; reflexivity|apply noend_ends; reflexivity].
      + injection H as <- <-. apply (keep_owns _ _ _ kinds owns). eapply (finish_step _ _ _ _ _ t kd _ Panicked); eassumption.
      + injection H as <- <-. apply (keep_owns _ _ _ kinds owns). eapply (finish_step _ _ _ _ _ t kd _ Exited); eassumption.
    - (* inside a function of gost *)
      assert (CO := a_call _ _ _ _ _ I _ _ _ _ _ _ G).
      inversion SB as [f0|v a|m|m|u h|z u h]; subst.
      + destruct f as [v|m|m|m|u|h|h|z u|h]; cbn [body] in *.
        * cbn [p_MutexNew operate] in H. unfold continue_ in H. cbn [threads] in H. rewrite G in H.
          injection H as <- <-. apply (keep_owns _ _ _ kinds owns).
          eapply frame; try eassumption; try reflexivity; [constructor; [constructor|discriminate]|apply quiet_nil|].
          intros ? ? ? ? ? B. injection B as <- <- <- <- <-. exact Logic.I.
        * cbn [p_Lock operate] in H. destruct (nth_error (mutexes c) m) as [mu|]; [|discriminate]. destruct (locked mu); [discriminate|].
          unfold continue_ in H. cbn [set_mutex threads] in H. rewrite G in H. injection H as <- <-. apply (keep_owns _ _ _ kinds owns).
          eapply frame; try eassumption; try reflexivity; [constructor; [constructor|discriminate]|apply quiet_nil|].
          intros ? ? ? ? ? B. injection B as <- <- <- <- <-. exact Logic.I.
        * cbn [p_Unlock operate] in H. destruct (nth_error (mutexes c) m) as [mu|]; [|discriminate]. destruct (locked mu).
          -- erewrite continue_return in H by exact G. injection H as <- <-. apply (keep_owns _ _ _ kinds owns).
             eapply return_step; try eassumption; try reflexivity; exact Logic.I.
          -- unfold fatal in H. injection H as <- <-. apply (keep_owns _ _ _ kinds owns). cbn [threads chans].
             replace (threads c) with (list_set (threads c) t (mkG (Inside (Unlock m) (p_Unlock m) k (rest_of kd)) false)).
             2: { apply nth_error_ext. intros x. rewrite (nth_set _ _ _ _ _ G). destruct (Nat.eqb_spec x t) as [->|]; congruence. }
             eapply frame; try eassumption; try reflexivity.
             ++ split; [intros; split; reflexivity|apply noend_ends; reflexivity].
             ++ intros ? ? ? ? ? B. injection B as <- <- <- <- <-. exact Logic.I.
        * cbn [p_TryLock operate] in H. destruct (nth_error (mutexes c) m) as [mu|]; [|discriminate].
          destruct (locked mu); [|destruct l].
          -- erewrite continue_return in H by exact G. injection H as <- <-. apply (keep_owns _ _ _ kinds owns).
             eapply return_step; try eassumption; try reflexivity; exact Logic.I.
          -- unfold continue_ in H. cbn [set_mutex threads] in H. rewrite G in H. injection H as <- <-. apply (keep_owns _ _ _ kinds owns).
             eapply frame; try eassumption; try reflexivity; [constructor; [constructor|discriminate]|apply quiet_nil|].
             intros ? ? ? ? ? B. injection B as <- <- <- <- <-. exact Logic.I.
          -- erewrite continue_return in H by exact G. injection H as <- <-. apply (keep_owns _ _ _ kinds owns).
             eapply return_step; try eassumption; try reflexivity; exact Logic.I.
        * cbn [p_Spawn operate] in H. unfold continue_ in H. cbn [threads] in H. rewrite G in H.
          injection H as <- <-. cbn [set_thread threads chans]. rewrite app_nil_r. exists kinds, (owns ++ [Pre t]).
          split; [|intros x y B; rewrite nth_error_app1; [exact B|eapply nth_lt; exact B]].
          eapply make_step; try eassumption; try reflexivity.
          -- apply (sub_spawn u (length (chans c))).
          -- intros r q h B. injection B as _ _ <-. eexists. rewrite nth_error_app2, Nat.sub_diag by lia. split; reflexivity.
        * cbn [p_Join operate] in H. destruct (nth_error (chans c) h) as [ch|] eqn:CH; [|discriminate].
          destruct CO as (ch' & CH' & Z). assert (ch' = ch) by congruence. subst ch'.
          destruct (sendq ch) as [|[s v] q] eqn:SQ.
          -- destruct (closed ch) eqn:CF.
             { exfalso. assert (P := a_phase _ _ _ _ _ I _ _ CH). unfold phase in P.
               destruct (nth_error owns h) as [[?|?]|]; [destruct P as (_ & P & _); congruence| |exact P].
               rewrite Z in P. destruct P; congruence. }
             injection H as <- <-. unfold park. cbn [set_chan threads]. rewrite G. cbn [set_thread threads chans set_chan code].
             rewrite app_nil_r. apply (keep_owns _ _ _ kinds owns). rewrite <- CF. eapply recv_park; try eassumption. eexists; reflexivity.
          -- injection H as H. apply (keep_owns _ _ _ kinds owns).
             eapply (take_step c tr kinds owns t h ch s v q _ _ k kd (VOk VUnit)) in I; try eassumption; try reflexivity.
             ++ cbn zeta in I. rewrite H in I. exact I.
             ++ left. reflexivity.
             ++ congruence.
        * cbn [p_IsFinished operate] in H. destruct (nth_error (chans c) h) as [ch|] eqn:CH; [|discriminate].
          destruct CO as (ch' & CH' & Z). assert (ch' = ch) by congruence. subst ch'.
          destruct (sendq ch) as [|[s v] q] eqn:SQ.
          -- assert (CF : closed ch = false).
             { assert (P := a_phase _ _ _ _ _ I _ _ CH). unfold phase in P.
               destruct (nth_error owns h) as [[?|?]|]; [destruct P as (_ & P & _); exact P| |contradiction].
               rewrite Z in P. destruct P; assumption. }
             rewrite CF in H. erewrite continue_return in H by exact G. injection H as <- <-. apply (keep_owns _ _ _ kinds owns).
             eapply return_step; try eassumption; try reflexivity.
          -- injection H as H. apply (keep_owns _ _ _ kinds owns).
             eapply (take_step c tr kinds owns t h ch s v q _ _ k kd (VBool true)) in I; try eassumption; try reflexivity.
             ++ cbn zeta in I. rewrite H in I. exact I.
             ++ right. split; reflexivity.
             ++ congruence.
        * cbn [p_Gokio_Spawn operate] in H. unfold continue_ in H. cbn [threads] in H. rewrite G in H.
          injection H as <- <-. cbn [set_thread threads chans]. rewrite app_nil_r. exists kinds, (owns ++ [Pre t]).
          split; [|intros x y B; rewrite nth_error_app1; [exact B|eapply nth_lt; exact B]].
          eapply make_step; try eassumption; try reflexivity.
          -- apply (sub_gokio z u (length (chans c))).
          -- intros r q h B. injection B as _ _ <-. eexists. rewrite nth_error_app2, Nat.sub_diag by lia. split; reflexivity.
        * cbn [p_Await operate] in H. destruct (nth_error (chans c) h) as [ch|] eqn:CH; [|discriminate].
          destruct CO as (z & ch' & CH' & Z). assert (ch' = ch) by congruence. subst ch'.
          destruct (sendq ch) as [|[s v] q] eqn:SQ.
          -- destruct (closed ch) eqn:CF.
             { unfold zero_of in H. rewrite Z in H. erewrite continue_return in H by exact G. injection H as <- <-. apply (keep_owns _ _ _ kinds owns).
               eapply zero_step; try eassumption; try reflexivity.
               - intros x Nx. apply not_eq_sym in Nx. apply Nat.eqb_neq in Nx. cbn [joined awaited]. rewrite Nx. split; reflexivity.
               - cbn [awaited]. rewrite Nat.eqb_refl. reflexivity.
               - apply noend_ends. reflexivity. }
             injection H as <- <-. unfold park. cbn [set_chan threads]. rewrite G. cbn [set_thread threads chans set_chan code].
             rewrite app_nil_r. apply (keep_owns _ _ _ kinds owns). rewrite <- CF. eapply recv_park; try eassumption. eexists; reflexivity.
          -- injection H as H. apply (keep_owns _ _ _ kinds owns).
             eapply (take_step c tr kinds owns t h ch s v q _ _ k kd v) in I; try eassumption; try reflexivity.
             ++ cbn zeta in I. rewrite H in I. exact I.
             ++ congruence.
             ++ split; reflexivity.
      + cbn [operate] in H. erewrite continue_return in H by exact G. injection H as <- <-. apply (keep_owns _ _ _ kinds owns).
        eapply return_step; try eassumption; try reflexivity; exact Logic.I.
      + cbn [operate] in H. destruct (nth_error (mutexes c) m) as [mu|]; [|discriminate].
        erewrite continue_return in H by exact G. injection H as <- <-. apply (keep_owns _ _ _ kinds owns).
        eapply return_step; try eassumption; try reflexivity; exact Logic.I.
      + cbn [operate] in H. destruct (nth_error (mutexes c) m) as [mu|]; [|discriminate].
        erewrite continue_return in H by exact G. injection H as <- <-. apply (keep_owns _ _ _ kinds owns).
        eapply return_step; try eassumption; try reflexivity; exact Logic.I.
      + cbn [operate] in H. unfold then_ in H.
        erewrite continue_return in H.
        2: { cbn [threads]. rewrite nth_error_app1 by (eapply nth_lt; exact G). exact G. }
        injection H as <- <-. cbn [set_thread threads chans].
        exists (kinds ++ [KJoin h]), (list_set owns h (Post (length (threads c)))).
        split; [|intros x y B; eapply post_set; [exact B|]; apply (a_go _ _ _ _ _ I); unfold vw; rewrite G; reflexivity].
        eapply (go_step _ _ _ _ _ t kd _ u h None (KJoin h) (k (VHandle h))); try eassumption; try reflexivity.
        * apply (CO _ _ _ eq_refl).
        * split; [intros; split; reflexivity|]. apply noend_ends. reflexivity.
        * exists t, u, [], []. reflexivity.
      + cbn [operate] in H. unfold then_ in H.
        erewrite continue_return in H.
        2: { cbn [threads]. rewrite nth_error_app1 by (eapply nth_lt; exact G). exact G. }
        injection H as <- <-. cbn [set_thread threads chans].
        exists (kinds ++ [KFut h]), (list_set owns h (Post (length (threads c)))).
        split; [|intros x y B; eapply post_set; [exact B|]; apply (a_go _ _ _ _ _ I); unfold vw; rewrite G; reflexivity].
        eapply (go_step _ _ _ _ _ t kd _ u h (Some z) (KFut h) (k (VFuture h))); try eassumption; try reflexivity.
        * apply (CO _ _ _ eq_refl).
        * split; [intros; split; reflexivity|]. apply noend_ends. reflexivity.
        * exists t, u, [], []. reflexivity.
    - apply (keep_owns _ _ _ kinds owns). eapply send_step; try eassumption. reflexivity.
    - cbn [operate] in H. unfold fatal in H. injection H as <- <-. apply (keep_owns _ _ _ kinds owns). cbn [threads chans].
      replace (threads c) with (list_set (threads c) t (mkG (Ending Crash) false)).
      2: { apply nth_error_ext. intros x. rewrite (nth_set _ _ _ _ _ G). destruct (Nat.eqb_spec x t) as [->|]; congruence. }
      eapply frame; try eassumption; try reflexivity.
      + split; [intros; split; reflexivity|apply noend_ends; reflexivity].
      + intros ? ? ? ? ? B. discriminate B.
    - apply (keep_owns _ _ _ kinds owns). eapply send_step; try eassumption. reflexivity.
    - apply (keep_owns _ _ _ kinds owns). eapply close_op; eassumption.
  Qed.
  Lemma step_inv c t l c' e tr : Inv c tr -> step c t l = Some (c', e) -> Inv c' (tr ++ e).
  Proof.
    intros (kinds & owns & I) H. destruct (step_grow _ _ _ _ _ _ _ _ I H) as (kinds' & owns' & I' & _). exists kinds', owns'. exact I'.
  Qed.
End Inv.
