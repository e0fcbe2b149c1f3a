(** AsyncProps.v -- C122: file functions in the background. *)
From Verif Require Import Base BaseLemmas OsModel FsModel AsyncSpec AsyncModel AsyncProofs.
Open Scope Z_scope.

(** gokio.X(...).Await() is gost.X(...): whatever the scheduler and the system do in a program
    with the one, they can do in the same program with the other, with the same file system, the
    same slices and the same answers at every moment. *)
Theorem C122_awaited_partial : forall q w sl ts,
  (exists ts', let (c, a) := turns false (begun w sl (awaited q)) ts in let (c', a') := turns false (begun w sl (direct q)) ts' in
     a = a' /\ fsys c = fsys c' /\ mem c = mem c' /\ over c = over c') /\
  (exists ts', let (c, a) := turns false (begun w sl (direct q)) ts in let (c', a') := turns false (begun w sl (awaited q)) ts' in
     a = a' /\ fsys c = fsys c' /\ mem c = mem c' /\ over c = over c').
Proof.
  intros q w sl ts. assert (S : same (begun w sl (direct q)) (begun w sl (awaited q))) by (constructor; constructor). split.
  - destruct (same_runs false ts _ _ S) as (ts' & cd & ca & a & E1 & E2 & S'). exists ts'. rewrite E1, E2.
    destruct (same_shows _ _ S') as (A & B & C). auto.
  - destruct (same_runs_back false ts _ _ S) as (ts' & cd & ca & a & E1 & E2 & S'). exists ts'. rewrite E1, E2.
    destruct (same_shows _ _ S') as (A & B & C). auto.
Qed.
Print Assumptions C122_awaited_partial.

(** A Write in the background is not a Write of the bytes the slice had at the call: the file
    can get later ones, and mixtures that the slice never was. *)
Definition zs_ab : list Z := [97; 98].   Definition zs_AB : list Z := [65; 66].
Definition root : world := mkWorld [IDir 0 []] 0 [].
Definition contents_of (w : world) (p : list Z) : option (list Z) :=
  match locate w true p with
  | inl (PAt _ _ (Some i)) => match nth_error (inodes w) i with Some (IFile d) => Some d | _ => None end
  | _ => None
  end.
Definition reuse : main :=
  Start (OWrite [102] 0) (fun h => SetByte 0 0 65 (SetByte 0 1 66 (Await h (fun _ => Finish)))).
Theorem C122_captured_refuted : exists ts1 ts2,
  (let (c, a) := turns false (begun root [zs_ab] reuse) ts1 in
     over c = true /\ a = [Plain (Ok tt)] /\ contents_of (fsys c) [102] = Some zs_AB) /\
  (let (c, a) := turns false (begun root [zs_ab] reuse) ts2 in
     over c = true /\ a = [Plain (Ok tt)] /\ contents_of (fsys c) [102] = Some [97; 66]).
Proof.
  set (m := (None, fine 9) : turn). set (t := (Some 0%nat, fine 9) : turn).
  exists [m; m; m; t; t; t; t; t; t; t; m], [m; t; t; m; m; t; t; t; t; t; m].
  split; vm_compute; repeat split.
Qed.
Print Assumptions C122_captured_refuted.
(** Every byte it writes was in its place of the slice at some moment since the call; what is
    being written is the rest of such bytes, as many as the slice has. *)
Theorem C122_captured_characterised : forall c h p s ts fd bs k,
  nth_error (futures c) h = Some (OWrite p s, Some (Creating p s)) ->
  nth_error (futures (fst (turns false c ts))) h = Some (OWrite p s, Some (Calls (FileWrite fd bs k))) ->
  exists full n, bs = skipn n full /\ length full = length (slice_of (mem c) s) /\
    forall i b, nth_error full i = Some b ->
      exists ts1 ts2, ts = ts1 ++ ts2 /\ nth_error (slice_of (mem (fst (turns false c ts1))) s) i = Some b.
Proof.
  intros c h p s ts fd bs k E E'. pose proof (write_states c h p s ts E) as W. rewrite E' in W. destruct W as [_ W]. cbn [write_state] in W.
  destruct W as [(a & Q)|[(fd' & a & Q)|(fd' & bs' & full & m & Q & A & B & C)]]; try discriminate.
  injection Q as -> -> ->. exists full, m. auto.
Qed.
Print Assumptions C122_captured_characterised.
(** In a run in which no byte of a slice is set between a Write of it and the answer of its
    Await, it is: the same answers and the same file system as if every Write had taken its
    bytes with it (these are the programs of C65 and C78). *)
Theorem C122_captured_partial : forall m w sl ts, careful (begun w sl m) ts ->
  exists ts', let (c, a) := turns false (begun w sl m) ts in let (c', a') := turns true (begun w sl m) ts' in
    a = a' /\ fsys c = fsys c' /\ mem c = mem c' /\ over c = over c'.
Proof.
  intros m w sl ts Ca. assert (S : sim (begun w sl m) (begun w sl m)).
  { unfold sim. cbn. repeat split; auto. }
  destruct (sim_runs ts _ _ S Ca) as (ts' & c & c' & a & E1 & E2 & A & B & _ & D). exists ts'. rewrite E1, E2.
  repeat split; auto. unfold over. destruct (code c), (code c'); cbn in D; try contradiction; [now subst | reflexivity].
Qed.
Print Assumptions C122_captured_partial.
(** The futures of the model with bytes taken along are the goroutines of C78's pool: a turn of
    one of them is a step of the pool, and nothing but the pool changes the file system. *)
Theorem C122_pool : forall c h ch p o, over c = false -> nth_error (futures c) h = Some (o, Some (Calls p)) ->
  fst (run_pool (fsys c) [p] [(0%nat, ch)]) = fsys (fst (turn_step true c (Some h, ch))) /\
  exists p', snd (run_pool (fsys c) [p] [(0%nat, ch)]) = [p'] /\
    nth_error (futures (fst (turn_step true c (Some h, ch)))) h = Some (o, Some (Calls p')).
Proof.
  intros c h ch p o Ov E. cbn [run_pool nth_error turn_step fst snd]. unfold worker_step. rewrite Ov, E.
  assert (L : (h < length (futures c))%nat) by (apply nth_error_Some; congruence).
  destruct p; cbn [wstep].
  1: { cbn [step fst snd list_set]. split; [reflexivity|]. eexists. split; [reflexivity | exact E]. }
  all: destruct (step (fsys c) _ ch) as [w1 p1]; cbn [fst snd fsys futures list_set]; split; [reflexivity|]; eexists; split; [reflexivity|];
    now rewrite nth_error_list_set_eq by auto.
Qed.
Print Assumptions C122_pool.

(** What a background call does: the goroutine, left alone, makes the system calls of that function
    of fs.go and no others, and Await gives its result as soon as it has one.  (A Write: with the
    bytes taken at the call.) *)
Theorem C122_functions : forall captured sl o R (P : prog R) f w k ch0 chs,
  fs_call sl o R P f -> captured = true \/ (forall p s, o <> OWrite p s) ->
  let c := fst (turns captured (begun w sl (Start o (fun h => Await h k))) ((None, ch0) :: map (fun ch => (Some 0%nat, ch)) chs)) in
  fsys c = fst (run w P chs) /\
  forall ch, snd (turn_step captured c (None, ch)) = match snd (run w P chs) with Done r => [f r] | _ => [] end.
Proof.
  intros captured sl o R P f w k ch0 chs F H. cbv zeta. cbn [turns].
  assert (E : turn_step captured (begun w sl (Start o (fun h => Await h k))) (None, ch0)
    = (mkConf w sl [(o, Some (Calls (pmap f P)))] (Code (Await 0 k)), [])).
  { cbn [turn_step fst snd]. unfold begun, main_step. cbn [code fsys mem futures app length]. now rewrite (begins _ _ _ _ _ _ F H). }
  rewrite E. pose proof (worker_runs f captured sl o k chs w P) as W.
  match type of W with context [turns captured ?c (map ?g chs)] => destruct (turns captured c (map g chs)) as [c1 a] end. cbn [fst] in *. subst c1. split; [reflexivity|]. intros ch.
  cbn [turn_step fst snd]. unfold main_step. cbn [code futures nth_error].
  destruct (snd (run w P chs)); reflexivity.
Qed.
Print Assumptions C122_functions.
(** gokio.Copy of a file that exists: one call, and the second name is there. *)
Example C122_functions_nonvacuous :
  let w := mkWorld [IDir 0 [([102], 1%nat)]; IFile zs_ab] 0 [] in
  fs_call [] (OCopy [102] [103]) _ (Copy [102] [103]) Plain /\
  (forall p s, OCopy [102] [103] <> OWrite p s) /\
  snd (run w (Copy [102] [103]) [fine 9]) = Done (Ok tt) /\
  contents_of (fst (run w (Copy [102] [103]) [fine 9])) [103] = Some zs_ab /\
  contents_of (fst (run w (Copy [103] [102]) [fine 9])) [103] = None.
Proof. cbv zeta. split; [constructor|]. split; [discriminate|]. repeat split; vm_compute; reflexivity. Qed.

(** A Write that nobody awaits may never take place: main returns, and with it the process.
    It may also stop in the middle, with an empty file. *)
Definition forgotten : main := Start (OWrite [102] 0) (fun _ => Finish).
Theorem C122_forgotten_refuted :
  (exists ts, forall ts', let c := fst (turns false (begun root [zs_ab] forgotten) (ts ++ ts')) in
     over c = true /\ contents_of (fsys c) [102] = None) /\
  (exists m ts, forall ts', let c := fst (turns false (begun root [zs_ab] m) (ts ++ ts')) in
     over c = true /\ contents_of (fsys c) [102] = Some []).
Proof.
  assert (Stop : forall c ts, over c = true -> turns false c ts = (c, [])).
  { intros c ts Ov. induction ts as [|[[h|] ch] ts IH]; [reflexivity|..]; cbn [turns turn_step fst snd].
    - unfold worker_step. rewrite Ov, IH. reflexivity.
    - unfold main_step. unfold over in Ov. destruct (code c) as [[]|]; try discriminate. rewrite IH. reflexivity. }
  split.
  - exists [(None, fine 9)]. intros ts'. rewrite turns_app.
    destruct (turns false (begun root [zs_ab] forgotten) [(None, fine 9)]) as [c a] eqn:E. vm_compute in E. injection E as <- <-.
    rewrite Stop by reflexivity. vm_compute. auto.
  - exists (Start (OWrite [102] 0) (fun _ => SetByte 0 0 97 Finish)), [(None, fine 9); (Some 0%nat, fine 9); (None, fine 9)]. intros ts'. rewrite turns_app.
    destruct (turns false _ [(None, fine 9); (Some 0%nat, fine 9); (None, fine 9)]) as [c a] eqn:E. vm_compute in E. injection E as <- <-.
    rewrite Stop by reflexivity. vm_compute. auto.
Qed.
Print Assumptions C122_forgotten_refuted.
(** The first Await of a future gives the result of the call, when it is done; the others give
    neither Ok nor Err. *)
Theorem C122_await : forall captured c h k ch o wk, code c = Code (Await h k) -> nth_error (futures c) h = Some (o, wk) ->
  (forall a, wk = Some (Calls (Done a)) ->
     exists c', turn_step captured c (None, ch) = (c', [a]) /\ code c' = Code (k a) /\ nth_error (futures c') h = Some (o, None)) /\
  (wk = None -> exists c', turn_step captured c (None, ch) = (c', [Zero]) /\ code c' = Code (k Zero)) /\
  (wk <> None -> (forall a, wk <> Some (Calls (Done a))) -> turn_step captured c (None, ch) = (c, [])).
Proof.
  intros captured c h k ch o wk Ec Ef. cbn [turn_step fst snd]. unfold main_step. rewrite Ec, Ef.
  assert (L : (h < length (futures c))%nat) by (apply nth_error_Some; congruence). split; [|split].
  - intros a ->. eexists. split; [reflexivity|]. cbn [code futures]. split; [reflexivity|]. now rewrite nth_error_list_set_eq.
  - intros ->. eexists. split; reflexivity.
  - intros N D. destruct wk as [[[]| |]|]; try reflexivity; [now destruct (D r) | now destruct N].
Qed.
Print Assumptions C122_await.

(** A careful run: the slice is set before the call and after the answer; the second write finds
    the new byte. *)
Example C122_nonvacuous :
  exists ts, let m := SetByte 0 0 65 (Start (OWrite [102] 0) (fun h => Await h (fun _ =>
      SetByte 0 1 66 (Start (OWrite [103] 0) (fun h => Await h (fun _ => Start (ORead [102]) (fun h => Await h (fun _ => Finish)))))))) in
    careful (begun root [zs_ab] m) ts /\
    let (c, a) := turns false (begun root [zs_ab] m) ts in
    over c = true /\ a = [Plain (Ok tt); Plain (Ok tt); Bytes (Ok [65; 98])] /\ contents_of (fsys c) [103] = Some zs_AB.
Proof.
  set (m := (None, fine 9) : turn). set (t0 := (Some 0%nat, fine 9) : turn). set (t1 := (Some 1%nat, fine 9) : turn). set (t2 := (Some 2%nat, fine 9) : turn).
  exists [m; m; m; t0; t0; t0; t0; t0; t0; m; m; m; t1; t1; t1; t1; t1; t1; m; m; t2; t2; t2; t2; m].
  split.
  - vm_compute. repeat (apply conj; [try exact I; intros p wk Q; repeat (destruct Q as [Q|Q]; [discriminate|]); exact Q|]). exact I.
  - vm_compute. repeat split.
Qed.
