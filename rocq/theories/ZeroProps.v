(** ZeroProps.v -- C110: a variable that is only declared (var x HashMap[K, V]) as a new, empty
    container.  It is one for the list, the trees, the vector, the heap and Option; it is not
    for HashMap, HashSet, VecDeque, Mutex and Result, and what those do instead is
    described for every history. *)
From Verif Require Import Base Effect VecModel ZeroSpec ZeroModel ZeroProofs.
From Verif Require HashModel HashSpec HashHistory HashProps DequeModel DequeSpec DequeHistory DequeRunProofs ListModel BTreeModel HeapModel OptionModel.
Local Open Scope Z_scope.

(** The first element cannot be put in: the call panics, and the same call on a new
    container does not. *)
Theorem C110_refuted :
  z_run Z.eqb (fun _ l => l) 0 zero_map [HashSpec.MInsert 1 10] = (zero_map, [None]) /\
  z_run Z.eqb (fun _ l => l) 0 (Some HashModel.HashMapNew) [HashSpec.MInsert 1 10] = (Some [(1, 10)], [Some (HashSpec.Value None)]) /\
  z_srun Z.eqb (fun x => x) (fun _ _ l => l) 0 [] [Declare; Do (HashSpec.SInsert 0 1); Do HashSpec.SNew; Do (HashSpec.SInsert 1 1)]
    = ([zero_map; Some [(1, tt)]], [Some HashSpec.SDone; None; Some HashSpec.SDone; Some (HashSpec.STruth true)]) /\
  z_drun 0 1000 Z.eqb zero_deque [DequeSpec.PushBack 1] = (zero_deque, [None]) /\
  z_drun 0 1000 Z.eqb (DequeModel.mkDeque (repeat 0 7) 0 0) [DequeSpec.PushBack 1]
    = (DequeModel.mkDeque (1 :: repeat 0 6) 1 0, [Some DequeSpec.Done]) /\
  DequeModel.VecDequeNew 0 1000 = Ret (DequeModel.mkDeque (repeat 0 7) 0 0).
Proof. repeat split; vm_compute; reflexivity. Qed.
Print Assumptions C110_refuted.

(** HashMap.  Until the first Clear every Insert panics and changes nothing and every other
    call answers like an empty map; from the first Clear on it is a new map. *)
Theorem C110_hash_map_characterised : forall (K V : Type) (keqb : K -> K -> bool) (ords : nat -> HashModel.order K V) pre post,
  (forall i, HashSpec.fair (ords i)) -> Forall (fun o => o <> HashSpec.MClear) pre ->
  fst (z_run keqb ords 0 zero_map pre) = zero_map /\
  exists answers, snd (z_run keqb ords 0 zero_map pre) = answers /\ Forall2 (map_unprepared keqb) pre answers /\
  z_run keqb ords 0 zero_map (pre ++ HashSpec.MClear :: post) =
    (Some (fst (HashHistory.run keqb ords (S (length pre)) HashModel.HashMapNew post)),
     answers ++ Some HashSpec.Done :: map Some (snd (HashHistory.run keqb ords (S (length pre)) HashModel.HashMapNew post))).
Proof.
  intros K V keqb ords pre post F H. destruct (z_run_nil keqb ords F pre 0%nat H) as (E & U).
  split; [exact E|]. eexists. split; [reflexivity|]. split; [exact U|].
  rewrite z_run_app. cbn [Nat.add]. rewrite E. cbn [z_run z_exec z_Clear entries zero_map].
  change (z_Clear (zero_map (K := K) (V := V))) with (Some (HashModel.HashMapNew (K := K) (V := V))). rewrite z_run_made. reflexivity.
Qed.
Print Assumptions C110_hash_map_characterised.
Example C110_hash_map_nonvacuous :
  z_run Z.eqb (fun _ => @rev (Z * Z)) 0 zero_map
    [HashSpec.MGet 1; HashSpec.MInsert 1 10; HashSpec.MRemove 1; HashSpec.MLen; HashSpec.MClear; HashSpec.MInsert 1 10; HashSpec.MGet 1]
  = (Some [(1, 10)], [Some (HashSpec.Value None); None; Some (HashSpec.Value None); Some (HashSpec.Number 0); Some HashSpec.Done;
                      Some (HashSpec.Value None); Some (HashSpec.Value (Some 10))]).
Proof. vm_compute. reflexivity. Qed.

(** HashSet, any number of variables that are declared or made.  The calls that panic are
    the Inserts into a set that has only been declared and not been cleared since; without
    them the history is one of ordinary sets, a declared one being a new one. *)
Theorem C110_hash_set_characterised : forall (K : Type) (keqb : K -> K -> bool) clone ords ops, HashSpec.equivalence keqb ->
  (forall x, keqb (clone x) x = true) -> (forall n i, HashSpec.fair (ords n i)) ->
  exists hs answers ps, z_srun keqb clone ords 0 [] ops = (hs, answers) /\
    map (fun a => match a with None => true | Some _ => false end) answers = refusals [] ops /\
    HashSpec.shistory keqb [] (map as_new (served [] ops)) ps (given answers) /\
    length hs = length ps /\
    forall i x, HashModel.Contains keqb (entries (nth i hs zero_map)) x = true <-> HashSpec.set ps i x.
Proof.
  intros K keqb clone ords ops HE Hc Ho. destruct (z_srun_served keqb clone ords Ho ops 0%nat []) as (R & ords' & Ho' & E).
  destruct (z_srun keqb clone ords 0 [] ops) as [hs answers]. cbn [fst snd nils map] in *.
  destruct (HashProps.C53_history K keqb clone ords' (map as_new (served [] ops)) HE Hc Ho') as (hs' & rs & ps & E' & Hs & Ln & Sh).
  pose proof (eq_trans (eq_sym E) E') as EE. injection EE as <- <-. exists hs, answers, ps. split; [reflexivity|]. split; [exact R|]. split; [exact Hs|].
  rewrite map_length in Ln. split; [exact Ln|]. intros i x. rewrite <- Sh.
  change HashModel.HashSetNew with (entries (zero_map (K := K) (V := unit))). rewrite map_nth. reflexivity.
Qed.
Print Assumptions C110_hash_set_characterised.
Example C110_hash_set_nonvacuous :
  let ops := [Declare; Do (HashSpec.SContains 0 1); Do (HashSpec.SInsert 0 1); Do (HashSpec.SFromSlice [1; 2]); Do (HashSpec.SUnion 0 1);
              Do (HashSpec.SInsert 2 7); Do (HashSpec.SIsSubset 0 1); Do (HashSpec.SClear 0); Do (HashSpec.SInsert 0 1)] in
  refusals [] ops = [false; false; true; false; false; false; false; false; false] /\
  snd (z_srun Z.eqb (fun x => x) (fun _ _ l => l) 0 [] ops) =
    [Some HashSpec.SDone; Some (HashSpec.STruth false); None; Some HashSpec.SDone; Some HashSpec.SDone;
     Some (HashSpec.STruth true); Some (HashSpec.STruth true); Some HashSpec.SDone; Some (HashSpec.STruth true)].
Proof. vm_compute. split; reflexivity. Qed.

(** VecDeque.  Until the first Clear or Reserve of at least one cell every push panics and
    leaves the deque as it was, and the calls that an empty deque answers without a change
    are answered so; from then on it is a new deque. *)
Theorem C110_deque_characterised : forall (T : Type) (zero : T) limit eqb pre o post l' answers, 7 <= limit < 2 ^ 63 ->
  Forall (fun o => pushes o \/ harmless eqb o) pre -> readies o ->
  DequeSpec.dhistory eqb [] post l' answers -> DequeSpec.space 0 (o :: post) <= limit ->
  fst (z_drun zero limit eqb zero_deque pre) = zero_deque /\
  exists before d', Forall2 (deque_unprepared eqb) pre before /\
    z_drun zero limit eqb zero_deque pre = (zero_deque, before) /\
    z_drun zero limit eqb zero_deque (pre ++ o :: post) = (d', before ++ Some DequeSpec.Done :: map Some answers) /\
    DequeHistory.layout limit d' /\ DequeHistory.shows d' l'.
Proof.
  intros T zero limit eqb pre o post l' answers Ok F R H Sp. destruct (z_drun_zero zero limit eqb Ok pre F) as (E & U).
  split; [exact E|]. destruct (z_drun_readied zero limit eqb Ok o post l' answers R H Sp) as (d' & E' & c & Rp).
  destruct (DequeRunProofs.rep_shows limit Ok _ _ _ Rp) as (S & L & _).
  exists (snd (z_drun zero limit eqb zero_deque pre)), d'. split; [exact U|]. split; [now rewrite <- E at 2; destruct (z_drun zero limit eqb zero_deque pre)|].
  split; [|now split]. rewrite z_drun_app. cbn zeta. rewrite E, E'. reflexivity.
Qed.
Print Assumptions C110_deque_characterised.
Example C110_deque_nonvacuous :
  let pre := [DequeSpec.PushBack 1; DequeSpec.PopFront; DequeSpec.PushFront 2; DequeSpec.Get 3; DequeSpec.Len; DequeSpec.Reserve 0] in
  Forall (fun o => pushes o \/ harmless Z.eqb o) pre /\
  snd (z_drun 0 1000 Z.eqb zero_deque (pre ++ [DequeSpec.Reserve 1; DequeSpec.PushBack 5; DequeSpec.PushFront 4; DequeSpec.PopBack])) =
  [None; Some (DequeSpec.Value None); None; Some (DequeSpec.Value None); Some (DequeSpec.Number 0); Some DequeSpec.Done;
   Some DequeSpec.Done; Some DequeSpec.Done; Some DequeSpec.Done; Some (DequeSpec.Value (Some 5))].
Proof.
  split; [|vm_compute; reflexivity].
  assert (H : forall o b, ~ readies o -> DequeSpec.dstep Z.eqb [] o [] b -> pushes o \/ harmless Z.eqb o) by (intros o b; right; split; eauto).
  apply Forall_cons; [left; exact I|]. apply Forall_cons; [apply (H _ (DequeSpec.Value None)); [tauto|constructor]|].
  apply Forall_cons; [left; exact I|]. apply Forall_cons; [apply (H _ (DequeSpec.Value None)); [tauto|apply (DequeSpec.d_get Z.eqb []); lia]|].
  apply Forall_cons; [apply (H _ (DequeSpec.Number 0)); [tauto|apply (DequeSpec.d_len Z.eqb [])]|].
  apply Forall_cons; [apply (H _ DequeSpec.Done); [cbn [readies]; lia|constructor; lia]|constructor].
Qed.

(** Mutex.  It locks and unlocks, but what Lock and TryLock give is the nil pointer: using
    it panics, whatever the memory; a mutex made by MutexNew gives its value. *)
Theorem C110_mutex_characterised : forall (T : Type) (mem : list T) a x, nth_error mem a = Some x ->
  (exists m, m_Lock zero_mutex = Some (m, None) /\ held m = true /\ m_Lock m = None) /\
  (exists m, m_TryLock zero_mutex = (m, OptionModel.Ok None) /\ held m = true /\ m_TryLock m = (m, OptionModel.Err (Some tt))) /\
  load mem None = Panic /\
  (exists m, m_Lock (new_mutex a) = Some (m, Some a)) /\ load mem (Some a) = Ret x.
Proof.
  intros T mem a x H. split; [eexists; repeat split|]. split; [eexists; repeat split|]. split; [reflexivity|].
  split; [eexists; reflexivity|]. unfold load, idx. cbn [of_option bind]. now rewrite H.
Qed.
Print Assumptions C110_mutex_characterised.

(** Result.  It is neither Ok nor Err, and both Unwraps panic. *)
Theorem C110_result_characterised : forall (S T E : Type) (s : S),
  OptionModel.IsOk (zero_result (T := T) (E := E)) = false /\ OptionModel.IsErr (zero_result (T := T) (E := E)) = false /\
  OptionModel.R_Unwrap (zero_result (T := T) (E := E)) s = Panic /\ OptionModel.R_UnwrapErr (zero_result (T := T) (E := E)) s = Panic.
Proof. repeat split. Qed.
Print Assumptions C110_result_characterised.

(** The others are what their constructors make. *)
Theorem C110_others_partial : forall (T : Type) (zero : T) (m : VecModel.mem T),
  zero_vec m = VecModel.VecNew zero m /\ HeapModel.BinaryHeapNew (T := T) = HeapModel.mkHeap [] 0 /\
  VecModel.contents (fst (zero_vec m)) (snd (zero_vec m)) = [] /\ VecModel.Capacity (fst (zero_vec m)) (snd (zero_vec m)) = 0%nat /\
  zero_list = ListModel.LinkedListNew /\ zero_tree = BTreeModel.BTreeMapNew /\ zero_tree = BTreeModel.BTreeSetNew /\
  zero_option = @None T.
Proof.
  intros. repeat split. unfold VecModel.Capacity, VecModel.scap, VecModel.array, zero_vec. cbn [fst snd VecModel.arr].
  now rewrite nth_middle.
Qed.
Print Assumptions C110_others_partial.
