(** BTreeProgModel.v -- programs over BTreeMap or BTreeSet variables whose nodes are in one
    heap: the calls of BTreeModel.v, where they are cited, one after the other.  The programs
    are a user's; they are no code of /repo. *)
From Verif Require Import Base Effect HashModel BTreeModel BTreeSpec BTreeHistory BTreeShowSpec BTreeSetRun BTreeProgSpec.
Local Open Scope nat_scope.

(** A call that only reads: the variables stay as they are. *)
Definition asked {K V A B} (ms : list BTreeMap) (f : heap K V -> out A) (g : A -> B) : M (heap K V) (list BTreeMap * B) :=
  fun h => a <- f h ;; Ret ((ms, g a), h).

Section Maps.
  Context {K V : Type}.
  Variable cmp : K -> K -> ordering.
  Variable eq : V -> V -> bool.
  Variable dk : K -> list Z.
  Variable dv : V -> list Z.
  Notation heap := (heap K V).
  Definition mexec (ms : list BTreeMap) (o : mop K V) : M heap (list BTreeMap * manswer K V) :=
    match o with
    | MNew => mret (ms ++ [BTreeMapNew], MDone)
    | MDo i o => m <~ lift (idx ms i) ;; r <~ exec cmp m o ;; mret (list_set ms i (fst r), MAnswer (snd r))
    | MEq i j => m <~ lift (idx ms i) ;; other <~ lift (idx ms j) ;; asked ms (Eq cmp (Some eq) m other) MTruth
    | MDisplay i => m <~ lift (idx ms i) ;; asked ms (Display cmp (fun k => Some (dk k)) (fun v => Some (dv v)) m) MText
    end.
  Fixpoint mprogram (ms : list BTreeMap) (ops : list (mop K V)) : M heap (list BTreeMap * list (manswer K V)) :=
    match ops with
    | [] => mret (ms, [])
    | o :: r => x <~ mexec ms o ;; y <~ mprogram (fst x) r ;; mret (fst y, snd x :: snd y)
    end.
End Maps.

Section Sets.
  Context {K : Type}.
  Variable cmp : K -> K -> ordering.
  Variable dk : K -> list Z.
  Notation heap := (heap K unit).
  Definition zexec (ss : list BTreeSet) (o : zop K) : M heap (list BTreeSet * zanswer K) :=
    match o with
    | ZNew => mret (ss ++ [BTreeSetNew], ZDone)
    | ZDo i o => s <~ lift (idx ss i) ;; r <~ sexec cmp s o ;; mret (list_set ss i (fst r), ZAnswer (snd r))
    | ZElements i => s <~ lift (idx ss i) ;; asked ss (sIntoIter_vec s) ZList
    | ZSubset i j => s <~ lift (idx ss i) ;; other <~ lift (idx ss j) ;; asked ss (IsSubset cmp s other) ZTruth
    | ZSuperset i j => s <~ lift (idx ss i) ;; other <~ lift (idx ss j) ;; asked ss (IsSuperset cmp s other) ZTruth
    | ZDisjoint i j => s <~ lift (idx ss i) ;; other <~ lift (idx ss j) ;; asked ss (IsDisjoint cmp s other) ZTruth
    | ZEq i j => s <~ lift (idx ss i) ;; other <~ lift (idx ss j) ;; asked ss (sEq cmp s other) ZTruth
    | ZDisplay i => s <~ lift (idx ss i) ;; asked ss (sDisplay (fun k => Some (dk k)) s) ZText
    | ZIntersection i j => s <~ lift (idx ss i) ;; other <~ lift (idx ss j) ;; u <~ Intersection cmp s other ;; mret (ss ++ [u], ZDone)
    | ZUnion i j => s <~ lift (idx ss i) ;; other <~ lift (idx ss j) ;; u <~ Union cmp s other ;; mret (ss ++ [u], ZDone)
    | ZSymmetricDifference i j =>
        s <~ lift (idx ss i) ;; other <~ lift (idx ss j) ;; u <~ SymmetricDifference cmp s other ;; mret (ss ++ [u], ZDone)
    end.
  Fixpoint zprogram (ss : list BTreeSet) (ops : list (zop K)) : M heap (list BTreeSet * list (zanswer K)) :=
    match ops with
    | [] => mret (ss, [])
    | o :: r => x <~ zexec ss o ;; y <~ zprogram (fst x) r ;; mret (fst y, snd x :: snd y)
    end.
End Sets.
