(** BTreeSetRun.v -- running operations on one BTreeSet. *)
From Verif Require Import Base Effect HashModel BTreeModel BTreeSpec BTreeShowSpec.

Section Run.
  Context {K : Type}.
  Variable cmp : K -> K -> ordering.
  Definition sexec (s : BTreeSet) (o : sop (K := K)) : M (heap K unit) (BTreeSet * sanswer) :=
    match o with
    | SAdd x => r <~ sInsert cmp s x ;; mret (fst r, STruth (snd r))
    | STake x => r <~ sRemove cmp s x ;; mret (fst r, STruth (snd r))
    | SHas x => b <~ reading (Contains cmp s x) ;; mret (s, STruth b)
    | SCount => mret (s, SNumber (sLen s))
    | SNone => mret (s, STruth (sIsEmpty s))
    | SWipe => mret (sClear s, SDone)
    end.
  Fixpoint srun (s : BTreeSet) (ops : list sop) : M (heap K unit) (BTreeSet * list sanswer) :=
    match ops with
    | [] => mret (s, [])
    | o :: r => x <~ sexec s o ;; y <~ srun (fst x) r ;; mret (fst y, snd x :: snd y)
    end.
End Run.
