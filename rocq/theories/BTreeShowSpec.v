(** BTreeShowSpec.v -- what Display and Eq of ordered maps should say. *)
From Verif Require Import Base BTreeSpec.

Section Show.
  Context {K V : Type}.
  Variable cmp : K -> K -> ordering.
  (** "k: v" for each key that has a value. *)
  Definition shown (dk : K -> list Z) (dv : V -> list Z) (g : K -> option V) (ks : list K) : list (list Z) :=
    flat_map (fun k => match g k with Some v => [dk k ++ [58; 32]%Z ++ dv v] | None => [] end) ks.
  (** The same keys, with values that [eq] takes for equal. *)
  Definition agree (eq : V -> V -> bool) (l1 l2 : list (K * V)) : Prop :=
    forall q, match get cmp q l1, get cmp q l2 with
              | None, None => True
              | Some v, Some w => eq w v = true
              | _, _ => False
              end.
End Show.

(** *** Histories of one set *)
Section SetHistory.
  Context {K : Type}.
  Variable cmp : K -> K -> ordering.
  Inductive sop := SAdd (x : K) | STake (x : K) | SHas (x : K) | SCount | SNone | SWipe.
  Inductive sanswer := STruth (b : bool) | SNumber (z : Z) | SDone.
  (** A set is a list without repetitions; mem is up to the order's Equal. *)
  Definition without (x : K) (l : list K) : list K := filter (fun y => match cmp x y with Equal => false | _ => true end) l.
  Definition set_step (l : list K) (o : sop) : list K * sanswer :=
    match o with
    | SAdd x => (if mem cmp x l then l else x :: l, STruth (negb (mem cmp x l)))
    | STake x => (without x l, STruth (mem cmp x l))
    | SHas x => (l, STruth (mem cmp x l))
    | SCount => (l, SNumber (Z.of_nat (length l)))
    | SNone => (l, STruth (match l with [] => true | _ => false end))
    | SWipe => ([], SDone)
    end.
  Fixpoint set_run (l : list K) (ops : list sop) : list sanswer :=
    match ops with
    | [] => []
    | o :: r => snd (set_step l o) :: set_run (fst (set_step l o)) r
    end.
  (** What the code can bear: at most eleven elements, and the greatest of several
      elements is never taken out. *)
  Definition set_mild (l : list K) (o : sop) : Prop :=
    match o with
    | SAdd x => mem cmp x l = true \/ length l < 11
    | STake x => mem cmp x l = false \/ length l = 1 \/ exists y, In y l /\ cmp x y = Less
    | _ => True
    end.
  Fixpoint set_mild_all (l : list K) (ops : list sop) : Prop :=
    match ops with
    | [] => True
    | o :: r => set_mild l o /\ set_mild_all (fst (set_step l o)) r
    end.
End SetHistory.
