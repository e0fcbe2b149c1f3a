(** HashVarSpec.v -- programs with any number of variables of a container type, in which a
    variable may be assigned to another.  The contents of a variable, the calls and their
    answers are parameters; the two instances at the end are maps and sets. *)
From Verif Require Import Base HashSpec.

Section Variables.
  Context {F O Q A : Type}.
  (** A method called on one variable: contents before, call, contents after, answer. *)
  Variable doing : F -> O -> F -> A -> Prop.
  (** A function of any number of variables, which it only reads: a new container, or none. *)
  Variable from : list F -> Q -> option F -> A -> Prop.
  (** The answer of an assignment. *)
  Variable done : A.

  Inductive cop :=
  | Copy (v : nat)                     (* w := v, a new variable *)
  | Do (v : nat) (o : O)               (* v.o() *)
  | From (q : Q) (vs : list nat).      (* q(vs...), its result in a new variable *)

  Definition new_one {X} (r : option X) : list X := match r with Some f => [f] | None => [] end.

  (** *** Variables that are values: an assignment copies the contents, and a call changes
      the variable it is called on. *)
  Inductive vstep : list F -> cop -> list F -> A -> Prop :=
  | v_copy fs v f : nth_error fs v = Some f -> vstep fs (Copy v) (fs ++ [f]) done
  | v_do fs v o f g a : nth_error fs v = Some f -> doing f o g a -> vstep fs (Do v o) (list_set fs v g) a
  | v_from fs q vs gs r a : map (nth_error fs) vs = map Some gs -> from gs q r a -> vstep fs (From q vs) (fs ++ new_one r) a.
  Inductive values : list F -> list cop -> list A -> Prop :=
  | vs_nil fs : values fs [] []
  | vs_cons fs o gs a ops rs : vstep fs o gs a -> values gs ops rs -> values fs (o :: ops) (a :: rs).

  (** *** Variables that are bound together by an assignment: a call on one of them changes
      all, until a call that clears one unbinds it. *)
  Variable clears : O -> bool.
  Definition bonds := nat -> nat -> bool.
  Definition unbind (b : bonds) (v : nat) : bonds := fun x y => if (Nat.eqb x v || Nat.eqb y v)%bool then Nat.eqb x y else b x y.
  (** The new variable n is bound to v and to everything v is bound to. *)
  Definition bind_to (b : bonds) (n v : nat) : bonds :=
    fun x y => b (if Nat.eqb x n then v else x) (if Nat.eqb y n then v else y).
  Inductive bstep : list F * bonds -> cop -> list F * bonds -> A -> Prop :=
  | b_copy fs b v f : nth_error fs v = Some f -> bstep (fs, b) (Copy v) (fs ++ [f], bind_to b (length fs) v) done
  | b_clear fs (b : bonds) v o f g a : clears o = true -> nth_error fs v = Some f -> doing f o g a ->
      bstep (fs, b) (Do v o) (list_set fs v g, unbind b v) a
  | b_do fs (b : bonds) v o f g a gs : clears o = false -> nth_error fs v = Some f -> doing f o g a ->
      length gs = length fs -> (forall w, (w < length fs)%nat -> nth_error gs w = if (b v w : bool) then Some g else nth_error fs w) ->
      bstep (fs, b) (Do v o) (gs, b) a
  | b_from fs (b : bonds) q vs gs r a : map (nth_error fs) vs = map Some gs -> from gs q r a -> bstep (fs, b) (From q vs) (fs ++ new_one r, b) a.
  Inductive bound : list F * bonds -> list cop -> list A -> Prop :=
  | bs_nil s : bound s [] []
  | bs_cons s o t a ops rs : bstep s o t a -> bound t ops rs -> bound s (o :: ops) (a :: rs).
  (** At first no two variables are bound. *)
  Definition unbound : bonds := Nat.eqb.

  (** *** Programs *)
  Variable makes : Q -> bool.
  Variable writes : O -> bool.
  (** Only existing variables are named; n of them exist. *)
  Fixpoint scoped (n : nat) (ops : list cop) : Prop :=
    match ops with
    | [] => True
    | Copy v :: r => (v < n)%nat /\ scoped (S n) r
    | Do v _ :: r => (v < n)%nat /\ scoped n r
    | From q vs :: r => Forall (fun v => (v < n)%nat) vs /\ scoped (if makes q then S n else n) r
    end.
  (** The program does not look at w again before it is cleared. *)
  Fixpoint forgotten (w : nat) (ops : list cop) : bool :=
    match ops with
    | [] => true
    | Copy v :: r => negb (Nat.eqb v w) && forgotten w r
    | Do v o :: r => if Nat.eqb v w then clears o else forgotten w r
    | From q vs :: r => negb (existsb (Nat.eqb w) vs) && forgotten w r
    end.
  (** Whenever a variable is written, those still bound to it have been forgotten. *)
  Fixpoint careful (n : nat) (b : bonds) (ops : list cop) : Prop :=
    match ops with
    | [] => True
    | Copy v :: r => careful (S n) (bind_to b n v) r
    | Do v o :: r =>
        (writes o = true -> forall w, (w < n)%nat -> w <> v -> b v w = true -> forgotten w r = true) /\
        careful n (if clears o then unbind b v else b) r
    | From q _ :: r => careful (if makes q then S n else n) b r
    end.
End Variables.
Arguments cop O Q : clear implicits.

(** *** HashMap.  [None]: a variable that was only declared; it reads as an empty map, and
    Insert panics (answer [None]) and changes nothing. *)
Section Maps.
  Context {K V : Type}.
  Variable keqb : K -> K -> bool.
  Definition mcontents := option (K -> option V).
  Inductive mdoing : mcontents -> @mop K V -> mcontents -> option (@manswer K V) -> Prop :=
  | md_made f o g a : mstep keqb f o g a -> mdoing (Some f) o (Some g) (Some a)
  | md_clear : mdoing None MClear (Some nothing) (Some Done)
  | md_panic k v : mdoing None (MInsert k v) None None
  | md_other o g a : o <> MClear -> (forall k v, o <> MInsert k v) -> mstep keqb nothing o g a -> mdoing None o None (Some a).
  Inductive mquery := MDeclare | MNew | MWithCapacity (capacity : Z).
  Inductive mfrom : list mcontents -> mquery -> option mcontents -> option (@manswer K V) -> Prop :=
  | mf_declare : mfrom [] MDeclare (Some None) (Some Done)
  | mf_new : mfrom [] MNew (Some (Some nothing)) (Some Done)
  | mf_capacity c : mfrom [] (MWithCapacity c) (Some (Some nothing)) (Some Done).
  (** No arguments. *)
  Definition mform (o : cop (@mop K V) mquery) : Prop := match o with From _ vs => vs = [] | _ => True end.
  Definition mclears (o : @mop K V) : bool := match o with MClear => true | _ => false end.
  Definition mwrites (o : @mop K V) : bool := match o with MInsert _ _ | MRemove _ => true | _ => false end.
  Definition mmakes (q : mquery) : bool := true.
End Maps.

(** *** HashSet *)
Section Sets.
  Context {K : Type}.
  Variable keqb : K -> K -> bool.
  Definition scontents := option (K -> Prop).
  Definition elements_of (c : scontents) : K -> Prop := match c with Some p => p | None => fun _ => False end.
  Inductive sdo := DInsert (x : K) | DRemove (x : K) | DClear | DContains (x : K) | DGet (x : K) | DLen | DIsEmpty | DElements | DAsSlice.
  (** The call in the histories of HashSpec.v, on the set that has number 0. *)
  Definition on_first (o : sdo) : @sop K :=
    match o with
    | DInsert x => SInsert 0 x | DRemove x => SRemove 0 x | DClear => SClear 0 | DContains x => SContains 0 x
    | DGet x => SGet 0 x | DLen => SLen 0 | DIsEmpty => SIsEmpty 0 | DElements => SElements 0 | DAsSlice => SAsSlice 0
    end.
  Inductive sdoing : scontents -> sdo -> scontents -> option (@sanswer K) -> Prop :=
  | sd_made p o q a : sstep keqb [p] (on_first o) [q] a -> sdoing (Some p) o (Some q) (Some a)
  | sd_clear : sdoing None DClear (Some (fun _ => False)) (Some SDone)
  | sd_panic x : sdoing None (DInsert x) None None
  | sd_other o q a : o <> DClear -> (forall x, o <> DInsert x) -> sstep keqb [fun _ => False] (on_first o) [q] a -> sdoing None o None (Some a).
  Inductive squery := QDeclare | QNew | QFromSlice (xs : list K) | QUnion | QIntersection | QSymmetricDifference | QClone
  | QIsSubset | QIsSuperset | QIsDisjoint | QEq.
  (** The call on the sets that have numbers 0 and 1. *)
  Definition on_both (q : squery) : @sop K :=
    match q with
    | QDeclare | QNew => SNew | QFromSlice xs => SFromSlice xs
    | QUnion => SUnion 0 1 | QIntersection => SIntersection 0 1 | QSymmetricDifference => SSymmetricDifference 0 1 | QClone => SClone 0
    | QIsSubset => SIsSubset 0 1 | QIsSuperset => SIsSuperset 0 1 | QIsDisjoint => SIsDisjoint 0 1 | QEq => SEq 0 1
    end.
  Inductive sfrom : list scontents -> squery -> option scontents -> option (@sanswer K) -> Prop :=
  | sf_declare gs : sfrom gs QDeclare (Some None) (Some SDone)
  | sf_set gs q p a : q <> QDeclare -> sstep keqb (map elements_of gs) (on_both q) (map elements_of gs ++ [p]) a -> sfrom gs q (Some (Some p)) (Some a)
  | sf_answer gs q a : sstep keqb (map elements_of gs) (on_both q) (map elements_of gs) a -> sfrom gs q None (Some a).
  (** As many arguments as the function has. *)
  Definition arity (q : squery) : nat :=
    match q with QDeclare | QNew | QFromSlice _ => 0 | QClone => 1 | _ => 2 end.
  Definition sform (o : cop sdo squery) : Prop := match o with From q vs => length vs = arity q | _ => True end.
  Definition sclears (o : sdo) : bool := match o with DClear => true | _ => false end.
  Definition swrites (o : sdo) : bool := match o with DInsert _ | DRemove _ => true | _ => false end.
  Definition smakes (q : squery) : bool :=
    match q with QIsSubset | QIsSuperset | QIsDisjoint | QEq => false | _ => true end.
End Sets.
Arguments squery K : clear implicits.
Arguments sdo K : clear implicits.
