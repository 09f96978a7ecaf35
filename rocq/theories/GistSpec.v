(** Specification of the gist operation: the result and the original have the
    same points inside the context.  Also what is assumed about the parts of
    the code that are arguments of the model. *)
From Coq Require Import ZArith List Bool Arith.
From Verif Require Import SeqSpec MatModel BMapModel BMapSpec BMapSem BElimModel BElimSpec SimpModel SetModel SetSpec SetBase SetLift SetOps.
Import ListNotations.
Open Scope Z_scope.

(** a set of dimension [n] without parameters and local variables *)
Definition flat (n : nat) (b : bmap) : Prop := proper b /\ sized 0 0 n b /\ b_div b = [].
(** a point in space, with a one in front *)
Definition at_point (n : nat) (v : list Z) : Prop := length v = (1 + n)%nat /\ hd 0 v = 1.
(** the point satisfies the constraints *)
Definition sat (b : bmap) (v : list Z) : Prop := system (b_eq b) (b_ineq b) v.
(** a variable that does not appear in the constraints *)
Definition absent (c : nat) (b : bmap) : Prop :=
  forall r, In r (b_eq b) \/ In r (b_ineq b) -> nth (1 + c) r 0 = 0.

(** a set that is marked empty does not have inequalities *)
Definition emptied (b : bmap) : Prop := b_empty b = true -> b_ineq b = [].

(** the tableau of uset_gist_full: if it is not empty, then
    - the inequalities known to be equalities are zero on all solutions,
    - the inequalities follow from the equalities, the frozen inequalities and
      what is known about the other ones,
    - the frozen inequalities known to be equalities follow from the
      equalities, the frozen inequalities and the other inequalities known to be
      equalities,
    - the frozen inequalities are not redundant *)
Definition sound_gist_tab (gist_tab : bmap -> nat -> bool * list kind) : Prop :=
  forall n b f, flat n b -> b_empty b = false -> (f <= length (b_ineq b))%nat ->
  let ks := snd (gist_tab b f) in
  let l := b_ineq b in
  (forall i, (i < f)%nat -> nth i ks Other <> Redundant) /\
  forall v, at_point n v ->
  if fst (gist_tab b f) then ~ sat b v
  else
    (sat b v -> forall i, (i < length l)%nat -> nth i ks Other = Equality -> zero_on v (nth i l [])) /\
    (Forall (zero_on v) (b_eq b) -> Forall (nonneg_on v) (firstn f l) ->
     (forall i, (f <= i < length l)%nat ->
        match nth i ks Other with
        | Equality => zero_on v (nth i l [])
        | Redundant => True
        | Other => nonneg_on v (nth i l [])
        end) -> Forall (nonneg_on v) l) /\
    (Forall (zero_on v) (b_eq b) -> Forall (nonneg_on v) (firstn f l) ->
     (forall i, (f <= i < length l)%nat -> nth i ks Other = Equality -> zero_on v (nth i l [])) ->
     forall i, (i < f)%nat -> nth i ks Other = Equality -> zero_on v (nth i l [])).
(** the emptiness test does not find a set empty that has an integer point *)
Definition sound_emptiness_test (is_empty : bmap -> bool) : Prop :=
  forall n b, flat n b -> is_empty b = true -> forall v, at_point n v -> ~ sat b v.
(** the detection of equalities does not change the set of integer points and
    does not make use of variables that do not appear *)
Definition sound_detection (detect : bmap -> res bmap) : Prop :=
  forall n b b', flat n b -> detect b = Ok b' -> flat n b' /\ (emptied b -> emptied b') /\ (forall v, at_point n v -> (sat b v <-> sat b' v)) /\
    (forall c, (c < n)%nat -> absent c b -> absent c b').
(** the reduction of the stride constraints of a basic map without inequalities
    other than those of the integer divisions does not change the points
    inside the context *)
Definition sound_strides (simp_fin : bmap -> res bmap) (strides : bmap -> bmap -> res bmap) : Prop :=
  forall np ni no b ctx b', proper b -> sized np ni no b -> proper ctx -> sized np ni no ctx ->
    (b_div b = [] \/ exists b0, proper b0 /\ simp_fin b0 = Ok b) -> strides b ctx = Ok b' ->
    proper b' /\ sized np ni no b' /\ (emptied b -> emptied b') /\
    forall P I O, length P = np -> length I = ni -> length O = no -> relates ctx P I O -> (relates b' P I O <-> relates b P I O).
(** a basic map that contains the map *)
Definition sound_hull (hull : list bmap -> res bmap) : Prop :=
  forall np ni no l h, Forall (okb np ni no) l -> hull l = Ok h -> okb np ni no h /\
    forall P I O, length P = np -> length I = ni -> length O = no -> relates_any l P I O -> relates h P I O.
