(** Specification of redundancy information and of projections. *)
From Coq Require Import ZArith List.
From Verif Require Import SeqSpec BMapModel BMapSpec BMapSem BElimModel.
Import ListNotations.
Open Scope Z_scope.

(** what a classification of the inequalities claims about a point *)
Definition obeys (ks : list kind) (ineqs : list (list Z)) (v : list Z) : Prop :=
  forall i, (i < length ineqs)%nat ->
    match nth i ks Other with
    | Equality => zero_on v (nth i ineqs [])
    | Redundant => True
    | Other => nonneg_on v (nth i ineqs [])
    end.
(** the classification is correct: replacing inequalities by equalities and
    dropping redundant ones does not change the set of solutions *)
Definition classified (b : bmap) (empty : bool) (ks : list kind) : Prop :=
  forall v, length v = (1 + total b)%nat -> admissible (b_rat b) v ->
    if empty then ~ system (b_eq b) (b_ineq b) v
    else (system (b_eq b) (b_ineq b) v <-> Forall (zero_on v) (b_eq b) /\ obeys ks (b_ineq b) v).
Definition sound_tab (tab : bmap -> bool * list kind) : Prop :=
  forall b, wf b -> b_empty b = false -> classified b (fst (tab b)) (snd (tab b)).

(** two points that are the same except possibly for the variables in [X] *)
Definition agree (X : nat -> Prop) (q q' : list Z) : Prop :=
  length q' = length q /\ hd 0 q' = hd 0 q /\ forall c, ~ X c -> nth (1 + c) q' 0 = nth (1 + c) q 0.
Definition scale (k : Z) (q : list Z) : list Z := map (Z.mul k) q.
(** a rational point: the homogeneous coordinates are only determined up to
    scaling, and the local variables may need a larger denominator *)
Definition rational_point (b : bmap) (q : list Z) : Prop := exists k, 0 < k /\ points b (scale k q).
