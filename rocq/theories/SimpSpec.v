(** Specification of the simplification of basic maps. *)
From Coq Require Import ZArith List.
From Verif Require Import SeqSpec BMapModel BMapSpec BMapSem.
Import ListNotations.
Open Scope Z_scope.

(** a basic map marked empty does not have any inequalities or local variables
    left, only equalities that cannot be satisfied *)
Definition bare (b : bmap) : Prop := b_empty b = true -> b_div b = [] /\ b_ineq b = [] /\
  forall v, length v = (1 + nvar b)%nat -> admissible (b_rat b) v -> ~ Forall (zero_on v) (b_eq b).
(** a consistent basic map: rows of the right sizes, no cyclic definitions of
    local variables, non-negative denominators, definitions that follow from
    the constraints, no local variables in a rational basic map *)
Definition good (b : bmap) : Prop :=
  wf b /\ acyclic b /\ denoms (b_div b) /\ implied b /\ (b_rat b = true -> ndiv b = O) /\ bare b.
(** the same integer points, or the same rational ones for rational basic maps *)
Definition alike (b b' : bmap) : Prop :=
  forall q, length q = (1 + nvar b)%nat -> admissible (b_rat b) q -> (points b q <-> points b' q).
(** the second basic map is a consistent description of the first one *)
Definition pres (b b' : bmap) : Prop := same_space b b' /\ good b' /\ alike b b'.
