(** Specifications for variable and parameter compression. *)
From Coq Require Import ZArith List.
From Verif Require Import MatSpec.
Open Scope Z_scope.

(** a point of [k] coordinates, preceded by a one *)
Definition homogeneous (v : nat -> Z) : Prop := v O = 1.
(** the point satisfies [m] equalities with [nc] columns *)
Definition satisfies (m nc : nat) (B : nat -> nat -> Z) (v : nat -> Z) : Prop :=
  forall i, (i < m)%nat -> apply nc B v i = 0.
(** [T], with a common denominator [T 0 0], maps the points [w] to points [v];
    those of the [v] that satisfy [P] are exactly the integer images, and [T2]
    recovers the source *)
Definition compresses (nv nw : nat) (T T2 : nat -> nat -> Z) (P : (nat -> Z) -> Prop) : Prop :=
  0 < T O O /\ (forall j, (0 < j < nw)%nat -> T O j = 0) /\
  (forall v, homogeneous v -> P v ->
     apply nv T2 v O = 1 /\ forall i, (i < nv)%nat -> apply nw T (apply nv T2 v) i = T O O * v i) /\
  (forall w v, homogeneous w -> homogeneous v -> (forall i, (i < nv)%nat -> apply nw T w i = T O O * v i) ->
     P v /\ forall j, (j < nw)%nat -> w j = apply nv T2 v j).
(** congruences [B v = 0 mod d] *)
Definition congruent (m nc : nat) (B : nat -> nat -> Z) (d : nat -> Z) (v : nat -> Z) : Prop :=
  forall i, (i < m)%nat -> (d i | apply nc B v i).
(** the integer points [T w] are those that satisfy [P], each for one [w] *)
Definition parametrizes (n : nat) (T : nat -> nat -> Z) (P : (nat -> Z) -> Prop) : Prop :=
  (forall w, homogeneous w -> homogeneous (apply n T w) /\ P (apply n T w)) /\
  (forall v, homogeneous v -> P v -> exists w, homogeneous w /\ forall i, (i < n)%nat -> v i = apply n T w i) /\
  (forall w w', homogeneous w -> homogeneous w' -> (forall i, (i < n)%nat -> apply n T w i = apply n T w' i) ->
     forall j, (j < n)%nat -> w j = w' j).
(** lower triangular, with a positive diagonal and, apart from the constant
    terms in the first column, smaller non-negative elements to its left *)
Definition reduced_triangular (n : nat) (T : nat -> nat -> Z) : Prop :=
  forall i, (i < n)%nat ->
    0 < T i i /\ (forall j, (i < j < n)%nat -> T i j = 0) /\ (forall j, (0 < j < i)%nat -> 0 <= T i j < T i i).
