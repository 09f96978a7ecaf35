(** Specifications for systems of linear constraints. *)
From Coq Require Import ZArith List.
From Verif Require Import SeqSpec.
Import ListNotations.
Open Scope Z_scope.

(** A point is given by its homogeneous coordinates, the list of a positive
    denominator and the numerators; a row is the list of a constant term and the
    coefficients.  An integer point has denominator one. *)
Definition zero_on (v : list Z) (r : list Z) : Prop := dot r v = 0.
Definition nonneg_on (v : list Z) (r : list Z) : Prop := 0 <= dot r v.
Definition system (eqs ineqs : list (list Z)) (v : list Z) : Prop :=
  Forall (zero_on v) eqs /\ Forall (nonneg_on v) ineqs.
(** the (integer) value [e] is the integer division defined by [d]: the floor
    of an affine expression over a denominator; a zero denominator leaves the
    value undefined *)
Definition division (d : list Z) (e : Z) (v : list Z) : Prop :=
  hd 0 d = 0 \/ hd 0 d * e <= dot (tl d) v < hd 0 d * e + hd 0 d.
(** the values of the local variables, in [v] from position [o] on *)
Definition divisions (ds : list (list Z)) (o : nat) (v : list Z) : Prop :=
  forall k, (k < length ds)%nat -> division (nth k ds []) (nth (o + k) v 0) v.
(** the points described by a system with [n] local variables: the local
    variables are existentially quantified *)
Definition described (eqs ineqs : list (list Z)) (n : nat) (p : list Z) : Prop :=
  exists e, length e = n /\ system eqs ineqs (p ++ e).
(** ... unless the system is marked empty *)
Definition member (empty : bool) (eqs ineqs : list (list Z)) (n : nat) (p : list Z) : Prop :=
  empty = false /\ described eqs ineqs n p.
(** row echelon form, from the last column backward: [ps] are the (strictly
    decreasing) columns of the leading coefficients, which are positive and the
    only non-zero ones in their columns *)
Definition echelon (eqs : list (list Z)) (ps : list nat) : Prop :=
  length ps = length eqs /\
  (forall i j, (i < j < length ps)%nat -> (nth j ps O < nth i ps O)%nat) /\
  (forall i, (i < length ps)%nat -> (0 < nth i ps O)%nat /\ 0 < nth (nth i ps O) (nth i eqs []) 0 /\
     (forall c, (nth i ps O < c)%nat -> nth c (nth i eqs []) 0 = 0) /\
     (forall j, (j < length ps)%nat -> j <> i -> nth (nth i ps O) (nth j eqs []) 0 = 0)).
