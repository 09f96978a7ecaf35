(** Specification of linear optimization.

    A point is given by homogeneous integer coordinates, as in BMapSpec.v; [S] is a
    set of points with positive denominators and [f] an affine expression. *)
From Coq Require Import ZArith List.
From Verif Require Import SeqSpec BMapModel BMapSem LpModel.
Import ListNotations.
Open Scope Z_scope.

(** the rational points of a basic map, and of a map *)
Definition pts (b : bmap) (q : list Z) : Prop := length q = (1 + nvar b)%nat /\ 0 < hd 0 q /\ points b q.
Definition in_some (l : list bmap) (q : list Z) : Prop := exists b, List.In b l /\ pts b q.

(** n/d is the minimum, or maximum, of f/denom over S *)
Definition minimum (S : list Z -> Prop) (f : list Z) (denom n d : Z) : Prop :=
  0 < d /\ (forall p, S p -> n * (denom * hd 0 p) <= d * dot f p) /\ exists p, S p /\ n * (denom * hd 0 p) = d * dot f p.
Definition maximum (S : list Z -> Prop) (f : list Z) (denom n d : Z) : Prop :=
  0 < d /\ (forall p, S p -> d * dot f p <= n * (denom * hd 0 p)) /\ exists p, S p /\ n * (denom * hd 0 p) = d * dot f p.
(** f takes arbitrarily small, or large, values on S *)
Definition unbounded_below (S : list Z -> Prop) (f : list Z) : Prop := forall B, exists p, S p /\ dot f p < B * hd 0 p.
Definition unbounded_above (S : list Z -> Prop) (f : list Z) : Prop := forall B, exists p, S p /\ B * hd 0 p < dot f p.
(** n is n0/d0 rounded up, or down, to an integer *)
Definition rounded_up (n0 d0 n : Z) : Prop := (n - 1) * d0 < n0 <= n * d0.
Definition rounded_down (n0 d0 n : Z) : Prop := n * d0 <= n0 < (n + 1) * d0.
(** the sum of a point and a multiple of another vector *)
Fixpoint plus_times (p : list Z) (m : Z) (r : list Z) : list Z :=
  match p, r with x :: p, y :: r => (x + m * y) :: plus_times p m r | _, _ => [] end.
(** a direction along which f falls and that does not leave S *)
Definition falls (S : list Z -> Prop) (f : list Z) (n : nat) : Prop :=
  exists r, length r = (1 + n)%nat /\ hd 0 r = 0 /\ dot f r < 0 /\ forall p m, S p -> 0 <= m -> S (plus_times p m r).
(** what solving a linear program over the set [S] of points with [n] coordinates
    (and [k] local variables) should give: the result [o] and the solution [sol],
    whose first coordinates are those of a point where the optimum is attained.  If only an integer is
    asked for ([exact] is false), then the minimum is rounded up and the maximum
    is rounded down *)
Definition lp_spec (S : list Z -> Prop) (n k : nat) (f : list Z) (denom : Z) (max exact : bool) (o : lp) (sol : list Z) : Prop :=
  match o with
  | Lp_empty => forall q, ~ S q
  | Lp_unbounded => (exists q, S q) /\ falls S (if max then map Z.opp f else f) n
  | Lp_ok a d => exists a0 d0,
      (if max then maximum S f denom a0 d0 else minimum S f denom a0 d0) /\
      (if exact then a = a0 /\ d = d0 else d = 1 /\ if max then rounded_down a0 d0 a else rounded_up a0 d0 a) /\
      length sol = (1 + n + k)%nat /\ S (firstn (1 + n) sol) /\ a0 * (denom * hd 0 sol) = d0 * dot f (firstn (1 + n) sol)
  end.
(** the same without the solution *)
Definition opt_spec (S : list Z -> Prop) (f : list Z) (denom : Z) (max exact : bool) (o : lp) : Prop :=
  match o with
  | Lp_empty => forall q, ~ S q
  | Lp_unbounded => if max then unbounded_above S f else unbounded_below S f
  | Lp_ok a d => exists a0 d0,
      (if max then maximum S f denom a0 d0 else minimum S f denom a0 d0) /\
      (if exact then a = a0 /\ d = d0 else d = 1 /\ if max then rounded_down a0 d0 a else rounded_up a0 d0 a)
  end.
