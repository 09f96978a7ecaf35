(** The meaning and the well-formedness of a basic map, on top of BMapSpec.v. *)
From Coq Require Import ZArith List.
From Verif Require Import SeqSpec BMapModel BMapSpec.
Import ListNotations.
Open Scope Z_scope.

(** the points of a basic map, in homogeneous coordinates *)
Definition points (b : bmap) (p : list Z) : Prop := member (b_empty b) (b_eq b) (b_ineq b) (ndiv b) p.
(** the points that matter: rational ones if the flag is set, integer ones otherwise *)
Definition admissible (rat : bool) (v : list Z) : Prop := 0 < hd 0 v /\ (rat = false -> hd 0 v = 1).
(** the rows have the right sizes *)
Definition rows_of (n : nat) (l : list (list Z)) : Prop := Forall (fun r => length r = n) l.
Definition wf (b : bmap) : Prop :=
  rows_of (1 + total b) (b_eq b) /\ rows_of (1 + total b) (b_ineq b) /\ rows_of (2 + total b) (b_div b).
(** the denominators of the integer divisions are not negative *)
Definition denoms (l : list (list Z)) : Prop := Forall (fun d => 0 <= hd 0 d) l.
(** integer divisions only refer to earlier ones *)
Definition ordered (b : bmap) : Prop :=
  forall k j, (k < ndiv b)%nat -> (k <= j)%nat -> hd 0 (nth k (b_div b) []) <> 0 -> nth (2 + nvar b + j) (nth k (b_div b) []) 0 = 0.
(** integer divisions do not refer to each other cyclically *)
Definition acyclic (b : bmap) : Prop :=
  exists rank : nat -> nat, forall k j, (k < ndiv b)%nat -> (j < ndiv b)%nat -> hd 0 (nth k (b_div b) []) <> 0 ->
    nth (2 + nvar b + j) (nth k (b_div b) []) 0 <> 0 -> (rank j < rank k)%nat.
(** the integer points of the constraints satisfy the definitions of the local variables *)
Definition implied (b : bmap) : Prop :=
  forall v, length v = (1 + total b)%nat -> hd 0 v = 1 -> system (b_eq b) (b_ineq b) v -> divisions (b_div b) (1 + nvar b) v.
(** same space and flags, except possibly EMPTY *)
Definition same_space (b b' : bmap) : Prop :=
  b_param b' = b_param b /\ b_in b' = b_in b /\ b_out b' = b_out b /\ b_rat b' = b_rat b.
(** the coefficients that may not have a common divisor *)
Definition reduced (rat : bool) (r : list Z) : Prop := if rat then is_gcd 1 r else is_gcd 1 (tl r).
