(** Specifications for integer matrices, given by their elements. *)
From Coq Require Import ZArith List.
Open Scope Z_scope.

(** [f 0 + ... + f (n-1)] *)
Fixpoint total (n : nat) (f : nat -> Z) : Z :=
  match n with O => 0 | S n' => total n' f + f n' end.
(** elements of a matrix *)
Definition elt (M : list (list Z)) (r c : nat) : Z := nth c (nth r M nil) 0.
(** [M] is an [nr] x [nc] matrix *)
Definition is_mat (nr nc : nat) (M : list (list Z)) : Prop :=
  length M = nr /\ forall r, (r < nr)%nat -> length (nth r M nil) = nc.
(** the product of two matrices with [n] columns and [n] rows *)
Definition times (n : nat) (A B : nat -> nat -> Z) (i j : nat) : Z := total n (fun k => A i k * B k j).
(** a matrix applied to a vector *)
Definition apply (n : nat) (A : nat -> nat -> Z) (x : nat -> Z) (i : nat) : Z := total n (fun k => A i k * x k).
Definition delta (i j : nat) : Z := if Nat.eqb i j then 1 else 0.
Definition same (nr nc : nat) (A B : nat -> nat -> Z) : Prop :=
  forall i j, (i < nr)%nat -> (j < nc)%nat -> A i j = B i j.
(** [U] and [Q] are integer matrices that are each other's inverse *)
Definition inverses (n : nat) (U Q : nat -> nat -> Z) : Prop :=
  same n n (times n U Q) delta /\ same n n (times n Q U) delta.

(** Column echelon form: there is a strictly increasing sequence of pivot rows,
    one for each of the initial columns; the other columns are zero.  Pivots
    are positive, the elements above a pivot are zero and the elements to the
    left of a pivot are reduced: in [0, pivot) or, if [neg], in (-pivot, 0] *)
Definition is_hermite (nr nc : nat) (neg : bool) (H : nat -> nat -> Z) (ps : list nat) : Prop :=
  (length ps <= nc)%nat /\
  (forall c, (c < length ps)%nat -> (nth c ps O < nr)%nat) /\
  (forall c d, (c < d < length ps)%nat -> (nth c ps O < nth d ps O)%nat) /\
  (forall c, (c < length ps)%nat ->
     0 < H (nth c ps O) c /\
     (forall r, (r < nth c ps O)%nat -> H r c = 0) /\
     (forall i, (i < c)%nat ->
        if neg then - H (nth c ps O) c < H (nth c ps O) i <= 0
        else 0 <= H (nth c ps O) i < H (nth c ps O) c)) /\
  (forall r c, (r < nr)%nat -> (length ps <= c < nc)%nat -> H r c = 0).

(** The column lattice of [A] has rank [k]: it is generated by [k] independent
    columns *)
Definition has_rank (nr nc : nat) (A : nat -> nat -> Z) (k : nat) : Prop :=
  exists B : nat -> nat -> Z,
    (forall x, exists y, forall i, (i < nr)%nat -> apply nc A x i = apply k B y i) /\
    (forall y, exists x, forall i, (i < nr)%nat -> apply nc A x i = apply k B y i) /\
    (forall y, (forall i, (i < nr)%nat -> apply k B y i = 0) -> forall j, (j < k)%nat -> y j = 0).
(** The columns of the [nc] x [k] matrix [K] are a basis of the integer kernel *)
Definition kernel_basis (nr nc : nat) (A : nat -> nat -> Z) (k : nat) (K : nat -> nat -> Z) : Prop :=
  (forall y i, (i < nr)%nat -> apply nc A (apply k K y) i = 0) /\
  (forall x, (forall i, (i < nr)%nat -> apply nc A x i = 0) ->
     exists y, forall i, (i < nc)%nat -> x i = apply k K y i) /\
  (forall y, (forall i, (i < nc)%nat -> apply k K y i = 0) -> forall j, (j < k)%nat -> y j = 0).
