(** What a tableau means.

    A point is given by homogeneous integer coordinates: a positive common
    denominator followed by the numerators of the variables; it is an integer
    point if the denominator is 1.  A constraint is described by its affine
    expression in the variables, the same list of coefficients that was used to
    add it to the tableau. *)
From Coq Require Import ZArith List Bool.
From Verif Require Import SeqSpec TabModel.
Import ListNotations.
Open Scope Z_scope.

(** the value of a variable, or of a constraint, at a point; [L] contains the
    affine expressions of the constraints *)
Definition value (L : list (list Z)) (p : list Z) (v : Z) : Z :=
  if v <? 0 then dot (nth (Z.to_nat (- 1 - v)) L []) p else nth (1 + Z.to_nat v) p 0.
(** the points under consideration: those with a positive denominator, and only
    the integer points if [int] *)
Definition adm (int : bool) (p : list Z) : Prop := 0 < hd 0 p /\ (int = true -> hd 0 p = 1).
(** a number that stands for a variable or a constraint of the tableau *)
Definition valid (t : tab) (v : Z) : Prop := - Z.of_nat (t_ncon t) <= v < Z.of_nat (t_nvar t).
(** a column that was removed from the tableau *)
Definition gone (t : tab) (v : Z) : Prop := v_idx (t_info t v) = None /\ v_row (t_info t v) = false.
(** row [i] of the tableau holds at [p]: the variable of the row is equal to the
    affine combination of the variables of the columns *)
Definition row_holds (L : list (list Z)) (t : tab) (p : list Z) (i : nat) : Prop :=
  den t i * value L p (rowv t i) = dot (tl (nth i (t_rows t) [])) (hd 0 p :: map (value L p) (t_cv t)).
(** the points that satisfy the constraints of the tableau that are not marked
    redundant *)
Definition feas (L : list (list Z)) (t : tab) (p : list Z) : Prop :=
  length p = (1 + t_nvar t)%nat /\
  forall v, valid t v ->
    (v_zero (t_info t v) = true -> value L p v = 0) /\
    (v_nonneg (t_info t v) = true -> v_red (t_info t v) = false -> 0 <= value L p v).

(** the arrays of the tableau are consistent *)
Record arranged (t : tab) : Prop := {
  a_len : length (t_rows t) = nrow t;
  a_wid : forall i, (i < nrow t)%nat -> length (nth i (t_rows t) []) = (2 + ncol t)%nat;
  a_row : forall i, (i < nrow t)%nat -> valid t (rowv t i) /\ v_idx (t_info t (rowv t i)) = Some i /\ v_row (t_info t (rowv t i)) = true;
  a_col : forall c, (c < ncol t)%nat -> valid t (colv t c) /\ v_idx (t_info t (colv t c)) = Some c /\ v_row (t_info t (colv t c)) = false;
  a_inv : forall v i, valid t v -> v_idx (t_info t v) = Some i ->
    if v_row (t_info t v) then (i < nrow t)%nat /\ rowv t i = v else (i < ncol t)%nat /\ colv t i = v;
  a_den : forall i, (i < nrow t)%nat -> 0 < den t i }.
(** the flags of the variables agree with their positions *)
Record flagged (t : tab) : Prop := {
  f_dead : (t_dead t <= ncol t)%nat;
  f_red : (t_red t <= nrow t)%nat;
  f_rows : forall i, (i < nrow t)%nat -> v_red (t_info t (rowv t i)) = Nat.ltb i (t_red t);
  f_cols : forall c, (c < ncol t)%nat -> v_zero (t_info t (colv t c)) = Nat.ltb c (t_dead t) /\ v_red (t_info t (colv t c)) = false;
  f_gone : forall v, valid t v -> v_idx (t_info t v) = None ->
    v < 0 /\ if v_row (t_info t v) then v_red (t_info t v) = true else v_zero (t_info t v) = true /\ v_red (t_info t v) = false;
  f_var : forall v, valid t v -> 0 <= v -> v_zero (t_info t v) = false /\ (v_nonneg (t_info t v) = true -> v_red (t_info t v) = true) }.

(** the rows hold at all points at which the removed columns are zero *)
Definition related (L : list (list Z)) (t : tab) : Prop :=
  forall p, length p = (1 + t_nvar t)%nat -> (forall v, valid t v -> gone t v -> value L p v = 0) ->
  forall i, (i < nrow t)%nat -> row_holds L t p i.
(** the columns can take any values independently of each other *)
Definition independent (L : list (list Z)) (t : tab) : Prop :=
  forall (x : Z) (z : nat -> Z), exists k p, 0 < k /\ length p = (1 + t_nvar t)%nat /\ hd 0 p = k * x /\
    (forall c, (c < ncol t)%nat -> value L p (colv t c) = k * z c) /\ (forall v, valid t v -> gone t v -> value L p v = 0).
Record core (L : list (list Z)) (t : tab) : Prop := {
  c_arr : arranged t;
  c_flg : flagged t;
  c_len : length L = t_ncon t;
  c_wid : forall l, List.In l L -> length l = (1 + t_nvar t)%nat;
  c_rel : related L t;
  c_ind : independent L t }.

(** [t] is a tableau for the constraints [L]: moreover, the constraints in
    rows that are marked zero follow from those in columns, and the constraints
    that are marked redundant are implied by the others *)
Record represents (int : bool) (L : list (list Z)) (t : tab) : Prop := {
  r_core : core L t;
  r_zero : forall p, length p = (1 + t_nvar t)%nat ->
    (forall v, valid t v -> v_zero (t_info t v) = true -> v_row (t_info t v) = false -> value L p v = 0) ->
    forall v, valid t v -> v_zero (t_info t v) = true -> value L p v = 0;
  r_imp : forall p, adm int p -> feas L t p -> forall v, valid t v -> v_nonneg (t_info t v) = true -> 0 <= value L p v }.

(** the sample value: the constant terms of the rows.  It satisfies the
    non-negativity constraints, except possibly that of [ex] *)
Definition sample_ok (ex : option Z) (t : tab) : Prop :=
  forall i, (t_red t <= i < nrow t)%nat -> Some (rowv t i) <> ex -> v_nonneg (t_info t (rowv t i)) = true -> 0 <= cst t i.
