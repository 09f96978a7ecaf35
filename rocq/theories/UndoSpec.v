(** What it means that a tableau was restored, and the changes that a tableau can
    go through between a snapshot and a rollback. *)
From Coq Require Import ZArith List Bool Arith.
From Verif Require Import SeqModel SeqSpec MatModel TabModel TabSpec LpModel.
Import ListNotations.
Open Scope Z_scope.

(** the flags of a variable that matter for the constraints it stands for *)
Definition flags (x : tvar) : bool * bool * bool * bool := (v_nonneg x, v_zero x, v_red x, v_frozen x).
(** [t] only differs from [h] by pivots (and by the marks that the detection
    functions use): the same constraints, with the same flags, the same redundant
    rows and dead columns *)
Record alike (h t : tab) : Prop := {
  al_nvar : t_nvar t = t_nvar h;
  al_ncon : t_ncon t = t_ncon h;
  al_nrow : nrow t = nrow h;
  al_ncol : ncol t = ncol h;
  al_red : t_red t = t_red h;
  al_dead : t_dead t = t_dead h;
  al_empty : t_empty t = t_empty h;
  al_rat : t_rat t = t_rat h;
  al_flag : forall v, valid h v -> flags (t_info t v) = flags (t_info h v);
  al_gone : forall v, valid h v -> (v_idx (t_info t v) = None <-> v_idx (t_info h v) = None);
  al_zrow : forall v, valid h v -> v_zero (t_info h v) = true \/ v_idx (t_info h v) = None -> v_row (t_info t v) = v_row (t_info h v);
  al_rows : forall j, (j < t_red h)%nat -> rowv t j = rowv h j;
  al_cols : forall c, (c < t_dead h)%nat -> colv t c = colv h c }.

(** the points that satisfy the constraints that are not marked redundant, except
    possibly that of [ex] *)
Definition feasx (ex : option Z) (L : list (list Z)) (t : tab) (p : list Z) : Prop :=
  length p = (1 + t_nvar t)%nat /\
  forall v, valid t v ->
    (v_zero (t_info t v) = true -> value L p v = 0) /\
    (v_nonneg (t_info t v) = true -> v_red (t_info t v) = false -> Some v <> ex -> 0 <= value L p v).
(** constraint [v] is implied by the others *)
Definition implied (ex : option Z) (L : list (list Z)) (t : tab) (v : Z) : Prop :=
  forall p, 0 < hd 0 p -> feasx ex L t p -> 0 <= value L p v.

(** The states that can be reached from a tableau [t0] for the constraints [L0]
    by the primitive operations of isl_tab.c.  [reach ex L t]: [t] is a tableau
    for the constraints [L]; [ex] is the constraint that is being made to hold, if
    any: it is the only one that the sample value may violate. *)
Inductive reach (L0 : list (list Z)) (t0 : tab) : option Z -> list (list Z) -> tab -> Prop :=
  | r_start : reach L0 t0 None L0 t0
  (** a pivot that keeps the sample value of the constraints non-negative *)
  | r_pivot ex ex' L t i c : reach L0 t0 ex L t -> represents false L t ->
      (t_red t <= i < nrow t)%nat -> (t_dead t <= c < ncol t)%nat -> cf t i c <> 0 ->
      sample_ok ex' (pivot_step t i c) -> ex' = ex \/ ex' = None ->
      reach L0 t0 ex' L (pivot_step t i c)
  (** marking a row redundant *)
  | r_mark ex L t i t' b : reach L0 t0 ex L t -> represents false L t ->
      (t_red t <= i < nrow t)%nat -> (rowv t i < 0 -> v_nonneg (t_info t (rowv t i)) = true) ->
      mark_redundant t i = Ok (t', b) -> implied ex L t' (rowv t i) ->
      reach L0 t0 ex L t'
  (** setting a constraint column to zero *)
  | r_kill ex L t c t' b : reach L0 t0 ex L t -> (t_dead t <= c < ncol t)%nat -> colv t c < 0 ->
      kill_col t c = Ok (t', b) -> reach L0 t0 ex L t'
  (** adding a row *)
  | r_add L t line t' : reach L0 t0 None L t -> represents false L t -> length line = (1 + t_nvar t)%nat ->
      add_row t line = Ok t' -> reach L0 t0 None (L ++ [line]) t'
  (** requiring a constraint in a live row to be non-negative *)
  | r_nonneg L t v t' : reach L0 t0 None L t -> valid t v -> v < 0 -> v_nonneg (t_info t v) = false -> v_red (t_info t v) = false ->
      push_var (upd t v (vs_nonneg true)) U_nonneg v = Ok t' -> reach L0 t0 (Some v) L t'
  (** setting a constraint in a row to zero, as close_row does *)
  | r_zeros ex L t v t' : reach L0 t0 ex L t -> valid t v -> v < 0 -> v_row (t_info t v) = true -> v_zero (t_info t v) = false ->
      push_var (upd t v (vs_zero true)) U_zero v = Ok t' -> reach L0 t0 ex L t'
  | r_settle ex L t : reach L0 t0 ex L t -> sample_ok None t -> reach L0 t0 None L t
  | r_freeze ex L t v t' : reach L0 t0 ex L t -> valid t v -> freeze t v = Ok t' -> reach L0 t0 ex L t'
  | r_empty ex L t : reach L0 t0 ex L t -> reach L0 t0 ex L (mark_empty t)
  | r_rat ex L t : reach L0 t0 ex L t -> reach L0 t0 ex L (mark_rational t)
  | r_marked ex L t v b : reach L0 t0 ex L t -> reach L0 t0 ex L (upd t v (vs_marked b))
  (** a nested rollback, with the result that the theorem on rollbacks describes *)
  | r_back L t t' : reach L0 t0 None L t -> represents false L t' -> sample_ok None t' -> alike t t' ->
      t_log t' = t_log t -> t_undo t' = true -> reach L0 t0 None L t'.

(** several calls of isl_tab_add_ineq (isl_tab.c:1896-1948), up to the first that
    finds the tableau to be empty *)
Fixpoint add_ineqs (fuel : nat) (t : tab) (ls : list (list Z)) : res tab :=
  match ls with
  | [] => Ok t
  | l :: ls => do t <- add_ineq fuel t l ;; if t_empty t then Ok t else add_ineqs fuel t ls
  end.
