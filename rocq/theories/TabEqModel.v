(** Model of isl_tab_add_eq of isl_tab.c.

    The conventions are those of TabModel.v and LpModel.v.  tab->bmap is not
    modelled (it is NULL). *)
From Coq Require Import ZArith List Bool Arith.
From Verif Require Import SeqModel MatModel BMapModel TabModel LpModel.
Import ListNotations.
Open Scope Z_scope.

(** isl_tab_add_eq, isl_tab.c:2108-2185; the snapshot is only taken if need_undo
    is set already, isl_tab.c:2122-2123 *)
Definition add_eq (fuel : nat) (t : tab) (eq : list Z) : res tab :=
  let snap := length (t_log t) in
  do t <- add_row t (cone_line t eq) ;;
  let v := con (t_ncon t - 1) in
  do i <- row_of t v ;;
  if row_zero t i then (if t_undo t then rollback fuel t snap else drop_row t i)
  else
    let sgn := Z.sgn (cst t i) in
    let t := if 0 <? sgn then upd (negate_row t i) v (vs_negated true) else t in
    do (t, sgn) <- (if sgn =? 0 then Ok (t, 0) else sign_of_max fuel t v) ;;
    if sgn <? 0 then Ok (mark_empty t)
    else
      do t <- to_col fuel (upd t v (vs_nonneg true)) v ;;
      let t := upd t v (vs_nonneg false) in
      do c <- col_of t v ;;
      do (t, _) <- kill_col t c ;; Ok t.
