(** Model of isl_tab_relax of isl_tab.c: relaxing an inequality by one.

    The conventions are those of TabModel.v; [v] is the number of the constraint
    (~con in the code). *)
From Coq Require Import ZArith List Bool Arith.
From Verif Require Import SeqModel MatModel BMapModel TabModel.
Import ListNotations.
Open Scope Z_scope.

(** the checks at the start of isl_tab_relax, isl_tab.c:2787-2792 *)
Definition may_relax (t : tab) (v : Z) : bool :=
  match v_idx (t_info t v) with
  | None => false
  | Some i => negb (Nat.ltb i (if v_row (t_info t v) then t_red t else t_dead t))
  end.
(** the constant term of row [i] is increased by the denominator,
    isl_tab.c:2802-2803 *)
Definition relax_row (t : tab) (i : nat) : tab :=
  let r := nth i (t_rows t) [] in w_rows t (lset (t_rows t) i (zupd r 1 (nth 1 r 0 + nth 0 r 0))).
(** the constant terms of all rows are decreased by the coefficients of column
    [c], isl_tab.c:2807-2815 *)
Definition relax_col (t : tab) (c : nat) : tab :=
  w_rows t (map (fun r => zupd r 1 (nth 1 r 0 - nth (2 + c) r 0)) (t_rows t)).
(** isl_tab_relax, isl_tab.c:2778-2823; restore_row returns the sign of the
    sample value, so a negative sample value is an error *)
Definition relax (fuel : nat) (t : tab) (v : Z) : res tab :=
  if negb (may_relax t v) then Null
  else
    do t <- (if v_row (t_info t v) then Ok t
             else do b <- max_unb t v ;; if b then Ok t else to_row t v 1) ;;
    do t <- (if v_row (t_info t v) then Ok t
             else do b <- min_unb t v ;; if b then Ok t else to_row t v (-1)) ;;
    do t <- (if v_row (t_info t v) then
               do i <- row_of t v ;;
               do (t, s) <- restore_row fuel (relax_row t i) v ;;
               if s <? 0 then Null else Ok t
             else do c <- col_of t v ;; Ok (relax_col t c)) ;;
    push_var t U_relax v.
