(** Model of the simplex tableaus of isl_tab.c.

    Each row of the tableau is the list of its 2 + n_col values: the common
    denominator, the constant term and the coefficients of the columns.  The
    arrays [var] and [con] are one function [t_info] on the numbers used in
    [row_var] and [col_var] (variable v is the number v, constraint c the number
    -1 - c).  A pointer to an element of these arrays is its number.
    The arrays are as long as needed: [n_row] and [n_col] are the lengths of
    [t_rv] and [t_cv], and the capacity of the arrays (max_con, max_var,
    mat->n_row, isl_tab_extend_cons, isl_tab_extend_vars) is not modelled.
    Not modelled either: the big parameter (tab->M is 0), the signs of the rows
    (tab->row_sign is NULL), the sample points (tab->samples), tab->bmap (it is
    NULL), the dual vector, tab->basis, callbacks, the limit on the number of
    operations of the isl_ctx, memory allocation failures.
    [Null] is an error return of the code, [UB] an access to a row or column with
    index -1 or out of range, and [Div] means that the fuel of the pivoting loops
    ran out. *)
From Coq Require Import ZArith List Bool Arith.
From Verif Require Import SeqModel MatModel BMapModel BElimModel.
Import ListNotations.
Open Scope Z_scope.

Definition bind {A B} (r : res A) (f : A -> res B) : res B :=
  match r with Ok a => f a | Null => Null | UB => UB | Div => Div end.
Notation "'do' x <- e ;; k" := (bind e (fun x => k)) (at level 200, x pattern, e at level 100, k at level 200).

(** struct isl_tab_undo, isl_tab.h:63-67, with the types isl_tab.h:31-49; the
    records that only concern tab->bmap, the samples or callbacks are left out *)
Inductive undo_rec :=
  | U_rational | U_empty
  | U_nonneg (v : Z) | U_redundant (v : Z) | U_freeze (v : Z) | U_zero (v : Z)
  | U_allocate (v : Z) | U_relax (v : Z) | U_unrestrict (v : Z)
  | U_basis (col_var : list Z).

(** struct isl_tab_var, isl_tab.h:20-29; [v_idx] is None for the index -1 *)
Record tvar := mkvar { v_idx : option nat; v_row : bool; v_nonneg : bool; v_zero : bool; v_red : bool; v_marked : bool; v_frozen : bool; v_negated : bool }.
(** assigning to one of the fields *)
Definition vs_idx (x : option nat) (v : tvar) : tvar := mkvar x (v_row v) (v_nonneg v) (v_zero v) (v_red v) (v_marked v) (v_frozen v) (v_negated v).
Definition vs_row (x : bool) (v : tvar) : tvar := mkvar (v_idx v) x (v_nonneg v) (v_zero v) (v_red v) (v_marked v) (v_frozen v) (v_negated v).
Definition vs_nonneg (x : bool) (v : tvar) : tvar := mkvar (v_idx v) (v_row v) x (v_zero v) (v_red v) (v_marked v) (v_frozen v) (v_negated v).
Definition vs_zero (x : bool) (v : tvar) : tvar := mkvar (v_idx v) (v_row v) (v_nonneg v) x (v_red v) (v_marked v) (v_frozen v) (v_negated v).
Definition vs_red (x : bool) (v : tvar) : tvar := mkvar (v_idx v) (v_row v) (v_nonneg v) (v_zero v) x (v_marked v) (v_frozen v) (v_negated v).
Definition vs_marked (x : bool) (v : tvar) : tvar := mkvar (v_idx v) (v_row v) (v_nonneg v) (v_zero v) (v_red v) x (v_frozen v) (v_negated v).
Definition vs_frozen (x : bool) (v : tvar) : tvar := mkvar (v_idx v) (v_row v) (v_nonneg v) (v_zero v) (v_red v) (v_marked v) x (v_negated v).
Definition vs_negated (x : bool) (v : tvar) : tvar := mkvar (v_idx v) (v_row v) (v_nonneg v) (v_zero v) (v_red v) (v_marked v) (v_frozen v) x.

(** struct isl_tab, isl_tab.h:135-184; [t_undo] is need_undo and [t_log] is the
    stack of undo records, the last one first *)
Record tab := mktab {
  t_rows : list (list Z);
  t_rv : list Z;
  t_cv : list Z;
  t_dead : nat;
  t_red : nat;
  t_info : Z -> tvar;
  t_nvar : nat;
  t_ncon : nat;
  t_neq : nat;
  t_rat : bool;
  t_empty : bool;
  t_undo : bool;
  t_inundo : bool;
  t_preserve : bool;
  t_strict : bool;
  t_cone : bool;
  t_log : list undo_rec }.
(** assigning to one of the fields *)
Definition w_rows (t : tab) (x : list (list Z)) : tab :=
  mktab x (t_rv t) (t_cv t) (t_dead t) (t_red t) (t_info t) (t_nvar t) (t_ncon t) (t_neq t) (t_rat t) (t_empty t) (t_undo t) (t_inundo t) (t_preserve t) (t_strict t) (t_cone t) (t_log t).
Definition w_rv (t : tab) (x : list Z) : tab :=
  mktab (t_rows t) x (t_cv t) (t_dead t) (t_red t) (t_info t) (t_nvar t) (t_ncon t) (t_neq t) (t_rat t) (t_empty t) (t_undo t) (t_inundo t) (t_preserve t) (t_strict t) (t_cone t) (t_log t).
Definition w_cv (t : tab) (x : list Z) : tab :=
  mktab (t_rows t) (t_rv t) x (t_dead t) (t_red t) (t_info t) (t_nvar t) (t_ncon t) (t_neq t) (t_rat t) (t_empty t) (t_undo t) (t_inundo t) (t_preserve t) (t_strict t) (t_cone t) (t_log t).
Definition w_dead (t : tab) (x : nat) : tab :=
  mktab (t_rows t) (t_rv t) (t_cv t) x (t_red t) (t_info t) (t_nvar t) (t_ncon t) (t_neq t) (t_rat t) (t_empty t) (t_undo t) (t_inundo t) (t_preserve t) (t_strict t) (t_cone t) (t_log t).
Definition w_red (t : tab) (x : nat) : tab :=
  mktab (t_rows t) (t_rv t) (t_cv t) (t_dead t) x (t_info t) (t_nvar t) (t_ncon t) (t_neq t) (t_rat t) (t_empty t) (t_undo t) (t_inundo t) (t_preserve t) (t_strict t) (t_cone t) (t_log t).
Definition w_info (t : tab) (x : Z -> tvar) : tab :=
  mktab (t_rows t) (t_rv t) (t_cv t) (t_dead t) (t_red t) x (t_nvar t) (t_ncon t) (t_neq t) (t_rat t) (t_empty t) (t_undo t) (t_inundo t) (t_preserve t) (t_strict t) (t_cone t) (t_log t).
Definition w_nvar (t : tab) (x : nat) : tab :=
  mktab (t_rows t) (t_rv t) (t_cv t) (t_dead t) (t_red t) (t_info t) x (t_ncon t) (t_neq t) (t_rat t) (t_empty t) (t_undo t) (t_inundo t) (t_preserve t) (t_strict t) (t_cone t) (t_log t).
Definition w_ncon (t : tab) (x : nat) : tab :=
  mktab (t_rows t) (t_rv t) (t_cv t) (t_dead t) (t_red t) (t_info t) (t_nvar t) x (t_neq t) (t_rat t) (t_empty t) (t_undo t) (t_inundo t) (t_preserve t) (t_strict t) (t_cone t) (t_log t).
Definition w_neq (t : tab) (x : nat) : tab :=
  mktab (t_rows t) (t_rv t) (t_cv t) (t_dead t) (t_red t) (t_info t) (t_nvar t) (t_ncon t) x (t_rat t) (t_empty t) (t_undo t) (t_inundo t) (t_preserve t) (t_strict t) (t_cone t) (t_log t).
Definition w_rat (t : tab) (x : bool) : tab :=
  mktab (t_rows t) (t_rv t) (t_cv t) (t_dead t) (t_red t) (t_info t) (t_nvar t) (t_ncon t) (t_neq t) x (t_empty t) (t_undo t) (t_inundo t) (t_preserve t) (t_strict t) (t_cone t) (t_log t).
Definition w_empty (t : tab) (x : bool) : tab :=
  mktab (t_rows t) (t_rv t) (t_cv t) (t_dead t) (t_red t) (t_info t) (t_nvar t) (t_ncon t) (t_neq t) (t_rat t) x (t_undo t) (t_inundo t) (t_preserve t) (t_strict t) (t_cone t) (t_log t).
Definition w_undo (t : tab) (x : bool) : tab :=
  mktab (t_rows t) (t_rv t) (t_cv t) (t_dead t) (t_red t) (t_info t) (t_nvar t) (t_ncon t) (t_neq t) (t_rat t) (t_empty t) x (t_inundo t) (t_preserve t) (t_strict t) (t_cone t) (t_log t).
Definition w_inundo (t : tab) (x : bool) : tab :=
  mktab (t_rows t) (t_rv t) (t_cv t) (t_dead t) (t_red t) (t_info t) (t_nvar t) (t_ncon t) (t_neq t) (t_rat t) (t_empty t) (t_undo t) x (t_preserve t) (t_strict t) (t_cone t) (t_log t).
Definition w_preserve (t : tab) (x : bool) : tab :=
  mktab (t_rows t) (t_rv t) (t_cv t) (t_dead t) (t_red t) (t_info t) (t_nvar t) (t_ncon t) (t_neq t) (t_rat t) (t_empty t) (t_undo t) (t_inundo t) x (t_strict t) (t_cone t) (t_log t).
Definition w_strict (t : tab) (x : bool) : tab :=
  mktab (t_rows t) (t_rv t) (t_cv t) (t_dead t) (t_red t) (t_info t) (t_nvar t) (t_ncon t) (t_neq t) (t_rat t) (t_empty t) (t_undo t) (t_inundo t) (t_preserve t) x (t_cone t) (t_log t).
Definition w_cone (t : tab) (x : bool) : tab :=
  mktab (t_rows t) (t_rv t) (t_cv t) (t_dead t) (t_red t) (t_info t) (t_nvar t) (t_ncon t) (t_neq t) (t_rat t) (t_empty t) (t_undo t) (t_inundo t) (t_preserve t) (t_strict t) x (t_log t).
Definition w_log (t : tab) (x : list undo_rec) : tab :=
  mktab (t_rows t) (t_rv t) (t_cv t) (t_dead t) (t_red t) (t_info t) (t_nvar t) (t_ncon t) (t_neq t) (t_rat t) (t_empty t) (t_undo t) (t_inundo t) (t_preserve t) (t_strict t) (t_cone t) x.

(** the number of constraint [c]; [~c] in the code *)
Definition con (c : nat) : Z := - 1 - Z.of_nat c.
Definition nrow (t : tab) : nat := length (t_rv t).
Definition ncol (t : tab) : nat := length (t_cv t).
(** isl_tab_var_from_row, isl_tab.c:571-574, var_from_col, isl_tab.c:576-579:
    the number of the variable *)
Definition rowv (t : tab) (i : nat) : Z := nth i (t_rv t) 0.
Definition colv (t : tab) (i : nat) : Z := nth i (t_cv t) 0.
(** tab->mat->row[i][j] *)
Definition ent (t : tab) (i j : nat) : Z := nth j (nth i (t_rows t) []) 0.
(** the coefficient of column [c] in row [i]: tab->mat->row[i][off + c] *)
Definition cf (t : tab) (i c : nat) : Z := ent t i (2 + c).
(** the denominator and the constant term of row [i] *)
Definition den (t : tab) (i : nat) : Z := ent t i 0.
Definition cst (t : tab) (i : nat) : Z := ent t i 1.
(** modify the record of a variable *)
Definition upd (t : tab) (v : Z) (f : tvar -> tvar) : tab :=
  w_info t (fun u => if u =? v then f (t_info t v) else t_info t u).
(** var->index of a variable that is used as the number of a row, or column *)
Definition row_of (t : tab) (v : Z) : res nat :=
  match v_idx (t_info t v) with
  | Some i => if Nat.ltb i (nrow t) then Ok i else UB
  | None => UB
  end.
Definition col_of (t : tab) (v : Z) : res nat :=
  match v_idx (t_info t v) with
  | Some i => if Nat.ltb i (ncol t) then Ok i else UB
  | None => UB
  end.
(** the live rows and columns, in the order of the loops in the code *)
Definition live_rows (t : tab) : list nat := seq (t_red t) (nrow t - t_red t).
Definition live_cols (t : tab) : list nat := seq (t_dead t) (ncol t - t_dead t).
(** isl_seq_first_non_zero on the live columns of a row, as a column *)
Definition first_live (t : tab) (i : nat) : option nat :=
  find (fun j => negb (cf t i j =? 0)) (live_cols t).

(** isl_tab_alloc, isl_tab.c:33-98 *)
Definition tab_alloc (n : nat) : tab :=
  mktab [] [] (map Z.of_nat (seq 0 n)) 0 0
    (fun v => mkvar (if (0 <=? v) && (v <? Z.of_nat n) then Some (Z.to_nat v) else None) false false false false false false false)
    n 0 0 false false false false false false false [].

(** max_is_manifestly_unbounded, isl_tab.c:585-600 *)
Definition max_unb (t : tab) (v : Z) : res bool :=
  if v_row (t_info t v) then Ok false
  else do c <- col_of t v ;;
    Ok (negb (existsb (fun i => (cf t i c <? 0) && v_nonneg (t_info t (rowv t i))) (live_rows t))).
(** min_is_manifestly_unbounded, isl_tab.c:606-621 *)
Definition min_unb (t : tab) (v : Z) : res bool :=
  if v_row (t_info t v) then Ok false
  else do c <- col_of t v ;;
    Ok (negb (existsb (fun i => (0 <? cf t i c) && v_nonneg (t_info t (rowv t i))) (live_rows t))).

(** row_cmp, isl_tab.c:623-638 *)
Definition row_cmp (t : tab) (r1 r2 c : nat) : Z :=
  Z.sgn (cst t r1 * cf t r2 c - cst t r2 * cf t r1 c).
(** the loop of pivot_row, isl_tab.c:664-680 *)
Fixpoint pivot_row_loop (t : tab) (skip : option nat) (sgn : Z) (c : nat) (js : list nat) (r : option nat) : option nat :=
  match js with
  | [] => r
  | j :: js =>
    let next := pivot_row_loop t skip sgn c js in
    if match skip with Some i => Nat.eqb j i | None => false end then next r
    else if negb (v_nonneg (t_info t (rowv t j))) then next r
    else if 0 <=? sgn * Z.sgn (cf t j c) then next r
    else match r with
         | None => next (Some j)
         | Some r0 =>
           let tsgn := sgn * row_cmp t r0 j c in
           if (tsgn <? 0) || ((tsgn =? 0) && (rowv t j <? rowv t r0)) then next (Some j) else next r
         end
  end.
(** pivot_row, isl_tab.c:660-687; [skip] is the index of "var", None if "var" is
    NULL *)
Definition pivot_row (t : tab) (skip : option nat) (sgn : Z) (c : nat) : option nat :=
  pivot_row_loop t skip sgn c (live_rows t) None.
(** the loop of find_pivot, isl_tab.c:713-721 *)
Fixpoint pivot_col_loop (t : tab) (i : nat) (sgn : Z) (js : list nat) (c : option nat) : option nat :=
  match js with
  | [] => c
  | j :: js =>
    let next := pivot_col_loop t i sgn js in
    if cf t i j =? 0 then next c
    else if negb (Z.sgn (cf t i j) =? sgn) && v_nonneg (t_info t (colv t j)) then next c
    else match c with
         | None => next (Some j)
         | Some c0 => if colv t j <? colv t c0 then next (Some j) else next c
         end
  end.
(** find_pivot, isl_tab.c:705-734: the row and the column, None for row -1; if
    [skip] then skip_var is equal to var, otherwise it is NULL *)
Definition find_pivot (t : tab) (v : Z) (skip : bool) (sgn : Z) : res (option (nat * nat)) :=
  if negb (v_row (t_info t v)) then Ok None
  else do i <- row_of t v ;;
    match pivot_col_loop t i sgn (live_cols t) None with
    | None => Ok None
    | Some c =>
      let sgn := sgn * Z.sgn (cf t i c) in
      match pivot_row t (if skip then Some i else None) sgn c with
      | None => Ok (Some (i, c))
      | Some r => Ok (Some (r, c))
      end
    end.

(** isl_tab_row_is_redundant, isl_tab.c:742-768 *)
Definition row_is_redundant (t : tab) (i : nat) : bool :=
  if (rowv t i <? 0) && negb (v_nonneg (t_info t (rowv t i))) then false
  else if cst t i <? 0 then false
  else if t_strict t && (cst t i =? 0) then false
  else forallb (fun j => (cf t i j =? 0) || ((colv t j <? 0) && (0 <? cf t i j) && v_nonneg (t_info t (colv t j)))) (live_cols t).

(** interchange two elements *)
Definition lsw {A} (d : A) (l : list A) (i j : nat) : list A := lset (lset l i (nth j l d)) j (nth i l d).
(** swap_rows, isl_tab.c:770-787 *)
Definition swap_rows (t : tab) (r1 r2 : nat) : tab :=
  let t := w_rv t (lsw 0 (t_rv t) r1 r2) in
  let t := upd t (rowv t r1) (vs_idx (Some r1)) in
  let t := upd t (rowv t r2) (vs_idx (Some r2)) in
  w_rows t (lsw [] (t_rows t) r1 r2).
(** swap_cols, isl_tab.c:1535-1545 *)
Definition swap_cols (t : tab) (c1 c2 : nat) : tab :=
  let t := w_cv t (lsw 0 (t_cv t) c1 c2) in
  let t := upd t (colv t c1) (vs_idx (Some c1)) in
  let t := upd t (colv t c2) (vs_idx (Some c2)) in
  w_rows t (map (fun r => lsw 0 r (2 + c1) (2 + c2)) (t_rows t)).

(** push_union, isl_tab.c:799-822 *)
Definition push (t : tab) (u : undo_rec) : tab :=
  if t_undo t then w_log t (u :: t_log t) else t.
(** isl_tab_push_var, isl_tab.c:824-833; [u] is the type of the record *)
Definition push_var (t : tab) (u : Z -> undo_rec) (v : Z) : res tab :=
  if v_row (t_info t v)
  then do i <- row_of t v ;; Ok (push t (u (rowv t i)))
  else do c <- col_of t v ;; Ok (push t (u (colv t c))).

(** isl_tab_mark_redundant, isl_tab.c:956-978; the second result tells whether
    it returns 1 *)
Definition mark_redundant (t : tab) (i : nat) : res (tab * bool) :=
  let v := rowv t i in
  let t := upd t v (vs_red true) in
  if Nat.ltb i (t_red t) then Null
  else if t_preserve t || t_undo t || (0 <=? v) then
    do t <- (if (0 <=? v) && negb (v_nonneg (t_info t v))
             then push_var (upd t v (vs_nonneg true)) U_nonneg v
             else Ok t) ;;
    let t := if Nat.eqb i (t_red t) then t else swap_rows t i (t_red t) in
    let t := w_red t (S (t_red t)) in
    do t <- push_var t U_redundant v ;;
    Ok (t, false)
  else
    let last := (nrow t - 1)%nat in
    let t := if Nat.eqb i last then t else swap_rows t i last in
    let t := upd t (rowv t last) (vs_idx None) in
    Ok (w_rows (w_rv t (removelast (t_rv t))) (removelast (t_rows t)), true).

(** isl_tab_mark_rational, isl_tab.c:985-994 *)
Definition mark_rational (t : tab) : tab :=
  let t := if negb (t_rat t) && t_undo t then push t U_rational else t in w_rat t true.
(** isl_tab_mark_empty, isl_tab.c:996-1005 *)
Definition mark_empty (t : tab) : tab :=
  let t := if negb (t_empty t) && t_undo t then push t U_empty else t in w_empty t true.
(** isl_tab_freeze_constraint, isl_tab.c:1007-1025 *)
Definition freeze (t : tab) (v : Z) : res tab :=
  if v_frozen (t_info t v) then Ok t
  else match v_idx (t_info t v) with
       | None => Ok t
       | Some _ => let t := upd t v (vs_frozen true) in
                   if t_undo t then push_var t U_freeze v else Ok t
       end.

(** the new pivot row, isl_tab.c:1126-1138; [k] is the position off + col *)
Definition pivot_own (k : nat) (r : list Z) : list Z :=
  let p := nth k r 0 in
  let d := nth 0 r 0 in
  let r := if p <? 0 then zupd (zupd r 0 (- p)) k (- d)
           else zupd (zupd (seq_neg r) 0 p) k d in
  if nth 0 r 0 =? 1 then r else seq_normalize r.
(** the new contents of any other row, isl_tab.c:1142-1157; [pr] is the new pivot
    row *)
Definition pivot_other (k : nat) (pr r : list Z) : list Z :=
  let f := nth k r 0 in
  if f =? 0 then r
  else
    let d := nth 0 pr 0 in
    let r' := map2 (fun x y => x * d + f * y) r pr in
    let r' := zupd (zupd r' 0 (nth 0 r 0 * d)) k (f * nth k pr 0) in
    if nth 0 r' 0 =? 1 then r' else seq_normalize r'.
(** the pivot step proper, isl_tab.c:1126-1166 *)
Definition pivot_step (t : tab) (i c : nat) : tab :=
  let pr := pivot_own (2 + c) (nth i (t_rows t) []) in
  let v := rowv t i in
  let u := colv t c in
  let t := w_rows t (lset (map (pivot_other (2 + c) pr) (t_rows t)) i pr) in
  let t := w_rv t (lset (t_rv t) i u) in
  let t := w_cv t (lset (t_cv t) c v) in
  let t := upd t u (fun x => vs_idx (Some i) (vs_row true x)) in
  upd t v (fun x => vs_idx (Some c) (vs_row false x)).
(** the loop isl_tab.c:1170-1181 that looks for redundant rows; [k] is n_row - i *)
Fixpoint sweep (k i c : nat) (t : tab) : res tab :=
  match k with
  | O => Ok t
  | S k' =>
    if cf t i c =? 0 then sweep k' (S i) c t
    else if negb (v_frozen (t_info t (rowv t i))) && row_is_redundant t i then
      do (t, redo) <- mark_redundant t i ;;
      sweep k' (if redo then i else S i) c t
    else sweep k' (S i) c t
  end.
(** isl_tab_pivot, isl_tab.c:1125-1196 *)
Definition pivot (t : tab) (i c : nat) : res tab :=
  let t := pivot_step t i c in
  if t_inundo t then Ok t
  else sweep (nrow t - t_red t) (t_red t) c t.

(** to_row, isl_tab.c:1205-1224 *)
Definition to_row (t : tab) (v : Z) (sign : Z) : res tab :=
  if v_row (t_info t v) then Ok t
  else do c <- col_of t v ;;
    let r := if sign =? 0
             then find (fun r => negb (cf t r c =? 0)) (live_rows t)
             else pivot_row t None sign c in
    match r with
    | None => Null
    | Some r => pivot t r c
    end.

(** the loop of sign_of_max, isl_tab.c:1264-1282 *)
Fixpoint sign_of_max_loop (fuel : nat) (t : tab) (v : Z) : res (tab * Z) :=
  match fuel with
  | O => Div
  | S fuel =>
    do i <- row_of t v ;;
    if 0 <? cst t i then Ok (t, 1)
    else do p <- find_pivot t v true 1 ;;
      match p with
      | None => Ok (t, Z.sgn (cst t i))
      | Some (r, c) =>
        do t <- pivot t r c ;;
        if v_row (t_info t v) then sign_of_max_loop fuel t v else Ok (t, 1)
      end
  end.
(** sign_of_max, isl_tab.c:1264-1282 *)
Definition sign_of_max (fuel : nat) (t : tab) (v : Z) : res (tab * Z) :=
  do b <- max_unb t v ;;
  if b then Ok (t, 1)
  else do t <- to_row t v 1 ;; sign_of_max_loop fuel t v.
(** restore_row, isl_tab.c:1324-1338 *)
Fixpoint restore_row (fuel : nat) (t : tab) (v : Z) : res (tab * Z) :=
  match fuel with
  | O => Div
  | S fuel =>
    do i <- row_of t v ;;
    if cst t i <? 0 then
      do p <- find_pivot t v true 1 ;;
      match p with
      | None => Ok (t, Z.sgn (cst t i))
      | Some (r, c) =>
        do t <- pivot t r c ;;
        if v_row (t_info t v) then restore_row fuel t v else Ok (t, 1)
      end
    else Ok (t, Z.sgn (cst t i))
  end.
(** at_least_zero, isl_tab.c:1345-1359 *)
Fixpoint at_least_zero (fuel : nat) (t : tab) (v : Z) : res (tab * bool) :=
  match fuel with
  | O => Div
  | S fuel =>
    do i <- row_of t v ;;
    if cst t i <? 0 then
      do p <- find_pivot t v true 1 ;;
      match p with
      | None => Ok (t, negb (cst t i <? 0))
      | Some (r, c) =>
        if Nat.eqb r i then Ok (t, true)
        else do t <- pivot t r c ;; at_least_zero fuel t v
      end
    else Ok (t, negb (cst t i <? 0))
  end.
(** pivoting back after the variable [v] has reached a negative value,
    isl_tab.c:1393-1401 and 1419-1427: [u] is pivot_var *)
Definition pivot_back (fuel : nat) (t : tab) (v u : Z) (r c : nat) : res tab :=
  if negb (v_red (t_info t u)) && match v_idx (t_info t u) with Some i => Nat.eqb i r | None => false end
  then pivot t r c
  else do (t, _) <- restore_row fuel t v ;; Ok t.
(** the loop of sign_of_min, isl_tab.c:1408-1428; [last] is pivot_var with the
    last pivot row and column, None if pivot_var is NULL *)
Fixpoint sign_of_min_loop (fuel : nat) (t : tab) (v : Z) (last : option (Z * nat * nat)) : res (tab * Z) :=
  match fuel with
  | O => Div
  | S fuel =>
    do i <- row_of t v ;;
    if cst t i <? 0 then
      match last with
      | Some (u, r, c) =>
        if v_nonneg (t_info t v) then do t <- pivot_back fuel t v u r c ;; Ok (t, -1)
        else Ok (t, -1)
      | None => Ok (t, -1)
      end
    else
      do p <- find_pivot t v true (-1) ;;
      match p with
      | None => Ok (t, Z.sgn (cst t i))
      | Some (r, c) =>
        if Nat.eqb r i then Ok (t, -1)
        else
          let u := colv t c in
          do t <- pivot t r c ;;
          if v_red (t_info t v) then Ok (t, 0) else sign_of_min_loop fuel t v (Some (u, r, c))
      end
  end.
(** sign_of_min, isl_tab.c:1378-1430; when the pivot of a column variable does
    not make it negative, pivot_var is the variable itself *)
Definition sign_of_min (fuel : nat) (t : tab) (v : Z) : res (tab * Z) :=
  do b <- min_unb t v ;;
  if b then Ok (t, -1)
  else if v_row (t_info t v) then
    if v_red (t_info t v) then Ok (t, 0) else sign_of_min_loop fuel t v None
  else
    do c <- col_of t v ;;
    match pivot_row t None (-1) c with
    | None => UB
    | Some r =>
      let u := colv t c in
      do t <- pivot t r c ;;
      if v_red (t_info t v) then Ok (t, 0)
      else
        do i <- row_of t v ;;
        if cst t i <? 0 then
          if v_nonneg (t_info t v) then do t <- pivot_back fuel t v u r c ;; Ok (t, -1)
          else Ok (t, -1)
        else sign_of_min_loop fuel t v (Some (u, r, c))
    end.
(** row_at_most_neg_one, isl_tab.c:1432-1443 *)
Definition row_at_most_neg_one (t : tab) (i : nat) : bool := (cst t i <? 0) && (den t i <=? Z.abs (cst t i)).
(** the loop of isl_tab_min_at_most_neg_one, isl_tab.c:1482-1504 *)
Fixpoint min_neg_one_loop (fuel : nat) (t : tab) (v : Z) : res (tab * bool) :=
  match fuel with
  | O => Div
  | S fuel =>
    do i <- row_of t v ;;
    do p <- find_pivot t v true (-1) ;;
    match p with
    | None => Ok (t, false)
    | Some (r, c) =>
      if Nat.eqb r i then
        do (t, _) <- (if v_nonneg (t_info t v) then restore_row fuel t v else Ok (t, 0)) ;;
        Ok (t, true)
      else
        let u := colv t c in
        do t <- pivot t r c ;;
        if v_red (t_info t v) then Ok (t, false)
        else
          do i <- row_of t v ;;
          if row_at_most_neg_one t i then
            if v_nonneg (t_info t v) then
              do t <- (if negb (v_red (t_info t u)) && match v_idx (t_info t u) with Some i => Nat.eqb i r | None => false end
                       then pivot t r c else Ok t) ;;
              do (t, _) <- restore_row fuel t v ;;
              Ok (t, true)
            else Ok (t, true)
          else min_neg_one_loop fuel t v
    end
  end.
(** isl_tab_min_at_most_neg_one, isl_tab.c:1454-1508 *)
Definition min_at_most_neg_one (fuel : nat) (t : tab) (v : Z) : res (tab * bool) :=
  do b <- min_unb t v ;;
  if b then Ok (t, true)
  else if v_row (t_info t v) then
    if v_red (t_info t v) then Ok (t, false) else min_neg_one_loop fuel t v
  else
    do c <- col_of t v ;;
    match pivot_row t None (-1) c with
    | None => UB
    | Some r =>
      let u := colv t c in
      do t <- pivot t r c ;;
      if v_red (t_info t v) then Ok (t, false)
      else
        do i <- row_of t v ;;
        if row_at_most_neg_one t i then
          if v_nonneg (t_info t v) then do t <- pivot_back fuel t v u r c ;; Ok (t, true)
          else Ok (t, true)
        else min_neg_one_loop fuel t v
    end.
(** the loop of at_least_one, isl_tab.c:1519-1528 *)
Fixpoint at_least_one_loop (fuel : nat) (t : tab) (v : Z) : res (tab * bool) :=
  match fuel with
  | O => Div
  | S fuel =>
    do i <- row_of t v ;;
    if cst t i <? den t i then
      do p <- find_pivot t v true 1 ;;
      match p with
      | None => Ok (t, den t i <=? cst t i)
      | Some (r, c) =>
        if Nat.eqb r i then Ok (t, true)
        else do t <- pivot t r c ;; at_least_one_loop fuel t v
      end
    else Ok (t, true)
  end.
(** at_least_one, isl_tab.c:1513-1533 *)
Definition at_least_one (fuel : nat) (t : tab) (v : Z) : res (tab * bool) :=
  do b <- max_unb t v ;;
  if b then Ok (t, true)
  else do t <- to_row t v 1 ;; at_least_one_loop fuel t v.

(** isl_tab_kill_col, isl_tab.c:1559-1577; the second result tells whether it
    returns 1 *)
Definition kill_col (t : tab) (c : nat) : res (tab * bool) :=
  let v := colv t c in
  let t := upd t v (vs_zero true) in
  if t_undo t then
    do t <- push_var t U_zero v ;;
    let t := if Nat.eqb c (t_dead t) then t else swap_cols t c (t_dead t) in
    Ok (w_dead t (S (t_dead t)), false)
  else
    let last := (ncol t - 1)%nat in
    let t := if Nat.eqb c last then t else swap_cols t c last in
    let t := upd t (colv t last) (vs_idx None) in
    Ok (w_rows (w_cv t (removelast (t_cv t))) (map (@removelast Z) (t_rows t)), true).

(** row_is_manifestly_non_integral, isl_tab.c:1579-1592 *)
Definition row_non_integral (t : tab) (i : nat) : bool :=
  match first_live t i with
  | Some _ => false
  | None => negb (cst t i mod den t i =? 0)
  end.
(** tab_is_manifestly_empty, isl_tab.c:1597-1614 *)
Definition manifestly_empty (t : tab) : bool :=
  if t_empty t then true
  else if t_rat t then false
  else existsb (fun i => v_row (t_info t (Z.of_nat i)) &&
                         match v_idx (t_info t (Z.of_nat i)) with Some r => row_non_integral t r | None => false end)
               (seq 0 (t_nvar t)).
(** the loop of close_row, isl_tab.c:1645-1658; [k] is n_col - j *)
Fixpoint close_row_loop (k j : nat) (t : tab) (v : Z) : res tab :=
  match k with
  | O => Ok t
  | S k' =>
    do i <- row_of t v ;;
    if cf t i j =? 0 then close_row_loop k' (S j) t v
    else if 0 <? cf t i j then Null
    else do (t, recheck) <- kill_col t j ;;
      close_row_loop k' (if recheck then j else S j) t v
  end.
(** close_row, isl_tab.c:1635-1669 *)
Definition close_row (t : tab) (v : Z) (temp_var : bool) : res tab :=
  if negb (v_nonneg (t_info t v)) then Null
  else
    let t := upd t v (vs_zero true) in
    do t <- (if negb temp_var && t_undo t then push_var t U_zero v else Ok t) ;;
    do t <- close_row_loop (ncol t - t_dead t) (t_dead t) t v ;;
    do t <- (if temp_var then Ok t
             else do i <- row_of t v ;; do (t, _) <- mark_redundant t i ;; Ok t) ;;
    Ok (if manifestly_empty t then mark_empty t else t).

(** isl_tab_allocate_con, isl_tab.c:1677-1700, with the contents of the row: the
    constraint is number n_con - 1 of the result *)
Definition allocate_con (t : tab) (r : list Z) : tab :=
  let v := con (t_ncon t) in
  let t := upd t v (fun _ => mkvar (Some (nrow t)) true false false false false false false) in
  let t := w_ncon (w_rows (w_rv t (t_rv t ++ [v])) (t_rows t ++ [r])) (S (t_ncon t)) in
  push t (U_allocate v).
(** the body of the loop of isl_tab_add_row, isl_tab.c:1826-1846; [k] is
    line[1 + i] *)
Definition add_term (t : tab) (i : nat) (k : Z) (r : list Z) : res (list Z) :=
  let x := t_info t (Z.of_nat i) in
  if v_zero x then Ok r
  else if v_row x then
    do j <- row_of t (Z.of_nat i) ;;
    let d := nth 0 r 0 in
    let m := Z.lcm d (den t j) in
    let a := divexact m d in
    let b := divexact m (den t j) * k in
    Ok (m :: seq_combine true a (tl r) b (tl (nth j (t_rows t) [])))
  else
    do c <- col_of t (Z.of_nat i) ;;
    Ok (zupd r (2 + c) (nth (2 + c) r 0 + k * nth 0 r 0)).
(** the loop isl_tab.c:1826-1846 over the variables from [i] on *)
Fixpoint add_terms (t : tab) (i : nat) (ks : list Z) (r : list Z) : res (list Z) :=
  match ks with
  | [] => Ok r
  | k :: ks => do r <- add_term t i k r ;; add_terms t (S i) ks r
  end.
(** isl_tab_add_row, isl_tab.c:1812-1858; the constraint is number n_con - 1 of
    the result.  The new row does not take part in the computation of its
    contents, so it is allocated afterwards here *)
Definition add_row (t : tab) (line : list Z) : res tab :=
  do r <- add_terms t 0 (firstn (t_nvar t) (tl line)) (1 :: hd 0 line :: seq_clr (ncol t)) ;;
  Ok (allocate_con t (seq_normalize r)).
(** drop_row, isl_tab.c:1860-1869 *)
Definition drop_row (t : tab) (i : nat) : res tab :=
  if negb (rowv t i =? con (t_ncon t - 1)) then Null
  else
    let last := (nrow t - 1)%nat in
    let t := if Nat.eqb i last then t else swap_rows t i last in
    Ok (w_ncon (w_rows (w_rv t (removelast (t_rv t))) (removelast (t_rows t))) (t_ncon t - 1)).

(** replacing the constant term by 0 if tab->cone is set, isl_tab.c:1913-1917,
    2047-2051 *)
Definition cone_line (t : tab) (line : list Z) : list Z := if t_cone t then zupd line 0 0 else line.
(** isl_tab_add_ineq, isl_tab.c:1896-1948 *)
Definition add_ineq (fuel : nat) (t : tab) (ineq : list Z) : res tab :=
  do t <- add_row t (cone_line t ineq) ;;
  let v := con (t_ncon t - 1) in
  let t := upd t v (vs_nonneg true) in
  do t <- push_var t U_nonneg v ;;
  do i <- row_of t v ;;
  if row_is_redundant t i then do (t, _) <- mark_redundant t i ;; Ok t
  else
    do (t, sgn) <- restore_row fuel t v ;;
    if sgn <? 0 then Ok (mark_empty t)
    else if v_row (t_info t v) then
      do i <- row_of t v ;;
      if row_is_redundant t i then do (t, _) <- mark_redundant t i ;; Ok t else Ok t
    else Ok t.

(** to_col, isl_tab.c:1954-1981 *)
Fixpoint to_col (fuel : nat) (t : tab) (v : Z) : res tab :=
  match fuel with
  | O => Div
  | S fuel =>
    if negb (v_row (t_info t v)) then Ok t
    else
      do i <- row_of t v ;;
      if 0 <? cst t i then
        do p <- find_pivot t v false (-1) ;;
        match p with
        | None => Null
        | Some (r, c) => do t <- pivot t r c ;; to_col fuel t v
        end
      else match first_live t i with
           | None => Null
           | Some c => pivot t i c
           end
  end.

(** add_eq, isl_tab.c:1991-2017 *)
Definition add_eq0 (t : tab) (eq : list Z) : res tab :=
  do t <- add_row t eq ;;
  do i <- row_of t (con (t_ncon t - 1)) ;;
  match first_live t i with
  | None => Null
  | Some c =>
    do t <- pivot t i c ;;
    do (t, _) <- kill_col t c ;;
    Ok (w_neq t (S (t_neq t)))
  end.
(** row_is_manifestly_zero, isl_tab.c:2027-2037 *)
Definition row_zero (t : tab) (i : nat) : bool :=
  (cst t i =? 0) && match first_live t i with None => true | Some _ => false end.
(** negating a row, isl_tab.c:2062-2065, 2128-2131 *)
Definition negate_row (t : tab) (i : nat) : tab :=
  w_rows t (lset (t_rows t) i (nth 0 (nth i (t_rows t) []) 0 :: seq_neg (tl (nth i (t_rows t) [])))).
(** isl_tab_add_valid_eq, isl_tab.c:2044-2077 *)
Definition add_valid_eq (fuel : nat) (t : tab) (eq : list Z) : res tab :=
  do t <- add_row t eq ;;
  let v := con (t_ncon t - 1) in
  do i <- row_of t v ;;
  if row_zero t i then
    do (t, _) <- mark_redundant (upd t v (vs_zero true)) i ;; Ok t
  else
    let t := if cst t i <? 0 then upd (negate_row t i) v (vs_negated true) else t in
    do t <- to_col fuel (upd t v (vs_nonneg true)) v ;;
    let t := upd t v (vs_nonneg false) in
    do c <- col_of t v ;;
    do (t, _) <- kill_col t c ;; Ok t.

(** may_be_equality, isl_tab.c:2914-2919 *)
Definition may_be_equality (t : tab) (i : nat) : bool :=
  if t_rat t then cst t i =? 0 else cst t i <? den t i.
(** the loop of select_marked, isl_tab.c:2933-2943, over the constraints below
    [n] *)
Fixpoint select_marked_from (t : tab) (n : nat) : option Z :=
  match n with
  | O => None
  | S n' =>
    let x := t_info t (con n') in
    let next := select_marked_from t n' in
    match v_idx x with
    | None => next
    | Some i =>
      if v_row x && Nat.ltb i (t_red t) then next
      else if negb (v_row x) && Nat.ltb i (t_dead t) then next
      else if v_marked x then Some (con n') else next
    end
  end.
(** select_marked, isl_tab.c:2932-2950 *)
Definition select_marked (t : tab) : option Z := select_marked_from t (t_ncon t).
(** setting the marks of a list of variables, with the number of marked ones,
    isl_tab.c:2980-2993, 3266-3279 *)
Fixpoint set_marks (t : tab) (l : list (Z * bool)) (n : nat) : tab * nat :=
  match l with
  | [] => (t, n)
  | (v, m) :: l => set_marks (upd t v (vs_marked m)) l (if m then S n else n)
  end.
(** removing the marks of those variables in a list that are marked and satisfy
    a condition, isl_tab.c:3012-3020, 3292-3299 *)
Fixpoint clear_marks (t : tab) (l : list (Z * bool)) (n : nat) : tab * nat :=
  match l with
  | [] => (t, n)
  | (v, m) :: l => if v_marked (t_info t v) && m then clear_marks (upd t v (vs_marked false)) l (n - 1) else clear_marks t l n
  end.

(** drop_last_con_in_row, isl_tab.c:2663-2676 *)
Definition drop_last_con_in_row (t : tab) (v : Z) : res tab :=
  if negb (v_row (t_info t v)) then Null
  else if negb (v =? con (t_ncon t - 1)) then Null
  else do i <- row_of t v ;; drop_row t i.
(** cut_to_hyperplane, isl_tab.c:2688-2747 *)
Definition cut_to_hyperplane (fuel : nat) (t : tab) (v : Z) : res tab :=
  let x := t_info t v in
  if v_zero x then Ok t
  else if v_red x || negb (v_nonneg x) then Null
  else
    let w := con (t_ncon t) in
    do r <- (if v_row x
             then do i <- row_of t v ;; Ok (den t i :: seq_neg (tl (nth i (t_rows t) [])))
             else do c <- col_of t v ;; Ok (zupd (1 :: seq_clr (1 + ncol t)) (2 + c) (-1))) ;;
    let t := upd t w (fun _ => mkvar (Some (nrow t)) true false false false false false false) in
    let t := w_ncon (w_rows (w_rv t (t_rv t ++ [w])) (t_rows t ++ [r])) (S (t_ncon t)) in
    do (t, sgn) <- sign_of_max fuel t w ;;
    if sgn <? 0 then do t <- drop_last_con_in_row t w ;; Ok (mark_empty t)
    else
      do t <- close_row (upd t w (vs_nonneg true)) w true ;;
      drop_last_con_in_row t w.

(** the loop of isl_tab_detect_implicit_equalities, isl_tab.c:2994-3021, with
    what follows a call to cut_to_hyperplane in [again] *)
Fixpoint detect_eq_loop (fuel : nat) (again : tab -> res tab) (t : tab) (n : nat) : res tab :=
  match fuel with
  | O => Div
  | S f =>
    match n with
    | O => Ok t
    | S n =>
      match select_marked t with
      | None => Ok t
      | Some v =>
        let t := upd t v (vs_marked false) in
        do (t, sgn) <- sign_of_max f t v ;;
        if sgn <? 0 then Null
        else
          let rest t :=
            let '(t, n) := clear_marks t (map (fun i => (rowv t i, negb (may_be_equality t i))) (live_rows t)) n in
            detect_eq_loop f again t n in
          if sgn =? 0 then do t <- close_row t v false ;; rest t
          else if negb (t_rat t) then
            do (t, one) <- at_least_one f t v ;;
            if negb one then do t <- cut_to_hyperplane f t v ;; again t
            else rest t
          else rest t
      end
    end
  end.
(** isl_tab_detect_implicit_equalities, isl_tab.c:2969-3026 *)
Fixpoint detect_implicit_equalities (fuel : nat) (t : tab) : res tab :=
  match fuel with
  | O => Div
  | S f =>
    if t_empty t then Ok t
    else if Nat.eqb (t_dead t) (ncol t) then Ok t
    else
      let marks := map (fun i => let x := t_info t (rowv t i) in (rowv t i, negb (v_frozen x) && v_nonneg x && may_be_equality t i)) (live_rows t)
                   ++ map (fun c => let x := t_info t (colv t c) in (colv t c, negb (v_frozen x) && v_nonneg x)) (live_cols t) in
      let '(t, n) := set_marks t marks 0 in
      detect_eq_loop f (detect_implicit_equalities f) t n
  end.

(** con_is_redundant, isl_tab.c:3231-3246 *)
Definition con_is_redundant (fuel : nat) (t : tab) (v : Z) : res (tab * bool) :=
  if t_rat t then do (t, sgn) <- sign_of_min fuel t v ;; Ok (t, 0 <=? sgn)
  else do (t, irred) <- min_at_most_neg_one fuel t v ;; Ok (t, negb irred).
(** min_is_manifestly_unbounded on a column *)
Definition col_min_unb (t : tab) (c : nat) : bool :=
  negb (existsb (fun i => (0 <? cf t i c) && v_nonneg (t_info t (rowv t i))) (live_rows t)).
(** the loop of isl_tab_detect_redundant, isl_tab.c:3280-3300 *)
Fixpoint detect_red_loop (fuel : nat) (t : tab) (n : nat) : res tab :=
  match fuel with
  | O => Div
  | S f =>
    match n with
    | O => Ok t
    | S n =>
      match select_marked t with
      | None => Ok t
      | Some v =>
        let t := upd t v (vs_marked false) in
        do (t, red) <- con_is_redundant f t v ;;
        do t <- (if red && negb (v_red (t_info t v))
                 then do i <- row_of t v ;; do (t, _) <- mark_redundant t i ;; Ok t else Ok t) ;;
        let '(t, n) := clear_marks t (map (fun c => (colv t c, col_min_unb t c)) (live_cols t)) n in
        detect_red_loop f t n
      end
    end
  end.
(** isl_tab_detect_redundant, isl_tab.c:3261-3313 *)
Definition detect_redundant (fuel : nat) (t : tab) : res tab :=
  if t_empty t then Ok t
  else if Nat.eqb (t_red t) (nrow t) then Ok t
  else
    let marks := map (fun i => let x := t_info t (rowv t i) in (rowv t i, negb (v_frozen x) && v_nonneg x)) (live_rows t)
                 ++ map (fun c => let x := t_info t (colv t c) in (colv t c, negb (v_frozen x) && v_nonneg x && negb (col_min_unb t c))) (live_cols t) in
    let '(t, n) := set_marks t marks 0 in
    detect_red_loop fuel t n.

(** restore_last_redundant, isl_tab.c:3764-3778; the result of restore_row is
    ignored *)
Definition restore_last_redundant (fuel : nat) (t : tab) : res tab :=
  match t_red t with
  | O => Null
  | S n =>
    let v := rowv t n in
    do (t, _) <- restore_row fuel (w_red (upd t v (vs_red false)) n) v ;; Ok t
  end.
(** the loop of isl_tab_restore_redundant, isl_tab.c:3852-3860; a call to
    restore_row may mark rows as redundant again *)
Fixpoint restore_redundant_loop (fuel : nat) (t : tab) : res tab :=
  match fuel with
  | O => Div
  | S f =>
    match t_red t with
    | O => Ok t
    | S n =>
      let v := rowv t n in
      let t := if 0 <=? v then upd t v (vs_nonneg false) else t in
      do t <- restore_last_redundant f t ;; restore_redundant_loop f t
    end
  end.
(** isl_tab_restore_redundant, isl_tab.c:3841-3862 *)
Definition restore_redundant (fuel : nat) (t : tab) : res tab :=
  if t_undo t then Null else restore_redundant_loop fuel t.

(** isl_tab_is_equality, isl_tab.c:3315-3336; a constraint in a row that was
    removed is redundant *)
Definition is_equality (t : tab) (c : nat) : bool :=
  let x := t_info t (con c) in
  if v_zero x then true
  else if v_red x then false
  else if negb (v_row x) then match v_idx x with Some i => Nat.ltb i (t_dead t) | None => true end
  else match v_idx x with Some i => row_zero t i | None => false end.
(** isl_tab_is_redundant, isl_tab.c:3425-3434 *)
Definition is_redundant (t : tab) (c : nat) : bool :=
  let x := t_info t (con c) in
  if v_zero x then false
  else if v_red x then true
  else v_row x && match v_idx x with Some i => Nat.ltb i (t_red t) | None => true end.

(** the loops of isl_tab_from_basic_map, isl_tab.c:2397-2407 *)
Fixpoint add_eqs (t : tab) (l : list (list Z)) : res tab :=
  match l with
  | [] => Ok t
  | e :: l => do t <- add_eq0 t e ;; add_eqs t l
  end.
Fixpoint add_ineqs (fuel : nat) (t : tab) (l : list (list Z)) : res tab :=
  match l with
  | [] => Ok t
  | e :: l => do t <- add_ineq fuel t e ;; if t_empty t then Ok t else add_ineqs fuel t l
  end.
(** isl_tab_from_basic_map, isl_tab.c:2384-2422, with track 0 *)
Definition from_basic_map (fuel : nat) (b : bmap) : res tab :=
  let t := w_rat (tab_alloc (total b)) (b_rat b) in
  if b_empty b then Ok (mark_empty t)
  else do t <- add_eqs t (b_eq b) ;; add_ineqs fuel t (b_ineq b).

(** what the loop of isl_basic_map_update_from_tab, isl_tab.c:2638-2643, finds
    out about the [n] inequalities *)
Definition tab_kinds (t : tab) (n : nat) : list kind :=
  map (fun i => if is_equality t (t_neq t + i) then Equality
                else if is_redundant t (t_neq t + i) then Redundant else Other) (seq 0 n).
(** the tableau that isl_basic_map_remove_redundancies, isl_convex_hull.c:67-78,
    constructs *)
Definition redundancy_tab (fuel : nat) (b : bmap) : res tab :=
  do t <- from_basic_map fuel b ;;
  do t <- detect_implicit_equalities fuel (w_preserve t true) ;;
  do t <- restore_redundant fuel t ;;
  detect_redundant fuel (w_preserve t false).
(** what isl_basic_map_remove_redundancies learns from that tableau: whether the
    map is empty, isl_tab.c:2635-2636, and what it finds out about the
    inequalities.  Where the code returns an error, or the fuel runs out, this
    function claims nothing *)
Definition tab_of (fuel : nat) (b : bmap) : bool * list kind :=
  match redundancy_tab fuel b with
  | Ok t => (t_empty t, tab_kinds t (length (b_ineq b)))
  | _ => (false, map (fun _ => Other) (b_ineq b))
  end.
