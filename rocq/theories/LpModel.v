(** Model of the undo operations of isl_tab.c (isl_tab_snap, isl_tab_rollback),
    of isl_tab_min and isl_tab_get_sample_value, and of isl_lp.c.

    The conventions are those of TabModel.v.  A snapshot is the number of undo
    records at the time it was taken (the code uses a pointer to the last record
    at that time).  Undoing the insertion of a variable (drop_col with
    var_drop_entry) is not modelled, as the model has no isl_tab_insert_var, nor
    are the records for tab->bmap, the samples and callbacks.
    The dual vector of isl_tab_min is not modelled either (flags is 0). *)
From Coq Require Import ZArith List Bool Arith.
From Verif Require Import SeqModel MatModel BMapModel TabModel.
Import ListNotations.
Open Scope Z_scope.

(** isl_tab_snap, isl_tab.c:3674-3680 *)
Definition tab_snap (t : tab) : tab * nat := (w_undo t true, length (t_log t)).

(** unrelax, isl_tab.c:3712-3741 *)
Definition unrelax (fuel : nat) (t : tab) (v : Z) : res tab :=
  do t <- (if v_row (t_info t v) then Ok t
           else do b <- max_unb t v ;; if b then Ok t else to_row t v 1) ;;
  if v_row (t_info t v) then
    do i <- row_of t v ;;
    let r := nth i (t_rows t) [] in
    let t := w_rows t (lset (t_rows t) i (zupd r 1 (nth 1 r 0 - nth 0 r 0))) in
    if v_nonneg (t_info t v) then do (t, s) <- restore_row fuel t v ;; if s <? 0 then Null else Ok t
    else Ok t
  else
    do c <- col_of t v ;;
    Ok (w_rows t (map (fun r => zupd r 1 (nth 1 r 0 + nth (2 + c) r 0)) (t_rows t))).
(** ununrestrict, isl_tab.c:3748-3756 *)
Definition ununrestrict (fuel : nat) (t : tab) (v : Z) : res tab :=
  let t := upd t v (vs_nonneg true) in
  if v_row (t_info t v) then do (t, _) <- restore_row fuel t v ;; Ok t else Ok t.
(** the columns that restore_basis collects first, isl_tab.c:3913-3920 *)
Definition extra_cols (t : tab) (cv : list Z) : list nat :=
  filter (fun i => negb (existsb (Z.eqb (colv t i)) cv)) (seq 0 (ncol t)).
(** the main loop of restore_basis, isl_tab.c:3921-3941; the element of [extra]
    that was used is replaced by the last one *)
Fixpoint restore_basis_loop (t : tab) (cv : list Z) (extra : list nat) : res tab :=
  match cv with
  | [] => Ok t
  | v :: cv =>
    match extra with
    | [] => Ok t
    | _ :: _ =>
      if existsb (Z.eqb v) (t_cv t) then restore_basis_loop t cv extra
      else
        do row <- row_of t v ;;
        match find (fun j => negb (cf t row (nth j extra O) =? 0)) (seq 0 (length extra)) with
        | None => Null
        | Some j =>
          do t <- pivot t row (nth j extra O) ;;
          restore_basis_loop t cv (removelast (lset extra j (last extra O)))
        end
    end
  end.
(** restore_basis, isl_tab.c:3899-3942 *)
Definition restore_basis (t : tab) (cv : list Z) : res tab := restore_basis_loop t cv (extra_cols t cv).

(** perform_undo, isl_tab.c:3974-4008, with perform_undo_var, isl_tab.c:3782-3831 *)
Definition perform_undo (fuel : nat) (t : tab) (u : undo_rec) : res tab :=
  match u with
  | U_rational => Ok (w_rat t false)
  | U_empty => Ok (w_empty t false)
  | U_nonneg v => Ok (upd t v (vs_nonneg false))
  | U_redundant v =>
    if v_row (t_info t v) && match v_idx (t_info t v) with Some i => Nat.eqb (S i) (t_red t) | None => false end
    then restore_last_redundant fuel t
    else Null
  | U_freeze v => Ok (upd t v (vs_frozen false))
  | U_zero v =>
    let t := upd t v (vs_zero false) in
    Ok (if v_row (t_info t v) then t else w_dead t (t_dead t - 1))
  | U_allocate v =>
    if 0 <=? v then Null
    else
      do t <- (if v_row (t_info t v) then Ok t
               else do b <- max_unb t v ;;
                 if negb b then to_row t v 1
                 else do b <- min_unb t v ;;
                   if negb b then to_row t v (-1) else to_row t v 0) ;;
      do i <- row_of t v ;; drop_row t i
  | U_relax v => unrelax fuel t v
  | U_unrestrict v => ununrestrict fuel t v
  | U_basis cv => restore_basis t cv
  end.
(** the loop of isl_tab_rollback, isl_tab.c:4021-4032 *)
Fixpoint rollback_loop (fuel : nat) (t : tab) (l : list undo_rec) : res tab :=
  match l with
  | [] => Ok t
  | u :: l => do t <- perform_undo fuel t u ;; rollback_loop fuel t l
  end.
(** isl_tab_rollback, isl_tab.c:4014-4039 *)
Definition rollback (fuel : nat) (t : tab) (snap : nat) : res tab :=
  let l := t_log t in
  let k := (length l - snap)%nat in
  do t <- rollback_loop fuel (w_inundo t true) (firstn k l) ;;
  Ok (w_log (w_inundo t false) (skipn k l)).

(** enum isl_lp_result, include/isl/lp.h:17-22, without isl_lp_error (which is
    the result Null), together with *opt and *opt_denom *)
Inductive lp := Lp_empty | Lp_unbounded | Lp_ok (opt den : Z).

(** the loop of isl_tab_min, isl_tab.c:3369-3380; the flag tells whether the
    expression is unbounded *)
Fixpoint min_loop (fuel : nat) (t : tab) (v : Z) : res (tab * bool) :=
  match fuel with
  | O => Div
  | S fuel =>
    do p <- find_pivot t v true (-1) ;;
    match p with
    | None => Ok (t, false)
    | Some (r, c) =>
      do i <- row_of t v ;;
      if Nat.eqb r i then Ok (t, true)
      else do t <- pivot t r c ;; min_loop fuel t v
    end
  end.
(** isl_tab_min, isl_tab.c:3348-3414, with get_rounded_sample_value,
    isl_tab.c:2603-2614; [exact] tells whether opt_denom is not NULL *)
Definition tab_min (fuel : nat) (t : tab) (f : list Z) (denom : Z) (exact : bool) : res (tab * lp) :=
  if t_empty t then Ok (t, Lp_empty)
  else
    let '(t, snap) := tab_snap t in
    do t <- add_row t f ;;
    let v := con (t_ncon t - 1) in
    do (t, unb) <- min_loop fuel t v ;;
    do i <- row_of t v ;;
    let r := nth i (t_rows t) [] in
    let t := w_rows t (lset (t_rows t) i (zupd r 0 (nth 0 r 0 * denom))) in
    let o := if unb then Lp_unbounded
             else if exact then Lp_ok (cst t i) (den t i)
             else Lp_ok (cdiv_q (cst t i) (den t i)) 1 in
    do t <- rollback fuel t snap ;;
    Ok (t, o).

(** the loop of isl_tab_get_sample_value, isl_tab.c:2582-2595, over the variables
    from [i] on; [vec] contains the elements computed so far *)
Fixpoint sample_loop (t : tab) (n i : nat) (vec : list Z) : res (list Z) :=
  match n with
  | O => Ok vec
  | S n =>
    let v := Z.of_nat i in
    if negb (v_row (t_info t v)) then sample_loop t n (S i) (vec ++ [0])
    else
      do row <- row_of t v ;;
      let m := Z.gcd (hd 0 vec) (den t row) in
      let m := divexact (den t row) m in
      let vec := seq_scale vec m in
      let m := divexact (hd 0 vec) (den t row) in
      sample_loop t n (S i) (vec ++ [m * cst t row])
  end.
(** isl_tab_get_sample_value, isl_tab.c:2565-2598 *)
Definition sample_value (t : tab) : res (list Z) :=
  do vec <- sample_loop t (t_nvar t) 0 [1] ;; Ok (seq_normalize vec).

(** isl_tab_solve_lp, isl_lp.c:25-54, called by isl_basic_map_solve_lp,
    isl_lp.c:66-77; the second result is *sol *)
Definition solve_lp (fuel : nat) (b : bmap) (max : bool) (f : list Z) (denom : Z) (exact : bool) : res (lp * list Z) :=
  let f := if max then seq_neg f else f in
  do (b, _) <- gauss b ;;
  do t <- from_basic_map fuel b ;;
  do (t, r) <- tab_min fuel t f denom exact ;;
  do sol <- match r with Lp_ok _ _ => sample_value t | _ => Ok [] end ;;
  Ok (match r with Lp_ok o d => Lp_ok (if max then - o else o) d | _ => r end, sol).

(** comparing an optimum with the best one so far, isl_lp.c:155-167 *)
Definition better (max : bool) (best o : lp) : bool :=
  match best, o with
  | Lp_ok b bd, Lp_ok o od => if max then b * od <? o * bd else o * bd <? b * od
  | _, _ => true
  end.
(** the loop of isl_map_solve_lp, isl_lp.c:141-183; [None] for *sol is NULL *)
Fixpoint map_lp_loop (fuel : nat) (l : list bmap) (max : bool) (f : list Z) (denom : Z) (exact : bool) (best : lp) (sol : option (list Z)) : res (lp * option (list Z)) :=
  match l with
  | [] => Ok (best, sol)
  | b :: l =>
    do (o, s) <- solve_lp fuel b max (f ++ repeat 0 (ndiv b)) denom exact ;;
    match o with
    | Lp_unbounded => Ok (Lp_unbounded, sol)
    | Lp_empty => map_lp_loop fuel l max f denom exact best sol
    | Lp_ok _ _ =>
      if match best with Lp_empty => true | _ => better max best o end
      then map_lp_loop fuel l max f denom exact o (Some s)
      else map_lp_loop fuel l max f denom exact best sol
    end
  end.
(** isl_map_solve_lp, isl_lp.c:88-196, with "sol" and "opt" not NULL, called by
    isl_set_solve_lp, isl_lp.c:198-205; [f] has no coefficients of divs, they are
    set to 0 for each of the basic maps.  Note isl_lp.c:139-140: *sol is reset
    after the first basic map *)
Definition map_solve_lp (fuel : nat) (l : list bmap) (max : bool) (f : list Z) (denom : Z) (exact : bool) : res (lp * option (list Z)) :=
  match l with
  | [] => Ok (Lp_empty, None)
  | b :: l =>
    do (o, s) <- solve_lp fuel b max (f ++ repeat 0 (ndiv b)) denom exact ;;
    match o with
    | Lp_unbounded => Ok (Lp_unbounded, None)
    | _ => map_lp_loop fuel l max f denom exact o None
    end
  end.
