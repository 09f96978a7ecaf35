(** Model of isl_mat.c: integer matrices.

    A matrix is the list of its rows; the numbers of rows and columns are
    passed along.  Operations that update elements in place build the matrix
    of the new elements.  The functions on NULL matrices and the copy-on-write
    protocol are not modelled (allocation succeeds). *)
From Coq Require Import ZArith List Bool.
From Verif Require Import SeqModel.
Import ListNotations.
Open Scope Z_scope.

(** a result: a value, NULL after an error report, access outside of the
    matrix, or a loop that exceeds its bound *)
Inductive res (A : Type) := Ok (a : A) | Null | UB | Div.
Arguments Ok {A}. Arguments Null {A}. Arguments UB {A}. Arguments Div {A}.

(** struct isl_mat, isl_mat_private.h:17-37 *)
Notation mat := (list (list Z)) (only parsing).
(** [mat->row[r][c]] *)
Definition get (M : mat) (r c : nat) : Z := nth c (nth r M []) 0.
Definition mrow (M : mat) (r : nat) : list Z := nth r M [].
(** the matrix of given elements *)
Definition tab (nr nc : nat) (f : nat -> nat -> Z) : mat :=
  map (fun r => map (fun c => f r c) (seq 0 nc)) (seq 0 nr).

(** isl_mat_diag, isl_mat.c:386-401 *)
Definition mat_diag (n : nat) (d : Z) : mat := tab n n (fun r c => if Nat.eqb r c then d else 0).
(** isl_mat_identity, isl_mat.c:419-424 *)
Definition mat_identity (n : nat) : mat := mat_diag n 1.
(** isl_mat_zero, isl_mat.c:405-415 *)
Definition mat_zero (nr nc : nat) : mat := tab nr nc (fun _ _ => 0).
(** isl_mat_is_scaled_identity, isl_mat.c:428-448 *)
Definition mat_is_scaled_identity (nr nc : nat) (M : mat) : bool :=
  if negb (Nat.eqb nr nc) then false
  else forallb (fun i =>
    match seq_first_non_zero (firstn i (mrow M i)) with Some _ => false | None =>
      if negb (get M 0 0 =? get M i i) then false
      else match seq_first_non_zero (skipn (i + 1) (mrow M i)) with Some _ => false | None => true end
    end) (seq 0 nr).

(** isl_mat_vec_product, isl_mat.c:450-475 *)
Definition mat_vec_product (nr : nat) (M : mat) (v : list Z) : list Z :=
  map (fun i => seq_inner_product (mrow M i) v) (seq 0 nr).
(** isl_vec_mat_product, isl_mat.c:506-533; [j] runs over the elements of the
    vector *)
Definition vec_mat_product (nc : nat) (v : list Z) (M : mat) : list Z :=
  map (fun i => fold_left (fun s j => s + nth j v 0 * get M j i) (seq 0 (length v)) 0) (seq 0 nc).

(** isl_mat_transpose, isl_mat.c:1203-1231; the two branches (square matrices
    are transposed in place) *)
Definition swap_elt (n : nat) (M : mat) (i j : nat) : mat :=
  tab n n (fun r c => if Nat.eqb r i && Nat.eqb c j then get M j i
                      else if Nat.eqb r j && Nat.eqb c i then get M i j else get M r c).
Definition mat_transpose (nr nc : nat) (M : mat) : mat :=
  if Nat.eqb nc nr then
    fold_left (fun M i => fold_left (fun M j => swap_elt nr M i j) (seq (i + 1) (nc - (i + 1))) M) (seq 0 nr) M
  else tab nc nr (fun r c => get M c r).
(** isl_mat_swap_cols, isl_mat.c:1233-1246, for valid columns *)
Definition mat_swap_cols (nr nc : nat) (M : mat) (i j : nat) : mat :=
  tab nr nc (fun r c => if Nat.eqb c i then get M r j else if Nat.eqb c j then get M r i else get M r c).
(** isl_mat_swap_rows, isl_mat.c:1248-1264, for valid rows *)
Definition mat_swap_rows (nr nc : nat) (M : mat) (i j : nat) : mat :=
  tab nr nc (fun r c => if Nat.eqb r i then get M j c else if Nat.eqb r j then get M i c else get M r c).

(** isl_mat_product, isl_mat.c:1271-1309; one row of the result *)
Definition product_row (nc : nat) (l : list Z) (R : mat) : list Z :=
  match l with
  | [] => seq_clr nc
  | x :: l' =>
    fold_left (fun p k => if nth k l 0 =? 0 then p
                          else map (fun j => nth j p 0 + nth k l 0 * get R k j) (seq 0 nc))
      (seq 1 (length l - 1)) (map (fun j => x * get R 0 j) (seq 0 nc))
  end.
(** isl_mat_product, isl_mat.c:1271-1309, of an [nr] x [n] and an [n] x [nc]
    matrix *)
Definition mat_product (nr nc : nat) (L R : mat) : mat :=
  map (fun i => product_row nc (mrow L i) R) (seq 0 nr).

(** isl_mat_lin_to_aff, isl_mat.c:893-913 *)
Definition mat_lin_to_aff (nr nc : nat) (M : mat) : mat :=
  tab (1 + nr) (1 + nc) (fun r c =>
    match r, c with
    | O, O => 1
    | O, S _ => 0
    | S _, O => 0
    | S i, S j => get M i j
    end).
(** isl_mat_diagonal, isl_mat.c:921-950 *)
Definition mat_diagonal (nr1 nc1 : nat) (M1 : mat) (nr2 nc2 : nat) (M2 : mat) : mat :=
  tab (nr1 + nr2) (nc1 + nc2) (fun r c =>
    if Nat.ltb r nr1 then (if Nat.ltb c nc1 then get M1 r c else 0)
    else (if Nat.ltb c nc1 then 0 else get M2 (r - nr1) (c - nc1))).
(** isl_mat_sub_alloc, isl_mat.c:175-182 *)
Definition mat_sub (M : mat) (first_row nr first_col nc : nat) : mat :=
  tab nr nc (fun r c => get M (first_row + r) (first_col + c)).

(** ** isl_mat_left_hermite *)
Record hst := mkh { hM : mat; hU : mat; hQ : mat }.
(** exchange, isl_mat.c:585-597 *)
Definition exchange (nr nc : nat) (s : hst) (row i j : nat) : hst :=
  mkh (tab nr nc (fun r c => if Nat.ltb r row then get (hM s) r c
                             else if Nat.eqb c i then get (hM s) r j
                             else if Nat.eqb c j then get (hM s) r i else get (hM s) r c))
      (mat_swap_cols nc nc (hU s) i j)
      (mat_swap_rows nc nc (hQ s) i j).
(** subtract, isl_mat.c:599-613 *)
Definition subtract (nr nc : nat) (s : hst) (row i j : nat) (m : Z) : hst :=
  mkh (tab nr nc (fun r c => if Nat.ltb r row then get (hM s) r c
                             else if Nat.eqb c j then get (hM s) r j - m * get (hM s) r i else get (hM s) r c))
      (tab nc nc (fun r c => if Nat.eqb c j then get (hU s) r j - m * get (hU s) r i else get (hU s) r c))
      (tab nc nc (fun r c => if Nat.eqb r i then get (hQ s) i c + m * get (hQ s) j c else get (hQ s) r c)).
(** oppose, isl_mat.c:615-629 *)
Definition oppose (nr nc : nat) (s : hst) (row col : nat) : hst :=
  mkh (tab nr nc (fun r c => if Nat.ltb r row then get (hM s) r c
                             else if Nat.eqb c col then - get (hM s) r col else get (hM s) r c))
      (tab nc nc (fun r c => if Nat.eqb c col then - get (hU s) r col else get (hU s) r c))
      (tab nc nc (fun r c => if Nat.eqb r col then - get (hQ s) col c else get (hQ s) r c)).
(** the while loop of isl_mat_left_hermite, isl_mat.c:683-693, and of
    isl_mat_right_inverse, isl_mat.c:1154-1165 *)
Fixpoint euclid_cols (fuel nr nc : nat) (s : hst) (row col first : nat) : option hst :=
  match fuel with
  | O => None
  | S f =>
    match seq_first_non_zero (skipn first (mrow (hM s) row)) with
    | None => Some s
    | Some off =>
      let first := (first + off)%nat in
      let c := fdiv_q (get (hM s) row first) (get (hM s) row col) in
      let s := subtract nr nc s row col first c in
      if negb (get (hM s) row first =? 0) then euclid_cols f nr nc (exchange nr nc s row first col) row col first
      else euclid_cols f nr nc s row col (S first)
    end
  end.
(** a bound on the number of iterations of the loop *)
Definition euclid_fuel (nc : nat) (p : Z) : nat := S (Z.to_nat p + nc).
(** the first part of an iteration of isl_mat_left_hermite, isl_mat.c:674-693:
    pivot selection and elimination of the rest of the row.  The result
    [Some None] means that there is no pivot *)
Definition pivot_row (nr nc : nat) (s : hst) (row col : nat) : option (option hst) :=
  match seq_abs_min_non_zero (skipn col (mrow (hM s) row)) with
  | None => Some None
  | Some first =>
    let first := (first + col)%nat in
    let s := if negb (Nat.eqb first col) then exchange nr nc s row first col else s in
    let s := if get (hM s) row col <? 0 then oppose nr nc s row col else s in
    match euclid_cols (euclid_fuel nc (get (hM s) row col)) nr nc s row col (S col) with
    | None => None
    | Some s => Some (Some s)
    end
  end.
(** the last loop of an iteration of isl_mat_left_hermite, isl_mat.c:694-704 *)
Definition reduce_col (nr nc : nat) (neg : bool) (row col : nat) (s : hst) (i : nat) : hst :=
  if get (hM s) row i =? 0 then s
  else
    let c := if neg then cdiv_q (get (hM s) row i) (get (hM s) row col)
             else fdiv_q (get (hM s) row i) (get (hM s) row col) in
    if c =? 0 then s else subtract nr nc s row col i c.
(** the loop over the rows of isl_mat_left_hermite, isl_mat.c:673-706 *)
Fixpoint hermite_loop (nr nc : nat) (neg : bool) (rows : list nat) (s : hst) (col : nat) : option hst :=
  match rows with
  | [] => Some s
  | row :: rows' =>
    match pivot_row nr nc s row col with
    | None => None
    | Some None => hermite_loop nr nc neg rows' s col
    | Some (Some s) =>
      hermite_loop nr nc neg rows' (fold_left (reduce_col nr nc neg row col) (seq 0 col) s) (S col)
    end
  end.
(** isl_mat_left_hermite, isl_mat.c:641-721, computing U and Q *)
Definition left_hermite (nr nc : nat) (M : mat) (neg : bool) : option hst :=
  let s := mkh M (mat_identity nc) (mat_identity nc) in
  if Nat.eqb nc 0 then Some s else hermite_loop nr nc neg (seq 0 nr) s 0.

(** hermite_first_zero_col, isl_mat.c:836-850 *)
Fixpoint first_nz_row (fuel : nat) (n_row : nat) (H : mat) (row col : nat) : nat :=
  match fuel with
  | O => row
  | S f => if Nat.ltb row n_row && (get H row col =? 0) then first_nz_row f n_row H (S row) col else row
  end.
Fixpoint zero_col_loop (cols : list nat) (n_row nc : nat) (H : mat) (row : nat) : nat :=
  match cols with
  | [] => nc
  | col :: cols' =>
    let row := first_nz_row n_row n_row H row col in
    if Nat.eqb row n_row then col else zero_col_loop cols' n_row nc H row
  end.
Definition hermite_first_zero_col (nc : nat) (H : mat) (first_col n_row : nat) : nat :=
  zero_col_loop (seq first_col (nc - first_col)) n_row nc H 0.
(** isl_mat_rank, isl_mat.c:854-867 *)
Definition mat_rank (nr nc : nat) (M : mat) : option nat :=
  match left_hermite nr nc M false with
  | None => None
  | Some s => Some (hermite_first_zero_col nc (hM s) 0 nr)
  end.
(** isl_mat_right_kernel, isl_mat.c:869-891; the result has [nc] rows *)
Definition mat_right_kernel (nr nc : nat) (M : mat) : option (nat * mat) :=
  match left_hermite nr nc M false with
  | None => None
  | Some s =>
    let rank := hermite_first_zero_col nc (hM s) 0 nr in
    Some (nc - rank, mat_sub (hU s) 0 nc rank (nc - rank))%nat
  end.

(** ** isl_mat_right_inverse *)
(** isl_mat_col_combine, isl_mat.c:1109-1122 *)
Definition mat_col_combine (nr nc : nat) (M : mat) (dst : nat) (m1 : Z) (src1 : nat) (m2 : Z) (src2 : nat) : mat :=
  tab nr nc (fun r c => if Nat.eqb c dst then m1 * get M r src1 + m2 * get M r src2 else get M r c).
(** isl_mat_col_scale, isl_mat.c:1101-1107 *)
Definition mat_col_scale (nr nc : nat) (M : mat) (col : nat) (m : Z) : mat :=
  tab nr nc (fun r c => if Nat.eqb c col then get M r col * m else get M r c).
(** the last loop of an iteration of isl_mat_right_inverse, isl_mat.c:1166-1175;
    [hU] is the matrix inv *)
Definition clear_col (nr nc : nat) (row : nat) (s : hst) (i : nat) : hst :=
  if get (hM s) row i =? 0 then s
  else
    let a := Z.gcd (get (hM s) row row) (get (hM s) row i) in
    let b := divexact (get (hM s) row i) a in
    let a := divexact (get (hM s) row row) a in
    let a := - a in
    mkh (mat_col_combine nr nc (hM s) i a i b row) (mat_col_combine nc nc (hU s) i a i b row) (hQ s).
(** the loop over the rows of isl_mat_right_inverse, isl_mat.c:1141-1176 *)
Fixpoint right_inverse_loop (nr nc : nat) (rows : list nat) (s : hst) : res hst :=
  match rows with
  | [] => Ok s
  | row :: rows' =>
    match pivot_row nr nc s row row with
    | None => Div
    | Some None => Null
    | Some (Some s) => right_inverse_loop nr nc rows' (fold_left (clear_col nr nc row) (seq 0 row) s)
    end
  end.
(** isl_mat_right_inverse, isl_mat.c:1124-1201.  The matrix Q is not computed
    by the code; here the one maintained by [pivot_row] is ignored *)
Definition right_inverse (nr nc : nat) (M : mat) : res mat :=
  match right_inverse_loop nr nc (seq 0 nr) (mkh M (mat_identity nc) (mat_identity nc)) with
  | Ok s =>
    if Nat.eqb nr 0 then UB
    else
      let a := fold_left (fun a r => Z.lcm a (get (hM s) r r)) (seq 1 (nr - 1)) (get (hM s) 0 0) in
      if a =? 0 then Null
      else Ok (fold_left (fun inv r =>
                 let m := divexact a (get (hM s) r r) in
                 if m =? 1 then inv else mat_col_scale nc nc inv r m) (seq 0 nr) (hU s))
  | r => match r with Null => Null | Div => Div | _ => UB end
  end.

(** ** isl_mat_inverse_product *)
Record ist := mkis { iL : mat; iR : mat }.
(** row_first_non_zero, isl_mat.c:952-960, on the rows from [first] on *)
Definition row_first_non_zero (n : nat) (M : mat) (first col : nat) : option nat :=
  seq_first_non_zero (map (fun r => get M r col) (seq first (n - first))).
(** row_abs_min_non_zero, isl_mat.c:962-974, on the rows from [first] on *)
Definition row_abs_min_non_zero (n : nat) (M : mat) (first col : nat) : option nat :=
  seq_abs_min_non_zero (map (fun r => get M r col) (seq first (n - first))).
(** inv_exchange, isl_mat.c:976-985 *)
Definition inv_exchange (n m : nat) (s : ist) (i j : nat) : ist :=
  mkis (mat_swap_rows n n (iL s) i j) (mat_swap_rows n m (iR s) i j).
(** inv_oppose, isl_mat.c:987-992 *)
Definition inv_oppose (n m : nat) (s : ist) (row : nat) : ist :=
  mkis (tab n n (fun r c => if Nat.eqb r row && Nat.leb row c then - get (iL s) r c else get (iL s) r c))
       (tab n m (fun r c => if Nat.eqb r row then - get (iR s) r c else get (iR s) r c)).
(** inv_subtract, isl_mat.c:994-1004 *)
Definition inv_subtract (n m : nat) (s : ist) (row i : nat) (x : Z) : ist :=
  let x := - x in
  mkis (tab n n (fun r c => if Nat.eqb r i && Nat.leb row c then get (iL s) i c + x * get (iL s) row c else get (iL s) r c))
       (tab n m (fun r c => if Nat.eqb r i then get (iR s) i c + x * get (iR s) row c else get (iR s) r c)).
(** the while loop of isl_mat_inverse_product, isl_mat.c:1046-1059 *)
Fixpoint euclid_rows (fuel n m : nat) (s : ist) (row first : nat) : option ist :=
  match fuel with
  | O => None
  | S f =>
    match row_first_non_zero n (iL s) first row with
    | None => Some s
    | Some off =>
      let first := (first + off)%nat in
      let a := fdiv_q (get (iL s) first row) (get (iL s) row row) in
      let s := inv_subtract n m s row first a in
      if negb (get (iL s) first row =? 0) then euclid_rows f n m (inv_exchange n m s row first) row first
      else euclid_rows f n m s row (S first)
    end
  end.
(** the last loop of an iteration of isl_mat_inverse_product, isl_mat.c:1060-1073 *)
Definition clear_row (n m : nat) (row : nat) (s : ist) (i : nat) : ist :=
  if get (iL s) i row =? 0 then s
  else
    let a := Z.gcd (get (iL s) row row) (get (iL s) i row) in
    let b := divexact (get (iL s) i row) a in
    let a := divexact (get (iL s) row row) a in
    let b := - b in
    mkis (tab n n (fun r c => if Nat.eqb r i && Nat.leb i c then a * get (iL s) i c + b * get (iL s) row c else get (iL s) r c))
         (tab n m (fun r c => if Nat.eqb r i then a * get (iR s) i c + b * get (iR s) row c else get (iR s) r c)).
(** the loop over the rows of isl_mat_inverse_product, isl_mat.c:1032-1074 *)
Fixpoint inverse_product_loop (n m : nat) (rows : list nat) (s : ist) : res ist :=
  match rows with
  | [] => Ok s
  | row :: rows' =>
    match row_abs_min_non_zero n (iL s) row row with
    | None => Null
    | Some pivot =>
      let pivot := (pivot + row)%nat in
      let s := if negb (Nat.eqb pivot row) then inv_exchange n m s pivot row else s in
      let s := if get (iL s) row row <? 0 then inv_oppose n m s row else s in
      match euclid_rows (euclid_fuel n (get (iL s) row row)) n m s row (S row) with
      | None => Div
      | Some s => inverse_product_loop n m rows' (fold_left (clear_row n m row) (seq 0 row) s)
      end
    end
  end.
(** isl_mat_inverse_product, isl_mat.c:1008-1099, of an [n] x [n] and an
    [n] x [m] matrix *)
Definition inverse_product (n m : nat) (L R : mat) : res mat :=
  if Nat.eqb n 0 then Ok R
  else
    match inverse_product_loop n m (seq 0 n) (mkis L R) with
    | Ok s =>
      let a := fold_left (fun a r => Z.lcm a (get (iL s) r r)) (seq 1 (n - 1)) (get (iL s) 0 0) in
      if a =? 0 then Null
      else Ok (fold_left (fun R r =>
                 let x := divexact a (get (iL s) r r) in
                 if x =? 1 then R else tab n m (fun i j => if Nat.eqb i r then get R i j * x else get R i j)) (seq 0 n) (iR s))
    | r => match r with Null => Null | Div => Div | _ => UB end
    end.

(** isl_mat_unimodular_complete, isl_mat.c:1737-1763, of an [n] x [n] matrix of
    which the first [row] rows are given *)
Definition unimodular_complete (n : nat) (M : mat) (row : nat) : res mat :=
  match left_hermite row n (firstn row M) false with
  | None => Div
  | Some s =>
    if forallb (fun r => get (hM s) r r =? 1) (seq 0 row)
    then Ok (tab n n (fun r c => if Nat.ltb r row then get M r c else get (hQ s) r c))
    else Null
  end.
(** isl_mat_gcd, isl_mat.c:1920-1935 *)
Definition mat_gcd (nr : nat) (M : mat) : Z :=
  fold_left (fun g i => Z.gcd g (seq_gcd (mrow M i))) (seq 0 nr) 0.
(** isl_mat_scale_down, isl_mat.c:1956-1971; dividing by zero is undefined *)
Definition mat_scale_down (nr : nat) (M : mat) (m : Z) : res mat :=
  if m =? 1 then Ok M
  else if m =? 0 then UB
  else Ok (map (fun i => seq_scale_down (mrow M i) m) (seq 0 nr)).
(** isl_mat_normalize, isl_mat.c:1988-2001 *)
Definition mat_normalize (nr : nat) (M : mat) : res mat := mat_scale_down nr M (mat_gcd nr M).
