(** Model of quasi-polynomials, isl_polynomial.c.

    A quasi-polynomial is a polynomial in the variables of a set space and in
    integer divisions.  isl_int is Z.  Memory allocation succeeds.  Reference
    counts and copy-on-write are not modelled. *)
From Coq Require Import ZArith List Bool Arith.
From Verif Require Import SeqModel MatModel ValModel LocalModel BMapModel SpaceModel PolyModel.
Import ListNotations.
Open Scope Z_scope.

(** struct isl_qpolynomial, isl_polynomial_private.h:34-42 *)
Record qp := mkqp { q_sp : space; q_div : mat; q_poly : poly }.
(** isl_qpolynomial_domain_var_offset, isl_polynomial.c:557-575, for isl_dim_div *)
Definition q_d (q : qp) : nat := dim_all (q_sp q).
(** [qp->div->n_row] *)
Definition q_n (q : qp) : nat := length (q_div q).
(** [qp->div->n_col] *)
Definition q_col (q : qp) : nat := (2 + q_d q + q_n q)%nat.
Definition with_poly (q : qp) (p : poly) : qp := mkqp (q_sp q) (q_div q) p.

(** isl_mat_is_equal, isl_mat.c:1799-1817, for matrices with [nc] columns *)
Definition mat_is_equal (nc : nat) (M1 M2 : mat) : bool :=
  Nat.eqb (length M1) (length M2) && forallb (fun i => seq_eq (firstn nc (nth i M1 [])) (firstn nc (nth i M2 []))) (seq 0 (length M1)).
(** compatible_divs, isl_polynomial.c:1443-1467; [d] is the number of variables *)
Definition compatible_divs (d : nat) (M1 M2 : mat) : res bool :=
  if Nat.ltb (length M1) (length M2) then Null
  else Ok (mat_is_equal (2 + d + length M2) (firstn (length M2) M1) M2).
(** isl_qpolynomial_add, isl_polynomial.c:1680-1710, and isl_qpolynomial_mul,
    isl_polynomial.c:1854-1884, with with_merged_divs, isl_polynomial.c:1625-1678 *)
Fixpoint qp_binop (fn : poly -> poly -> res poly) (fuel : nat) (q1 q2 : qp) : res qp :=
  match fuel with
  | O => Div
  | S f =>
    if negb (is_equal (q_sp q1) (q_sp q2)) then Null
    else if Nat.ltb (q_n q1) (q_n q2) then qp_binop fn f q2 q1
    else
      let! c := compatible_divs (q_d q1) (q_div q1) (q_div q2) in
      if negb c then
        let! (div, e1, e2) := merge_divs (q_d q1) (q_div q1) (q_div q2) in
        let! p1 := expand (q_poly q1) e1 (q_d q1) in
        let! p2 := expand (q_poly q2) e2 (q_d q1) in
        qp_binop fn f (mkqp (q_sp q1) div p1) (mkqp (q_sp q2) div p2)
      else
        let! p := fn (q_poly q1) (q_poly q2) in
        Ok (with_poly q1 p)
  end.
Definition qp_add (q1 q2 : qp) : res qp := qp_binop poly_sum 4 q1 q2.
Definition qp_mul (q1 q2 : qp) : res qp := qp_binop poly_mul 4 q1 q2.
(** isl_qpolynomial_add_isl_int, isl_polynomial.c:1728-1747 *)
Definition qp_add_int (q : qp) (v : Z) : res qp :=
  if v =? 0 then Ok q else let! p := poly_add_int (q_poly q) v in Ok (with_poly q p).
(** isl_qpolynomial_zero_on_domain, isl_polynomial.c:1925-1931 *)
Definition qp_zero (s : space) : qp := mkqp s [] p_zero.
(** isl_qpolynomial_mul_isl_int, isl_polynomial.c:1758-1781 *)
Definition qp_mul_int (q : qp) (v : Z) : qp :=
  if v =? 1 then q
  else if v =? 0 then qp_zero (q_sp q)
  else with_poly q (poly_mul_int (q_poly q) v).
(** isl_qpolynomial_neg, isl_polynomial.c:1749-1755 *)
Definition qp_neg (q : qp) : qp := qp_mul_int q (-1).
(** isl_qpolynomial_sub, isl_polynomial.c:1722-1726 *)
Definition qp_sub (q1 q2 : qp) : res qp := qp_add q1 (qp_neg q2).
(** isl_qpolynomial_scale_val, isl_polynomial.c:1792-1830 *)
Definition qp_scale (q : qp) (v : val) : res qp :=
  if negb (v_is_rat v) then Null
  else if v_is_one v then Ok q
  else if v_is_zero v then Ok (qp_zero (q_sp q))
  else Ok (with_poly q (poly_scale (q_poly q) v)).
(** isl_qpolynomial_scale_down_val, isl_polynomial.c:1834-1852 *)
Definition qp_scale_down (q : qp) (v : val) : res qp :=
  if negb (v_is_rat v) then Null
  else if v_is_zero v then Null
  else qp_scale q (v_inv v).
(** isl_qpolynomial_pow, isl_polynomial.c:1886-1902 *)
Definition qp_pow (q : qp) (n : Z) : res qp := let! p := poly_pow (q_poly q) n in Ok (with_poly q p).
(** isl_qpolynomial_eval, isl_polynomial.c:3275-3303, in a point in the space of [q] with the given
    homogeneous coordinates; void points have no coordinates (isl_point.c:62-77) *)
Definition qp_eval (q : qp) (vec : list Z) : res val :=
  match vec with
  | [] => Ok v_nan
  | _ => let! ext := extend_point (q_d q) (q_div q) vec in poly_eval (q_poly q) ext
  end.
(** isl_qpolynomial_is_nan, isl_polynomial.c:605-608 *)
Definition qp_is_nan (q : qp) : bool := p_is_nan (q_poly q).
(** isl_qpolynomial_plain_is_equal, isl_polynomial.c:2192-2212 *)
Definition qp_plain_is_equal (q1 q2 : qp) : bool :=
  if qp_is_nan q1 || qp_is_nan q2 then false
  else if negb (is_equal (q_sp q1) (q_sp q2)) then false
  else if negb (mat_is_equal (q_col q1) (q_div q1) (q_div q2)) then false
  else p_is_equal (q_poly q1) (q_poly q2).

(** ** simplification of integer divisions *)
(** cmp_row, isl_polynomial.c:1469-1480 *)
Definition q_cmp_row (M : mat) (i j : nat) : Z :=
  let li := last_nz (nth i M []) in
  let lj := last_nz (nth j M []) in
  if negb (li =? lj) then li - lj else seq_cmp (nth i M []) (nth j M []).
(** isl_mat_drop_rows, isl_mat.c:1526-1540, for one row, and isl_mat_drop_cols, isl_mat.c:1505-1524, for one column *)
Definition drop_row (M : mat) (i : nat) : mat := ldrop M i.
Definition drop_col (M : mat) (c : nat) : mat := map (fun r => ldrop r c) M.
(** isl_mat_col_add, isl_mat.c:1657-1667 *)
Definition col_add (M : mat) (dst src : nat) : mat := map (fun r => zupd r dst (nth dst r 0 + nth src r 0)) M.
(** the second loop of sort_divs, isl_polynomial.c:1535-1543; [arr] contains the rows in sorted order *)
Fixpoint sort_move (arr : list nat) (i : nat) (M : mat) (pos at_ : list nat) : mat :=
  match arr with
  | [] => M
  | a :: arr' =>
    let p := nth a pos 0%nat in
    if Nat.eqb p i then sort_move arr' (S i) M pos at_
    else
      let M := lswap M i p in
      let pos := lset pos (nth i at_ 0%nat) p in
      let at_ := lset at_ p (nth i at_ 0%nat) in
      let at_ := lset at_ i a in
      let pos := lset pos a i in
      sort_move arr' (S i) M pos at_
  end.
(** the third loop of sort_divs, isl_polynomial.c:1545-1559; [d] is [div_pos] *)
Fixpoint sort_merge (d : nat) (arr : list nat) (i skip : nat) (M : mat) (r : list nat) : mat * list nat :=
  match arr with
  | [] => (M, r)
  | a :: arr' =>
    let '(M, skip) :=
      if Nat.ltb 0 i && seq_eq (nth (i - skip - 1) M []) (nth (i - skip) M []) then
        (drop_col (col_add (drop_row M (i - skip)) (2 + d + (i - skip) - 1) (2 + d + (i - skip))) (2 + d + (i - skip)), S skip)
      else (M, skip) in
    sort_merge d arr' (S i) skip M (lset r (d + a) (d + (i - skip))%nat)
  end.
(** sort_divs, isl_polynomial.c:1498-1582; qsort is an argument that is passed the comparison function of
    the rows *)
Definition sort_divs (qsort : (nat -> nat -> Z) -> list nat -> list nat) (q : qp) : res qp :=
  if Nat.leb (q_n q) 1 then Ok q
  else
    let n := q_n q in
    let d := q_d q in
    let arr := qsort (q_cmp_row (q_div q)) (seq 0 n) in
    let M := sort_move arr 0 (q_div q) (seq 0 n) (seq 0 n) in
    let '(M, r) := sort_merge d arr 0 0 M (seq 0 (d + n)) in
    let! p := reorder (q_poly q) r in
    Ok (mkqp (q_sp q) M p).
(** normalize_div, isl_polynomial.c:2358-2375 *)
Definition normalize_div (row : list Z) : list Z :=
  let g := Z.gcd (seq_gcd (skipn 2 row)) (nth 0 row 0) in
  if g =? 1 then row
  else divexact (nth 0 row 0) g :: fdiv_q (nth 1 row 0) g :: seq_scale_down (skipn 2 row) g.
(** substitute_div, isl_polynomial.c:2381-2425; the entry of the reordering for the replaced
    integer division is not initialised by the code and not used *)
Definition substitute_div (q : qp) (div : nat) (s : poly) : res qp :=
  let d := q_d q in
  let! p := poly_subs (q_poly q) (d + div) 1 [s] in
  let r := (seq 0 (d + div) ++ [0%nat] ++ seq (d + div) (q_n q - div - 1))%list in
  let M := drop_col (drop_row (q_div q) div) (2 + d + div) in
  let! p := reorder p r in
  Ok (mkqp (q_sp q) M p).
(** the inner loop of substitute_non_divs, isl_polynomial.c:2444-2453 *)
Definition plug_in_div (d i : nat) (M : mat) : mat :=
  let ri := nth i M [] in
  map (fun j =>
    let rj := nth j M [] in
    let c := nth (2 + d + i) rj 0 in
    if Nat.leb j i || (c =? 0) then rj
    else
      let rj := nth 0 rj 0 :: seq_combine false 1 (firstn (1 + d + i) (skipn 1 rj)) c (firstn (1 + d + i) (skipn 1 ri)) ++ skipn (2 + d + i) rj in
      normalize_div (zupd rj (2 + d + i) 0)) (seq 0 (length M)).
(** substitute_non_divs, isl_polynomial.c:2430-2461; [fuel] is the number of rows to visit *)
Fixpoint substitute_non_divs (fuel i : nat) (q : qp) : res qp :=
  match fuel with
  | O => Ok q
  | S f =>
    if Nat.leb (q_n q) i then Ok q
    else if negb (nth 0 (nth i (q_div q) []) 0 =? 1) then substitute_non_divs f (S i) q
    else
      let M := plug_in_div (q_d q) i (q_div q) in
      let! s := from_affine (skipn 1 (nth i M [])) (nth 0 (nth i M []) 0) in
      let! q := substitute_div (mkqp (q_sp q) M (q_poly q)) i s in
      substitute_non_divs f i q
  end.
(** the loop of reduce_div, isl_polynomial.c:2472-2496: [is] contains the columns to handle; the state consists of
    the integer divisions and of [mat] *)
Fixpoint reduce_div (d div : nat) (is : list nat) (M mat : mat) : MatModel.mat * MatModel.mat :=
  match is with
  | [] => (M, mat)
  | i :: is' =>
    let r := nth div M [] in
    let den := nth 0 r 0 in
    let c := nth (1 + i) r 0 in
    if (0 <=? c) && (c <? den) then reduce_div d div is' M mat
    else
      let v := fdiv_q c den in
      let M := map (fun j =>
        let rj := nth j M [] in
        if Nat.eqb j div then zupd r (1 + i) (fdiv_r c den)
        else if Nat.ltb div j then zupd rj (1 + i) (nth (1 + i) rj 0 + v * nth (2 + d + div) rj 0)
        else rj) (seq 0 (length M)) in
      let mat := map (fun m => zupd m i (nth i m 0 + v * nth (1 + d + div) m 0)) mat in
      reduce_div d div is' M mat
  end.
(** the loop of needs_invert, isl_polynomial.c:2505-2523; [rl] contains the remaining elements of the row in
    reverse order, at positions [length rl] down to 1 *)
Fixpoint invert_loop (den : Z) (rl : list Z) : bool :=
  match rl with
  | [] => false
  | c :: rl' =>
    if c =? 0 then invert_loop den rl'
    else if negb (c * 2 =? den) then den <? c * 2
    else match rl' with [] => true | _ => invert_loop den rl' end
  end.
(** needs_invert, isl_polynomial.c:2505-2523 *)
Definition needs_invert (row : list Z) : bool := invert_loop (nth 0 row 0) (rev (skipn 1 row)).
(** invert_div, isl_polynomial.c:2530-2543 *)
Definition invert_div (d div : nat) (M mat : mat) : MatModel.mat * MatModel.mat :=
  let r := nth div M [] in
  let r' := match seq_neg (skipn 1 r) with [] => [] | c :: t => (c - 1 + nth 0 r 0) :: t end in
  let M := lset M div (nth 0 r 0 :: r') in
  (map (fun rj => zupd rj (2 + d + div) (- nth (2 + d + div) rj 0)) M,
   map (fun m => zupd m (1 + d + div) (- nth (1 + d + div) m 0)) mat).
(** the second loop of reduce_divs, isl_polynomial.c:2582-2589 *)
Fixpoint reduce_loop (d : nat) (rows : list nat) (M mat : mat) : MatModel.mat * MatModel.mat :=
  match rows with
  | [] => (M, mat)
  | i :: rows' =>
    let M := lset M i (normalize_div (nth i M [])) in
    let '(M, mat) := reduce_div d i (seq 0 (1 + d + i)) M mat in
    let '(M, mat) :=
      if needs_invert (nth i M []) then
        let '(M, mat) := invert_div d i M mat in
        reduce_div d i (seq 0 (1 + d + i)) M mat
      else (M, mat) in
    reduce_loop d rows' M mat
  end.
(** the third loop of reduce_divs, isl_polynomial.c:2596-2598 *)
Fixpoint affine_polys (l : mat) : res (list poly) :=
  match l with [] => Ok [] | a :: t => let! a' := from_affine a 1 in let! t' := affine_polys t in Ok (a' :: t') end.
(** reduce_divs, isl_polynomial.c:2559-2618 *)
Fixpoint reduce_divs (qsort : (nat -> nat -> Z) -> list nat -> list nat) (fuel : nat) (q : qp) : res qp :=
  match fuel with
  | O => Div
  | S f =>
    let d := q_d q in let n := q_n q in
    let mat := map (fun i => zupd (repeat 0 (1 + d + n)) (1 + d + i) 1) (seq 0 n) in
    let '(M, mat) := reduce_loop d (seq 0 n) (q_div q) mat in
    let! s := affine_polys mat in
    let! p := poly_subs (q_poly q) d n s in
    let! q := substitute_non_divs n 0 (mkqp (q_sp q) M p) in
    let! q := sort_divs qsort q in
    if Nat.ltb (q_n q) n then reduce_divs qsort f q else Ok q
  end.
(** the first loop of remove_redundant_divs, isl_polynomial.c:2791-2802; [rows] contains the
    rows in decreasing order; note that only the first integer division that a row depends on
    is marked *)
Fixpoint mark_loop (d : nat) (M : mat) (rows : list nat) (active : list bool) (redundant : bool) : list bool * bool :=
  match rows with
  | [] => (active, redundant)
  | i :: rows' =>
    if negb (nth (d + i) active false) then mark_loop d M rows' active true
    else
      let active := match find (fun j => negb (nth (2 + d + j) (nth i M []) 0 =? 0)) (seq 0 i) with
                    | Some j => lset active (d + j) true
                    | None => active
                    end in
      mark_loop d M rows' active redundant
  end.
(** the last loop of remove_redundant_divs, isl_polynomial.c:2819-2827 *)
Fixpoint drop_inactive (d : nat) (active : list bool) (is : list nat) (skip : nat) (M : mat) (r : list nat) : mat * list nat :=
  match is with
  | [] => (M, r)
  | i :: is' =>
    let '(M, skip) :=
      if negb (nth (d + i) active false) then (drop_col (drop_row M (i - skip)) (2 + d + (i - skip)), S skip)
      else (M, skip) in
    drop_inactive d active is' skip M (r ++ [(d + i - skip)%nat])
  end.
(** remove_redundant_divs, isl_polynomial.c:2760-2840; the reordering is [len] elements long *)
Definition remove_redundant_divs (q : qp) : res qp :=
  let d := q_d q in let n := q_n q in
  if Nat.eqb n 0 then Ok q
  else
    let active := poly_set_active (q_poly q) (d + n) (repeat false (d + n)) in
    let '(active, redundant) := mark_loop d (q_div q) (rev (seq 0 n)) active false in
    if negb redundant then Ok q
    else
      let '(M, r) := drop_inactive d active (seq 0 n) 0 (q_div q) (seq 0 d) in
      let! p := reorder (q_poly q) r in
      Ok (mkqp (q_sp q) M p).
(** isl_qpolynomial_from_aff, isl_polynomial.c:3496-3527: the affine expression over the integer divisions [M] in a domain
    space [s] has coefficients [v], with the denominator first *)
Definition qp_from_aff (qsort : (nat -> nat -> Z) -> list nat -> list nat) (s : space) (M : mat) (v : list Z) : res qp :=
  let! p := from_affine (skipn 1 v) (nth 0 v 0) in
  let! q := reduce_divs qsort (1 + length M) (mkqp s M p) in
  remove_redundant_divs q.
(** isl_mat_insert_zero_cols, isl_mat.c:1567-1581 *)
Definition insert_zero_cols (M : mat) (c n : nat) : mat := map (fun r => firstn c r ++ repeat 0 n ++ skipn c r) M.
(** isl_qpolynomial_insert_dims, isl_polynomial.c:3317-3364, without the change of the space: [g] is the
    position of the first new variable *)
Definition qp_insert (q : qp) (g n : nat) : res (mat * poly) :=
  let M := insert_zero_cols (q_div q) (2 + g) n in
  let total := (q_d q + q_n q + n)%nat in
  let! p := (if Nat.ltb g total then expand (q_poly q) (map (fun i => (i + n)%nat) (seq 0 (total - g))) g else Ok (q_poly q)) in
  Ok (M, p).
(** reordering_move, isl_polynomial.c:3383-3414 *)
Definition reordering_move (len dst src n : nat) : list nat :=
  if Nat.leb dst src then
    (seq 0 dst ++ seq (dst + n) (src - dst) ++ seq dst n ++ seq (src + n) (len - src - n))%list
  else
    (seq 0 src ++ seq dst n ++ seq src (dst - src) ++ seq (dst + n) (len - dst - n))%list.
(** isl_mat_move_cols, isl_mat.c:1864-1904 *)
Definition move_cols (M : mat) (dst src n : nat) : mat :=
  map (fun r => let c := firstn n (skipn src r) in let rest := firstn src r ++ skipn (src + n) r in
       firstn dst rest ++ c ++ skipn dst rest) M.
(** isl_qpolynomial_move_dims, isl_polynomial.c:3416-3478, for different positions, without the change of the
    space, which is [s]: [src] and [dst] are the positions in the list of all variables before and
    after the move *)
Definition qp_move (qsort : (nat -> nat -> Z) -> list nat -> list nat) (s : space) (q : qp) (dst src n : nat) : res qp :=
  let! q := sort_divs qsort (mkqp (q_sp q) (move_cols (q_div q) (2 + dst) (2 + src) n) (q_poly q)) in
  let! p := reorder (q_poly q) (reordering_move (q_d q + q_n q) dst src n) in
  Ok (mkqp s (q_div q) p).
