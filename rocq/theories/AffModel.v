(** Model of affine expressions, isl_aff.c, with the operations on local spaces
    of isl_local_space.c that they use.

    An affine expression is defined on a set space and a list of integer
    divisions (see LocalModel.v).  Its coefficients form a list: the
    denominator, the constant term, the coefficients of the variables and
    those of the integer divisions.  NaN is represented by a list of zeros.
    isl_int is Z.  Memory allocation succeeds.  Reference counts and
    copy-on-write are not modelled, except in isl_aff_div. *)
From Coq Require Import ZArith List Bool Arith.
From Verif Require Import SeqModel MatModel ValModel LocalModel BMapModel SpaceModel QpModel.
Import ListNotations.
Open Scope Z_scope.

(** struct isl_aff, isl_aff_private.h:25-30, with the fields of its local space *)
Record aff := mkaff { a_sp : space; a_div : mat; a_v : list Z }.
(** isl_aff_domain_offset, isl_aff.c:464-470, for isl_dim_div, minus one *)
Definition a_d (f : aff) : nat := dim_all (a_sp f).
(** isl_aff_domain_dim, isl_aff.c:439-445, for isl_dim_div *)
Definition a_n (f : aff) : nat := length (a_div f).
Definition with_v (f : aff) (v : list Z) : aff := mkaff (a_sp f) (a_div f) v.

(** isl_aff_alloc, isl_aff.c:124-143, and isl_aff_alloc_vec, isl_aff.c:101-122; [v] are the coefficients *)
Definition aff_alloc (s : space) (M : mat) (v : list Z) : res aff :=
  if negb (divs_known M) then Null else if negb (is_set s) then Null else Ok (mkaff s M v).
(** isl_aff_zero_on_domain, isl_aff.c:174-186 *)
Definition aff_zero (s : space) (M : mat) : res aff := aff_alloc s M (1 :: seq_clr (1 + dim_all s + length M)).
(** isl_aff_nan_on_domain, isl_aff.c:232-238 *)
Definition aff_nan (s : space) (M : mat) : res aff := aff_alloc s M (seq_clr (2 + dim_all s + length M)).
(** isl_aff_set_nan, isl_aff.c:216-227 *)
Definition aff_set_nan (f : aff) : aff := with_v f (seq_clr (length (a_v f))).
(** isl_aff_val_on_domain, isl_aff.c:272-298 *)
Definition aff_val (s : space) (M : mat) (v : val) : res aff :=
  if negb (v_is_rat v) && negb (v_is_nan v) then Null
  else aff_alloc s M (vd v :: vn v :: seq_clr (dim_all s + length M)).
(** isl_aff_var_on_domain, isl_aff.c:311-345; [pos] is a position in the list of all variables
    and integer divisions *)
Definition aff_var (s : space) (M : mat) (pos : nat) : res aff :=
  if negb (Nat.ltb pos (dim_all s + length M)) then Null
  else aff_alloc s M (1 :: zupd (seq_clr (1 + dim_all s + length M)) (1 + pos) 1).
(** isl_aff_plain_is_zero, isl_aff.c:684-695 *)
Definition aff_plain_is_zero (f : aff) : bool :=
  if nth 0 (a_v f) 0 =? 0 then false
  else match seq_first_non_zero (skipn 1 (a_v f)) with None => true | Some _ => false end.
(** isl_aff_is_nan, isl_aff.c:699-705 *)
Definition aff_is_nan (f : aff) : bool := match seq_first_non_zero (firstn 2 (a_v f)) with None => true | Some _ => false end.
(** isl_aff_plain_is_equal, isl_aff.c:711-727, with isl_local_space_is_equal, isl_local_space.c:187-202 *)
Definition aff_plain_is_equal (f1 f2 : aff) : bool :=
  if aff_is_nan f1 || aff_is_nan f2 then false
  else if negb (is_equal (a_sp f1) (a_sp f2)) then false
  else if negb (mat_is_equal (2 + a_d f1 + a_n f1) (a_div f1) (a_div f2)) then false
  else Nat.eqb (length (a_v f1)) (length (a_v f2)) && seq_eq (a_v f1) (a_v f2).
(** isl_aff_get_denominator_val, isl_aff.c:746-756 *)
Definition aff_get_denominator (f : aff) : val := if aff_is_nan f then v_nan else v_int (nth 0 (a_v f) 0).
(** isl_aff_get_constant_val, isl_aff.c:761-774 *)
Definition aff_get_constant (f : aff) : val :=
  if aff_is_nan f then v_nan else v_normalize (v_rat_raw (nth 1 (a_v f) 0) (nth 0 (a_v f) 0)).
(** isl_aff_get_coefficient_val, isl_aff.c:779-804; [pos] is a position in the list of all variables
    and integer divisions *)
Definition aff_get_coefficient (f : aff) (pos : nat) : res val :=
  if negb (Nat.ltb pos (a_d f + a_n f)) then Null
  else if aff_is_nan f then Ok v_nan
  else Ok (v_normalize (v_rat_raw (nth (2 + pos) (a_v f) 0) (nth 0 (a_v f) 0))).

(** ** changing coefficients; [c] is the position of the coefficient: 1 for the constant term,
    [2 + pos] for that of the variable or integer division at position [pos] *)
(** isl_aff_add_constant, isl_aff.c:913-932, for position 1, and isl_aff_add_coefficient, isl_aff.c:1253-1283 *)
Definition aff_add_num (f : aff) (c : nat) (v : Z) : aff :=
  if aff_is_nan f then f
  else with_v f (zupd (a_v f) c (nth c (a_v f) 0 + nth 0 (a_v f) 0 * v)).
Definition aff_add_constant (f : aff) (v : Z) : aff := if v =? 0 then f else aff_add_num f 1 v.
Definition aff_add_coefficient (f : aff) (pos : nat) (v : Z) : res aff :=
  if negb (Nat.ltb pos (a_d f + a_n f)) then Null else Ok (aff_add_num f (2 + pos) v).
(** isl_aff_set_constant, isl_aff.c:836-853, and isl_aff_set_coefficient, isl_aff.c:1111-1140: only the numerator is set *)
Definition aff_set_num (f : aff) (c : nat) (v : Z) : aff := if aff_is_nan f then f else with_v f (zupd (a_v f) c v).
Definition aff_set_constant (f : aff) (v : Z) : aff := aff_set_num f 1 v.
Definition aff_set_coefficient (f : aff) (pos : nat) (v : Z) : res aff :=
  if negb (Nat.ltb pos (a_d f + a_n f)) then Null else Ok (aff_set_num f (2 + pos) v).
(** isl_aff_add_rat_constant_val, isl_aff.c:938-972, for position 1, and the end of isl_aff_add_coefficient_val,
    isl_aff.c:1325-1342 *)
Definition aff_add_rat (f : aff) (c : nat) (v : val) : aff :=
  let l := a_v f in
  let den := nth 0 l 0 in
  if vd v =? 1 then with_v f (zupd l c (nth c l 0 + den * vn v))
  else if den =? vd v then with_v f (seq_normalize (zupd l c (nth c l 0 + vn v)))
  else
    let l := den :: seq_scale (skipn 1 l) (vd v) in
    with_v f (seq_normalize (zupd (zupd l c (nth c l 0 + den * vn v)) 0 (den * vd v))).
(** isl_aff_add_constant_val, isl_aff.c:997-1024 *)
Definition aff_add_constant_val (f : aff) (v : val) : res aff :=
  if aff_is_nan f || v_is_zero v then Ok f
  else if v_is_nan v then Ok (aff_set_nan f)
  else if negb (v_is_rat v) then Null
  else Ok (aff_add_rat f 1 v).
(** isl_aff_add_coefficient_val, isl_aff.c:1290-1351 *)
Definition aff_add_coefficient_val (f : aff) (pos : nat) (v : val) : res aff :=
  if v_is_zero v then Ok f
  else if negb (Nat.ltb pos (a_d f + a_n f)) then Null
  else if aff_is_nan f then Ok f
  else if negb (v_is_rat v) then Null
  else Ok (aff_add_rat f (2 + pos) v).
(** the end of isl_aff_set_constant_val, isl_aff.c:873-898, and of isl_aff_set_coefficient_val, isl_aff.c:1214-1239 *)
Definition aff_set_rat (f : aff) (c : nat) (v : val) : aff :=
  let l := a_v f in
  let den := nth 0 l 0 in
  if (nth c l 0 =? vn v) && (den =? vd v) then f
  else if den =? vd v then with_v f (zupd l c (vn v))
  else if vd v =? 1 then with_v f (zupd l c (den * vn v))
  else
    let l := den :: seq_scale (skipn 1 l) (vd v) in
    with_v f (seq_normalize (zupd (zupd l c (den * vn v)) 0 (den * vd v))).
(** isl_aff_set_constant_val, isl_aff.c:859-905 *)
Definition aff_set_constant_val (f : aff) (v : val) : res aff :=
  if aff_is_nan f then Ok f else if negb (v_is_rat v) then Null else Ok (aff_set_rat f 1 v).
(** isl_aff_set_coefficient_val, isl_aff.c:1188-1246 *)
Definition aff_set_coefficient_val (f : aff) (pos : nat) (v : val) : res aff :=
  if negb (Nat.ltb pos (a_d f + a_n f)) then Null
  else if aff_is_nan f then Ok f else if negb (v_is_rat v) then Null else Ok (aff_set_rat f (2 + pos) v).

(** ** normalization *)
(** normalize_div, isl_local_space.c:1103-1123; the divisions of isl_seq_scale_down and of the denominator
    are divisions by zero if the row only has a constant term *)
Definition ls_normalize_div (row : list Z) : res (list Z) :=
  let g := Z.gcd (seq_gcd (skipn 2 row)) (nth 0 row 0) in
  if g =? 1 then Ok row
  else if g =? 0 then UB
  else Ok (divexact (nth 0 row 0) g :: fdiv_q (nth 1 row 0) g :: seq_scale_down (skipn 2 row) g).
(** the body of the loop of isl_local_space_substitute_seq, isl_local_space.c:1220-1229; [c] is [1 + pos], the column
    of the variable that is replaced *)
Definition subs_row (c : nat) (subs : list Z) (r : list Z) : res (list Z) :=
  if nth c r 0 =? 0 then Ok r else ls_normalize_div (seq_substitute r (c - 1) subs).
(** isl_local_space_substitute_seq, isl_local_space.c:1195-1231, on rows [first] up to [first + n]; [l] contains the remaining rows,
    starting at row [i] *)
Fixpoint subs_rows (c : nat) (subs : list Z) (first n : nat) (i : nat) (l : mat) : res mat :=
  match l with
  | [] => Ok []
  | r :: t =>
    let! r := (if Nat.leb first i && Nat.ltb i (first + n) then subs_row c subs r else Ok r) in
    let! t := subs_rows c subs first n (S i) t in
    Ok (r :: t)
  end.
(** isl_aff_remove_unused_divs, isl_aff.c:1403-1428, with isl_local_space_drop_dims, isl_local_space.c:1281-1311 *)
Definition remove_unused_divs (f : aff) : aff :=
  let pos := match seq_last_non_zero (skipn (2 + a_d f) (a_v f)) with Some i => (i + 1)%nat | None => 0%nat end in
  if Nat.eqb pos (a_n f) then f
  else mkaff (a_sp f) (map (firstn (2 + a_d f + pos)) (firstn pos (a_div f))) (firstn (2 + a_d f + pos) (a_v f)).
(** the loop of plug_in_integral_divs, isl_aff.c:1449-1470, over the rows [is] *)
Fixpoint plug_in_integral_loop (is : list nat) (f : aff) : res aff :=
  match is with
  | [] => Ok f
  | i :: is' =>
    let row := nth i (a_div f) [] in
    if negb (nth 0 row 0 =? 1) then plug_in_integral_loop is' f
    else
      let! M := subs_rows (2 + a_d f + i) row (i + 1) (a_n f - (i + 1)) 0 (a_div f) in
      plug_in_integral_loop is' (mkaff (a_sp f) M (seq_substitute (a_v f) (1 + a_d f + i) row))
  end.
(** plug_in_integral_divs, isl_aff.c:1434-1477 *)
Definition plug_in_integral_divs (f : aff) : res aff := plug_in_integral_loop (seq 0 (a_n f)) f.
(** the loops of plug_in_unit_divs, isl_aff.c:1509-1519, over the pairs [ijs] *)
Fixpoint plug_in_unit_loop (ijs : list (nat * nat)) (f : aff) : res aff :=
  match ijs with
  | [] => Ok f
  | (i, j) :: ijs' =>
    if negb (nth (2 + a_d f + j) (nth i (a_div f) []) 0 =? 1) then plug_in_unit_loop ijs' f
    else
      let! M := subs_rows (2 + a_d f + j) (nth j (a_div f) []) i 1 0 (a_div f) in
      plug_in_unit_loop ijs' (mkaff (a_sp f) M (a_v f))
  end.
(** plug_in_unit_divs, isl_aff.c:1499-1522 *)
Definition plug_in_unit_divs (f : aff) : res aff :=
  plug_in_unit_loop (flat_map (fun i => map (pair i) (seq 0 i)) (seq 1 (a_n f - 1))) f.
(** isl_int_swap, isl_int.h, of two elements *)
Definition swap_els (l : list Z) (i j : nat) : list Z := zupd (zupd l i (nth j l 0)) j (nth i l 0).
(** swap_div, isl_aff.c:1529-1556, with isl_local_space_swap_div, isl_local_space.c:855-872 *)
Definition aff_swap_div (f : aff) (a b : nat) : aff :=
  let c := (2 + a_d f)%nat in
  mkaff (a_sp f) (lswap (map (fun r => swap_els r (c + a) (c + b)) (a_div f)) a b) (swap_els (a_v f) (c + a) (c + b)).
(** merge_divs, isl_aff.c:1563-1581 *)
Definition aff_merge_divs (f : aff) (a b : nat) : aff :=
  let c := (2 + a_d f)%nat in
  let l := a_v f in
  if nth (c + b) l 0 =? 0 then f
  else with_v f (zupd (zupd l (c + a) (nth (c + a) l 0 + nth (c + b) l 0)) (c + b) 0).
(** isl_mat_cmp_div, isl_local_space.c:743-746; [d] is the number of variables *)
Definition mat_cmp_div (d : nat) (M : mat) (i j : nat) : Z :=
  cmp_row (nth i M []) (nth j M []) i j (length M) (2 + d + length M).
(** the inner loop of sort_divs, isl_aff.c:1602-1612, from row [jj - 1] down *)
Fixpoint sort_inner (jj : nat) (f : aff) : aff :=
  match jj with
  | O => f
  | S j =>
    let cmp := mat_cmp_div (a_d f) (a_div f) j (j + 1) in
    if cmp <? 0 then f
    else if cmp =? 0 then sort_inner j (aff_merge_divs f j (j + 1))
    else sort_inner j (aff_swap_div f j (j + 1))
  end.
(** sort_divs, isl_aff.c:1593-1616 *)
Definition aff_sort_divs (f : aff) : aff := fold_left (fun f i => sort_inner i f) (seq 1 (a_n f - 1)) f.
(** isl_aff_normalize, isl_aff.c:1624-1636 *)
Definition aff_normalize (f : aff) : res aff :=
  let! f := plug_in_integral_divs (with_v f (seq_normalize (a_v f))) in
  let! f := plug_in_unit_divs f in
  Ok (remove_unused_divs (aff_sort_divs f)).

(** ** arithmetic *)
(** isl_aff_neg, isl_aff.c:1378-1394 *)
Definition aff_neg (f : aff) : aff :=
  if aff_is_nan f then f else with_v f (nth 0 (a_v f) 0 :: seq_neg (skipn 1 (a_v f))).
(** isl_aff_is_cst, isl_aff.c:3355-3364 *)
Definition aff_is_cst (f : aff) : bool := match seq_first_non_zero (skipn 2 (a_v f)) with None => true | Some _ => false end.
(** the loop of isl_aff_floor, isl_aff.c:1684-1691, on one coefficient: the
    coefficient of the new integer division and the remaining coefficient;
    [half] is the denominator divided by two *)
Definition floor_coef (m : Z) (half : Z) (c : Z) : Z * Z :=
  let r := fdiv_r c m in
  let q := fdiv_q c m in
  if half <? r then (r - m, q + 1) else (r, q).
(** isl_local_space_add_div, isl_local_space.c:648-673 *)
Definition ls_add_div (M : mat) (div : list Z) : mat := (map (fun r => r ++ [0]) M ++ [div ++ [0]])%list.
(** isl_aff_floor, isl_aff.c:1649-1708 *)
Definition aff_floor (f : aff) : res aff :=
  if aff_is_nan f then Ok f
  else if nth 0 (a_v f) 0 =? 1 then Ok f
  else
    let m := nth 0 (a_v f) 0 in
    if aff_is_cst f then Ok (with_v f (1 :: fdiv_q (nth 1 (a_v f) 0) m :: skipn 2 (a_v f)))
    else
      let half := fdiv_q m 2 in
      let l := map (floor_coef m half) (skipn 1 (a_v f)) in
      aff_normalize (mkaff (a_sp f) (ls_add_div (a_div f) (m :: map fst l)) (1 :: map snd l ++ [1])).
(** isl_aff_ceil, isl_aff.c:1793-1814 *)
Definition aff_ceil (f : aff) : res aff :=
  if aff_is_nan f then Ok f
  else if nth 0 (a_v f) 0 =? 1 then Ok f
  else aff_floor (with_v f (zupd (a_v f) 1 (nth 1 (a_v f) 0 + nth 0 (a_v f) 0 - 1))).
(** the second loop of isl_vec_expand, isl_vec.c:111-122; [i] and [j] are one more than the variables of the code; [l] contains the elements
    from position [pos] *)
Fixpoint expand_els (i j : nat) (exp : list nat) (l : list Z) : list Z :=
  match i with
  | O => l
  | S i' =>
    match j with
    | S j' =>
      if Nat.eqb (nth j' exp 0%nat) i' then expand_els i' j' exp (if Nat.eqb i' j' then l else swap_els l i' j')
      else expand_els i' j exp (zupd l i' 0)
    | O => expand_els i' j exp (zupd l i' 0)
    end
  end.
(** isl_vec_expand, isl_vec.c:87-127, with [pos + n] the size of the vector; [junk] contains the values of
    the elements that are added by isl_vec_extend, isl_vec.c:58-80, [extra] of which are used *)
Definition vec_expand (junk : nat -> Z) (v : list Z) (pos n : nat) (exp : list nat) (expanded : nat) : res (list Z) :=
  if Nat.ltb expanded n then Null
  else if Nat.eqb expanded n then Ok v
  else Ok (firstn pos v ++ expand_els expanded n exp (skipn pos v ++ map junk (seq 0 (expanded - n)))).
(** isl_aff_expand_divs, isl_aff.c:1821-1845 *)
Definition aff_expand_divs (junk : nat -> Z) (f : aff) (div : mat) (exp : list nat) : res aff :=
  let! v := vec_expand junk (a_v f) (2 + a_d f) (a_n f) exp (length div) in
  Ok (mkaff (a_sp f) div v).
(** add_expanded, isl_aff.c:1849-1881 *)
Definition add_expanded (f1 f2 : aff) : res aff :=
  let d1 := nth 0 (a_v f1) 0 in
  let d2 := nth 0 (a_v f2) 0 in
  let g := Z.gcd d1 d2 in
  let l := seq_scale (skipn 1 (a_v f1)) (divexact d2 g) in
  let l := seq_addmul l (divexact d1 g) (skipn 1 (a_v f2)) in
  aff_normalize (with_v f1 ((d1 * divexact d2 g) :: l)).
(** isl_aff_add, isl_aff.c:1896-1947 *)
Definition aff_add (junk : nat -> Z) (f1 f2 : aff) : res aff :=
  if negb (is_equal (a_sp f1) (a_sp f2)) then Null
  else if aff_is_nan f1 then Ok f1
  else if aff_is_nan f2 then Ok f2
  else if Nat.eqb (a_n f1) 0 && Nat.eqb (a_n f2) 0 then add_expanded f1 f2
  else
    let! (div, e1, e2) := merge_divs (a_d f1) (a_div f1) (a_div f2) in
    let! f1 := aff_expand_divs junk f1 div e1 in
    let! f2 := aff_expand_divs junk f2 div e2 in
    add_expanded f1 f2.
(** isl_aff_sub, isl_aff.c:1949-1953 *)
Definition aff_sub (junk : nat -> Z) (f1 f2 : aff) : res aff := aff_add junk f1 (aff_neg f2).
(** isl_aff_scale, isl_aff.c:1959-1990 *)
Definition aff_scale (f : aff) (k : Z) : aff :=
  if aff_is_nan f then f
  else if k =? 1 then f
  else
    let den := nth 0 (a_v f) 0 in
    if (0 <? k) && (den mod k =? 0) then with_v f (divexact den k :: skipn 1 (a_v f))
    else
      let g := Z.gcd den k in
      with_v f (divexact den g :: seq_scale (skipn 1 (a_v f)) (divexact k g)).
(** isl_aff_scale_down, isl_aff.c:2025-2058 *)
Definition aff_scale_down (f : aff) (k : Z) : res aff :=
  if aff_is_nan f then Ok f
  else if k =? 1 then Ok f
  else if k =? 0 then Null
  else
    let g := Z.gcd (seq_gcd (skipn 1 (a_v f))) k in
    Ok (with_v f (nth 0 (a_v f) 0 * divexact k g :: seq_scale_down (skipn 1 (a_v f)) g)).
(** isl_aff_scale_val, isl_aff.c:1995-2019 *)
Definition aff_scale_val (f : aff) (v : val) : res aff :=
  if v_is_one v then Ok f
  else if negb (v_is_rat v) then Null
  else aff_scale_down (aff_scale f (vn v)) (vd v).
(** isl_aff_scale_down_val, isl_aff.c:2062-2089 *)
Definition aff_scale_down_val (f : aff) (v : val) : res aff :=
  if v_is_one v then Ok f
  else if negb (v_is_rat v) then Null
  else if negb (v_is_pos v) then Null
  else aff_scale_down (aff_scale f (vd v)) (vn v).
(** isl_aff_mod_val, isl_aff.c:1716-1738 *)
Definition aff_mod (junk : nat -> Z) (f : aff) (m : val) : res aff :=
  if negb (v_is_int m) then Null
  else
    let! g := aff_scale_down_val f m in
    let! g := aff_floor g in
    let! g := aff_scale_val g m in
    aff_sub junk f g.
(** isl_aff_mul, isl_aff.c:3390-3426 *)
Definition aff_mul_cst (f1 f2 : aff) : res aff :=
  aff_scale_down (aff_scale f1 (nth 1 (a_v f2) 0)) (nth 0 (a_v f2) 0).
Definition aff_mul (f1 f2 : aff) : res aff :=
  if aff_is_nan f1 then Ok f1
  else if aff_is_nan f2 then Ok f2
  else if negb (aff_is_cst f2) && aff_is_cst f1 then aff_mul_cst f2 f1
  else if negb (aff_is_cst f2) then Null
  else aff_mul_cst f1 f2.
(** isl_aff_div, isl_aff.c:3433-3483.  The first two elements of the vector of [f2] are temporarily replaced by
    their opposites, in place: [alias] tells whether [f1] and [f2] share that vector,
    in which case this replacement also affects [f1] *)
Definition aff_div (alias : bool) (f1 f2 : aff) : res aff :=
  if aff_is_nan f1 then Ok f1
  else if aff_is_nan f2 then Ok f2
  else if negb (aff_is_cst f2) then Null
  else if aff_plain_is_zero f2 then Ok (aff_set_nan f1)
  else
    let n := nth 1 (a_v f2) 0 in
    let d := nth 0 (a_v f2) 0 in
    if n <? 0 then
      let f1 := if alias then with_v f1 (zupd (zupd (a_v f1) 0 (- d)) 1 (- n)) else f1 in
      aff_scale_down (aff_scale f1 (- d)) (- n)
    else aff_scale_down (aff_scale f1 d) n.
(** isl_aff_eval, isl_aff.c:10022-10050, in a point in the domain space of [f] with the given
    homogeneous coordinates, with eval, isl_aff.c:9981-10003, and isl_local_space_lift_point, isl_local_space.c:1756-1788;
    void points have no coordinates (isl_point.c:62-77) *)
Definition aff_eval (f : aff) (vec : list Z) : res val :=
  match vec with
  | [] => Ok v_nan
  | _ =>
    let! ext := extend_point (a_d f) (a_div f) vec in
    Ok (v_normalize (v_rat_raw (seq_inner_product (skipn 1 (a_v f)) ext) (nth 0 (a_v f) 0 * nth 0 ext 0)))
  end.

(** ** pullback *)
(** struct isl_multi_aff, isl_multi_templ.h:16-28: the space and the elements, defined on its domain *)
Record maff := mkmaff { m_sp : space; m_p : list aff }.
(** isl_aff_align_divs, isl_aff.c:6112-6158 *)
Definition aff_align_divs (junk : nat -> Z) (dst src : aff) : res aff :=
  if negb (is_equal (a_sp src) (a_sp dst)) then Null
  else if Nat.eqb (a_n src) 0 then Ok dst
  else if mat_is_equal (2 + a_d src + a_n src) (a_div src) (a_div dst) then Ok dst
  else
    let! (div, e1, e2) := merge_divs (a_d src) (a_div src) (a_div dst) in
    aff_expand_divs junk dst div e2.
(** the first loop of isl_multi_aff_align_divs, isl_aff.c:6177-6182 *)
Fixpoint align_first (junk : nat -> Z) (f0 : aff) (l : list aff) : res aff :=
  match l with [] => Ok f0 | f :: l' => let! f0 := aff_align_divs junk f0 f in align_first junk f0 l' end.
(** the second loop of isl_multi_aff_align_divs, isl_aff.c:6186-6192 *)
Fixpoint align_rest (junk : nat -> Z) (f0 : aff) (l : list aff) : res (list aff) :=
  match l with
  | [] => Ok []
  | f :: l' => let! f := aff_align_divs junk f f0 in let! l' := align_rest junk f0 l' in Ok (f :: l')
  end.
(** isl_multi_aff_align_divs, isl_aff.c:6163-6195 *)
Definition maff_align_divs (junk : nat -> Z) (m : maff) : res maff :=
  match m_p m with
  | f0 :: (_ :: _) as l =>
    let! f0 := align_first junk f0 (skipn 1 (m_p m)) in
    let! l := align_rest junk f0 (skipn 1 (m_p m)) in
    Ok (mkmaff (m_sp m) (f0 :: l))
  | _ => Ok m
  end.
(** the numbers of variables involved in isl_seq_preimage *)
Record pdims := mkpd { pd_param : nat; pd_in : nat; pd_out : nat; pd_before : nat; pd_after : nat; pd_dma : nat }.
(** the initial value of dst in isl_seq_preimage, isl_aff.c:5939-5951, without the denominator *)
Definition pre_init (k : pdims) (src : list Z) : list Z :=
  let o := (1 + pd_param k + pd_before k)%nat in
  (firstn o src ++ seq_clr (pd_in k) ++ firstn (pd_after k) (skipn (o + pd_out k) src) ++ seq_clr (pd_dma k) ++ skipn (o + pd_out k + pd_after k) src)%list.
(** the changes to dst in the loop of isl_seq_preimage, isl_aff.c:5919-5984; [p] is the element without its denominator *)
Definition pre_combine (k : pdims) (c1 c2 : Z) (dst p : list Z) : list Z :=
  let o1 := (1 + pd_param k)%nat in
  let o2 := (o1 + pd_before k)%nat in
  let o3 := (o2 + pd_in k)%nat in
  let o4 := (o3 + pd_after k)%nat in
  let o5 := (o4 + pd_dma k)%nat in
  (seq_combine true c1 (firstn o1 dst) c2 (firstn o1 p)
  ++ seq_scale (firstn (pd_before k) (skipn o1 dst)) c1
  ++ seq_combine true c1 (firstn (pd_in k) (skipn o2 dst)) c2 (firstn (pd_in k) (skipn o1 p))
  ++ seq_scale (firstn (pd_after k) (skipn o3 dst)) c1
  ++ seq_combine true c1 (firstn (pd_dma k) (skipn o4 dst)) c2 (firstn (pd_dma k) (skipn (o1 + pd_in k) p))
  ++ seq_scale (skipn o5 dst) c1)%list.
(** the loop of isl_seq_preimage, isl_aff.c:5919-5984, over the elements [ps] and their coefficients [bs] in the source; the
    divisions of isl_int_divexact are divisions by zero if both factors are zero *)
Fixpoint pre_loop (k : pdims) (ps : mat) (bs : list Z) (den f : Z) (dst : list Z) : res (Z * list Z) :=
  match ps, bs with
  | p :: ps', b :: bs' =>
    if b =? 0 then pre_loop k ps' bs' den f dst
    else
      let c1 := nth 0 p 0 in
      let c2 := f * b in
      let g := Z.gcd c1 c2 in
      if g =? 0 then UB
      else
        let c1 := divexact c1 g in
        let c2 := divexact c2 g in
        pre_loop k ps' bs' (den * c1) (f * c1) (pre_combine k c1 c2 dst (skipn 1 p))
  | _, _ => Ok (den, dst)
  end.
(** isl_seq_preimage, isl_aff.c:5919-5984; [src] does not include the denominator [den] (1 if there is none);
    [ps] are the vectors of the elements *)
Definition seq_preimage (k : pdims) (ps : mat) (den : Z) (src : list Z) : res (Z * list Z) :=
  pre_loop k ps (firstn (pd_out k) (skipn (1 + pd_param k + pd_before k) src)) den 1 (pre_init k src).
(** the loop of isl_local_space_preimage_multi_aff, isl_local_space.c:1590-1602 *)
Fixpoint preimage_rows (k : pdims) (ps : mat) (l : mat) : res mat :=
  match l with
  | [] => Ok []
  | r :: l' =>
    let! r := (if nth 0 r 0 =? 0 then Ok (0 :: seq_clr (length (pre_init k (skipn 1 r))))
               else let! (den, dst) := seq_preimage k ps (nth 0 r 0) (skipn 1 r) in ls_normalize_div (den :: dst)) in
    let! l' := preimage_rows k ps l' in
    Ok (r :: l')
  end.
(** [n_div_ma] in isl_aff_pullback_multi_aff, isl_aff.c:6020 *)
Definition maff_n_div (m : maff) : nat := match m_p m with [] => 0%nat | f :: _ => a_n f end.
(** the dimensions passed to isl_seq_preimage *)
Definition maff_dims (m : maff) : pdims :=
  mkpd (dim (m_sp m) Param) (dim (m_sp m) In) (dim (m_sp m) Out) 0 0 (maff_n_div m).
(** isl_local_space_preimage_multi_aff, isl_local_space.c:1556-1623, on the
    integer divisions [M] of a local space with space [s]; the result is the list of
    integer divisions over the domain of [m], which has been aligned *)
Definition ls_preimage (s : space) (M : mat) (m : maff) : res mat :=
  if negb (has_equal_params s (m_sp m) && has_range_tuples s (m_sp m)) then Null
  else
    let! l := preimage_rows (maff_dims m) (map a_v (m_p m)) M in
    Ok (map (fun r => r ++ repeat 0 (length M)) (match m_p m with [] => [] | f :: _ => a_div f end) ++ l)%list.
(** isl_aff_pullback_multi_aff, isl_aff.c:6005-6051 *)
Definition aff_pullback (junk : nat -> Z) (f : aff) (m : maff) : res aff :=
  let! m := maff_align_divs junk m in
  let! M := ls_preimage (a_sp f) (a_div f) m in
  match domain (m_sp m) with
  | None => Null
  | Some s =>
    let! g := aff_alloc s M [] in
    let! (den, dst) := seq_preimage (maff_dims m) (map a_v (m_p m)) (nth 0 (a_v f) 0) (skipn 1 (a_v f)) in
    aff_normalize (with_v g (den :: dst))
  end.
