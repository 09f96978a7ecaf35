(** Model of isl_val (extended rational values), /repo/isl_val.c.

    isl_int variables are modelled as exact integers [Z]; that this is what
    the isl_int layer implements is C01-C03.  A value is the pair of the
    fields n and d of struct isl_val (isl_val_private.h:17-23).  Reference
    counting (ref, isl_val_cow, isl_val_free) is not part of this model: a
    function that takes its argument and modifies a copy-on-write copy is a
    function from values to values (the ownership discipline is C17/C18).
    NULL inputs (errors of earlier calls) are not modelled; a NULL output after
    isl_die is [VNull]; undefined behaviour (division by zero) is [VUB]. *)
From Coq Require Import ZArith List Bool.
Import ListNotations.
Open Scope Z_scope.

Record val := mkv { vn : Z; vd : Z }.

Inductive vres (A : Type) := VOk (a : A) | VNull | VUB.
Arguments VOk {A} a. Arguments VNull {A}. Arguments VUB {A}.

(** ** Constructors *)
(** isl_val_int_from_si, isl_val.c:128-140 (also isl_val_int_from_ui 169-181,
    isl_val_int_from_isl_int 185-197) *)
Definition v_int (i : Z) : val := mkv i 1.
(** isl_val_zero, isl_val_one, isl_val_negone, isl_val.c:55-58 *)
Definition v_zero := v_int 0.
Definition v_one := v_int 1.
Definition v_negone := v_int (-1).
(** isl_val_nan, isl_val.c:62-74 *)
Definition v_nan := mkv 0 0.
(** isl_val_infty, isl_val.c:96-108 *)
Definition v_infty := mkv 1 0.
(** isl_val_neginfty, isl_val.c:112-124 *)
Definition v_neginfty := mkv (-1) 0.
(** isl_val_rat_from_isl_int, isl_val.c:202-215 (not normalized) *)
Definition v_rat_raw (n d : Z) : val := mkv n d.

(** ** Predicates *)
(** isl_val_is_int, isl_val.c:1141-1147 *)
Definition v_is_int (v : val) : bool := vd v =? 1.
(** isl_val_is_rat, isl_val.c:1151-1157 *)
Definition v_is_rat (v : val) : bool := negb (vd v =? 0).
(** isl_val_is_nan, isl_val.c:1161-1167 *)
Definition v_is_nan (v : val) : bool := (vn v =? 0) && (vd v =? 0).
(** isl_val_is_infty, isl_val.c:1171-1177 *)
Definition v_is_infty (v : val) : bool := (0 <? vn v) && (vd v =? 0).
(** isl_val_is_neginfty, isl_val.c:1181-1187 *)
Definition v_is_neginfty (v : val) : bool := (vn v <? 0) && (vd v =? 0).
(** isl_val_is_zero, isl_val.c:1191-1197 *)
Definition v_is_zero (v : val) : bool := (vn v =? 0) && negb (vd v =? 0).
(** isl_val_is_one, isl_val.c:1201-1210 *)
Definition v_is_one (v : val) : bool :=
  if v_is_nan v then false else vn v =? vd v.
(** isl_val_is_negone, isl_val.c:1214-1220 *)
Definition v_is_negone (v : val) : bool :=
  (vn v <? 0) && (Z.abs (vn v) =? Z.abs (vd v)).
(** isl_val_is_pos, isl_val.c:1224-1230 *)
Definition v_is_pos (v : val) : bool := 0 <? vn v.
(** isl_val_is_neg, isl_val.c:1234-1240 *)
Definition v_is_neg (v : val) : bool := vn v <? 0.
(** isl_val_is_nonneg, isl_val.c:1244-1253 *)
Definition v_is_nonneg (v : val) : bool :=
  if v_is_nan v then false else 0 <=? vn v.
(** isl_val_is_nonpos, isl_val.c:1257-1266 *)
Definition v_is_nonpos (v : val) : bool :=
  if v_is_nan v then false else vn v <=? 0.
(** isl_val_sgn, isl_val.c:1272-1281 *)
Definition v_sgn (v : val) : Z :=
  if v_is_zero v then 0 else if v_is_pos v then 1 else -1.

(** ** Comparisons *)
(** isl_val_eq, isl_val.c:1421-1430 *)
Definition v_eq (v1 v2 : val) : bool :=
  if v_is_nan v1 || v_is_nan v2 then false
  else (vn v1 =? vn v2) && (vd v1 =? vd v2).
(** isl_val_ne, isl_val.c:1458-1467 *)
Definition v_ne (v1 v2 : val) : bool :=
  if v_is_nan v1 || v_is_nan v2 then false
  else negb (vn v1 =? vn v2) || negb (vd v1 =? vd v2).
(** isl_val_abs_eq, isl_val.c:1445-1454 *)
Definition v_abs_eq (v1 v2 : val) : bool :=
  if v_is_nan v1 || v_is_nan v2 then false
  else (Z.abs (vn v1) =? Z.abs (vn v2)) && (vd v1 =? vd v2).
(** isl_val_eq_si, isl_val.c:1434-1441 *)
Definition v_eq_si (v : val) (i : Z) : bool :=
  if negb (v_is_int v) then false else vn v =? i.
(** isl_val_lt, isl_val.c:1285-1314 *)
Definition v_lt (v1 v2 : val) : bool :=
  if v_is_int v1 && v_is_int v2 then vn v1 <? vn v2
  else if v_is_nan v1 || v_is_nan v2 then false
  else if v_eq v1 v2 then false
  else if v_is_infty v2 then true
  else if v_is_infty v1 then false
  else if v_is_neginfty v1 then true
  else if v_is_neginfty v2 then false
  else let t := vn v1 * vd v2 in
       let t := t - vn v2 * vd v1 in t <? 0.
(** isl_val_gt, isl_val.c:1318-1321 *)
Definition v_gt (v1 v2 : val) : bool := v_lt v2 v1.
(** isl_val_gt_si, isl_val.c:1325-1346 *)
Definition v_gt_si (v : val) (i : Z) : bool :=
  if v_is_int v then vn v >? i
  else if v_is_nan v then false
  else if v_is_infty v then true
  else if v_is_neginfty v then false
  else v_gt v (v_int i).
(** isl_val_le, isl_val.c:1350-1379 *)
Definition v_le (v1 v2 : val) : bool :=
  if v_is_int v1 && v_is_int v2 then vn v1 <=? vn v2
  else if v_is_nan v1 || v_is_nan v2 then false
  else if v_eq v1 v2 then true
  else if v_is_infty v2 then true
  else if v_is_infty v1 then false
  else if v_is_neginfty v1 then true
  else if v_is_neginfty v2 then false
  else let t := vn v1 * vd v2 in
       let t := t - vn v2 * vd v1 in t <=? 0.
(** isl_val_ge, isl_val.c:1383-1386 *)
Definition v_ge (v1 v2 : val) : bool := v_le v2 v1.
(** isl_val_cmp_si, isl_val.c:1394-1417; isl_int_cmp_si returns the sign of
    the difference (C03) *)
Definition v_cmp_si (v : val) (i : Z) : Z :=
  if v_is_int v then Z.sgn (vn v - i)
  else if v_is_nan v then 0
  else if v_is_infty v then 1
  else if v_is_neginfty v then -1
  else let t := vd v * i in
       let t := vn v - t in Z.sgn t.

(** ** Arithmetic *)
(** isl_val_set_nan, isl_val.c:78-92 *)
Definition v_set_nan (v : val) : val := if v_is_nan v then v else v_nan.
(** isl_val_set_si, isl_val.c:144-158; isl_val_set_zero, 162-165 *)
Definition v_set_si (v : val) (i : Z) : val :=
  if v_is_int v && (vn v =? i) then v else v_int i.

(** isl_val_normalize, isl_val.c:385-406; isl_int_divexact is exact
    division *)
Definition v_normalize (v : val) : val :=
  if v_is_int v then v
  else if negb (v_is_rat v) then v
  else
    let v := if vd v <? 0 then mkv (- vn v) (- vd v) else v in
    let g := Z.gcd (vn v) (vd v) in
    if g =? 1 then v else mkv (vn v / g) (vd v / g).

(** isl_val_neg, isl_val.c:410-425 *)
Definition v_neg (v : val) : val :=
  if v_is_nan v then v else if v_is_zero v then v
  else mkv (- vn v) (vd v).
(** isl_val_inv, isl_val.c:429-452 *)
Definition v_inv (v : val) : val :=
  if v_is_nan v then v
  else if v_is_zero v then v_nan
  else if v_is_infty v || v_is_neginfty v then v_zero
  else v_normalize (mkv (vd v) (vn v)).
(** isl_val_abs, isl_val.c:456-465 *)
Definition v_abs (v : val) : val :=
  if v_is_nan v then v else if v_is_nonneg v then v else v_neg v.
(** isl_val_floor, isl_val.c:470-486 *)
Definition v_floor (v : val) : val :=
  if v_is_int v then v else if negb (v_is_rat v) then v
  else mkv (vn v / vd v) 1.
(** isl_val_ceil, isl_val.c:491-507 *)
Definition v_ceil (v : val) : val :=
  if v_is_int v then v else if negb (v_is_rat v) then v
  else mkv (- (- vn v / vd v)) 1.
(** isl_val_trunc, isl_val.c:512-528 *)
Definition v_trunc (v : val) : val :=
  if v_is_int v then v else if negb (v_is_rat v) then v
  else mkv (Z.quot (vn v) (vd v)) 1.
(** isl_val_pow2 (isl_val_2exp), isl_val.c:532-559 *)
Definition v_pow2 (v : val) : vres val :=
  if negb (v_is_int v) then VNull
  else
    let neg := v_is_neg v in
    let n := if neg then - vn v else vn v in
    if negb ((0 <=? n) && (n <? 2 ^ 64)) then VNull
    else if neg then VOk (mkv 1 (vd v * 2 ^ n))
    else VOk (mkv (vd v * 2 ^ n) (vd v)).
(** isl_val_min, isl_val.c:570-594 *)
Definition v_min (v1 v2 : val) : val :=
  if v_is_nan v1 then v1 else if v_is_nan v2 then v2
  else if v_le v1 v2 then v1 else v2.
(** isl_val_max, isl_val.c:598-622 *)
Definition v_max (v1 v2 : val) : val :=
  if v_is_nan v1 then v1 else if v_is_nan v2 then v2
  else if v_ge v1 v2 then v1 else v2.

(** isl_val_add, isl_val.c:626-681 *)
Definition v_add (v1 v2 : val) : val :=
  if v_is_nan v1 then v1
  else if v_is_nan v2 then v2
  else if (v_is_infty v1 && v_is_neginfty v2) ||
          (v_is_neginfty v1 && v_is_infty v2) then v_set_nan v1
  else if v_is_infty v1 || v_is_neginfty v1 then v1
  else if v_is_infty v2 || v_is_neginfty v2 then v2
  else if v_is_zero v1 then v2
  else if v_is_zero v2 then v1
  else if v_is_int v1 && v_is_int v2 then mkv (vn v1 + vn v2) (vd v1)
  else if vd v1 =? vd v2 then v_normalize (mkv (vn v1 + vn v2) (vd v1))
  else
    let n := vn v1 * vd v2 in
    let n := n + vn v2 * vd v1 in
    let d := vd v1 * vd v2 in
    v_normalize (mkv n d).
(** isl_val_add_ui, isl_val.c:685-700 *)
Definition v_add_ui (v1 : val) (c : Z) : val :=
  if negb (v_is_rat v1) then v1 else if c =? 0 then v1
  else mkv (vn v1 + vd v1 * c) (vd v1).
(** isl_val_sub, isl_val.c:704-759 *)
Definition v_sub (v1 v2 : val) : val :=
  if v_is_nan v1 then v1
  else if v_is_nan v2 then v2
  else if (v_is_infty v1 && v_is_infty v2) ||
          (v_is_neginfty v1 && v_is_neginfty v2) then v_set_nan v1
  else if v_is_infty v1 || v_is_neginfty v1 then v1
  else if v_is_infty v2 || v_is_neginfty v2 then v_neg v2
  else if v_is_zero v2 then v1
  else if v_is_zero v1 then v_neg v2
  else if v_is_int v1 && v_is_int v2 then mkv (vn v1 - vn v2) (vd v1)
  else if vd v1 =? vd v2 then v_normalize (mkv (vn v1 - vn v2) (vd v1))
  else
    let n := vn v1 * vd v2 in
    let n := n - vn v2 * vd v1 in
    let d := vd v1 * vd v2 in
    v_normalize (mkv n d).
(** isl_val_sub_ui, isl_val.c:763-778 *)
Definition v_sub_ui (v1 : val) (c : Z) : val :=
  if negb (v_is_rat v1) then v1 else if c =? 0 then v1
  else mkv (vn v1 - vd v1 * c) (vd v1).
(** isl_val_mul, isl_val.c:782-836 *)
Definition v_mul (v1 v2 : val) : val :=
  if v_is_nan v1 then v1
  else if v_is_nan v2 then v2
  else if (negb (v_is_rat v1) && v_is_zero v2) ||
          (v_is_zero v1 && negb (v_is_rat v2)) then v_set_nan v1
  else if v_is_zero v1 then v1
  else if v_is_zero v2 then v2
  else if v_is_infty v1 || v_is_neginfty v1 then
    (if v_is_neg v2 then v_neg v1 else v1)
  else if v_is_infty v2 || v_is_neginfty v2 then
    (if v_is_neg v1 then v_neg v2 else v2)
  else if v_is_int v1 && v_is_int v2 then mkv (vn v1 * vn v2) (vd v1)
  else v_normalize (mkv (vn v1 * vn v2) (vd v1 * vd v2)).
(** isl_val_mul_ui, isl_val.c:851-871 *)
Definition v_mul_ui (v1 : val) (c : Z) : val :=
  if v_is_nan v1 then v1
  else if negb (v_is_rat v1) then (if c =? 0 then v_set_nan v1 else v1)
  else if c =? 1 then v1
  else v_normalize (mkv (vn v1 * c) (vd v1)).
(** isl_val_div, isl_val.c:875-924 *)
Definition v_div (v1 v2 : val) : val :=
  if v_is_nan v1 then v1
  else if v_is_nan v2 then v2
  else if v_is_zero v2 || (negb (v_is_rat v1) && negb (v_is_rat v2))
  then v_set_nan v1
  else if v_is_zero v1 then v1
  else if v_is_infty v1 || v_is_neginfty v1 then
    (if v_is_neg v2 then v_neg v1 else v1)
  else if v_is_infty v2 || v_is_neginfty v2 then v_set_si v1 0
  else if v_is_int v2 then v_normalize (mkv (vn v1) (vd v1 * vn v2))
  else v_normalize (mkv (vn v1 * vd v2) (vd v1 * vn v2)).
(** isl_val_div_ui, isl_val.c:928-949 *)
Definition v_div_ui (v1 : val) (c : Z) : val :=
  if v_is_nan v1 then v1
  else if c =? 0 then v_set_nan v1
  else if c =? 1 then v1
  else if v_is_zero v1 then v1
  else if v_is_infty v1 || v_is_neginfty v1 then v1
  else v_normalize (mkv (vn v1) (vd v1 * c)).

(** ** Integer functions *)
(** isl_val_is_divisible_by, isl_val.c:964-974 (isl_int_is_divisible_by as in
    C03) *)
Definition v_is_divisible_by (v1 v2 : val) : vres bool :=
  if negb (v_is_int v1) || negb (v_is_int v2) then VNull
  else VOk (if vn v2 =? 0 then vn v1 =? 0 else Z.rem (vn v1) (vn v2) =? 0).
(** isl_val_mod, isl_val.c:979-1000; isl_int_fdiv_r by zero is undefined *)
Definition v_mod (v1 v2 : val) : vres val :=
  if negb (v_is_int v1) || negb (v_is_int v2) then VNull
  else if v_is_nonneg v1 && v_lt v1 v2 then VOk v1
  else if vn v2 =? 0 then VUB
  else VOk (mkv (vn v1 mod vn v2) (vd v1)).
(** isl_val_gcd, isl_val.c:1016-1045 *)
Definition v_gcd (v1 v2 : val) : vres val :=
  if negb (v_is_int v1) || negb (v_is_int v2) then VNull
  else if v_eq v1 v2 then VOk v1
  else if v_is_one v1 then VOk v1
  else if v_is_one v2 then VOk v2
  else VOk (mkv (Z.gcd (vn v1) (vn v2)) (vd v1)).

(** isl_int_gcdext, isl_val.c:1049-1087: the loop, with state (g,d,x,y).
    [fuel] bounds the number of iterations; exhausting it is [None]. *)
Fixpoint gcdext_loop (fuel : nat) (g d x y : Z) : option (Z * Z * Z) :=
  if 0 <? d then
    match fuel with
    | O => None
    | S f =>
      let tmp := g / d in
      let x := x - tmp * y in
      let g := g - tmp * d in
      gcdext_loop f d g y x
    end
  else Some (g, x, y).
Definition gcdext (a b : Z) : option (Z * Z * Z) :=
  match gcdext_loop (S (Z.to_nat (Z.abs b))) (Z.abs a) (Z.abs b) 1 0 with
  | None => None
  | Some (g, x, y) =>
    let x := if a =? 0 then 0 else if a <? 0 then - x else x in
    let y := if b =? 0 then 0 else (g - a * x) / b in
    Some (g, x, y)
  end.
(** isl_val_gcdext, isl_val.c:1092-1137, both x and y requested *)
Definition v_gcdext (v1 v2 : val) : vres (val * val * val) :=
  if negb (v_is_int v1) || negb (v_is_int v2) then VNull
  else match gcdext (vn v1) (vn v2) with
       | None => VUB
       | Some (g, x, y) => VOk (mkv g (vd v1), mkv x 1, mkv y 1)
       end.

(** ** Expressions: arbitrary compositions of the arithmetic operations *)
Inductive vexp :=
| VInt (i : Z) | VRat (n d : Z) | VNan | VInf | VNegInf
| VNeg (e : vexp) | VInv (e : vexp) | VAbs (e : vexp)
| VFloor (e : vexp) | VCeil (e : vexp) | VTrunc (e : vexp)
| VMin (a b : vexp) | VMax (a b : vexp)
| VAdd (a b : vexp) | VSub (a b : vexp) | VMul (a b : vexp) | VDiv (a b : vexp)
| VAddUi (e : vexp) (c : Z) | VSubUi (e : vexp) (c : Z)
| VMulUi (e : vexp) (c : Z) | VDivUi (e : vexp) (c : Z).

(** evaluation by the modelled functions; [VRat] is isl_val_rat_from_isl_int
    followed by isl_val_normalize, as in isl_val_from_gmp
    (isl_val_gmp.c:23-35) and isl_stream_read_val (isl_input.c:228-229) *)
Fixpoint veval (e : vexp) : val :=
  match e with
  | VInt i => v_int i
  | VRat n d => v_normalize (v_rat_raw n d)
  | VNan => v_nan | VInf => v_infty | VNegInf => v_neginfty
  | VNeg e => v_neg (veval e) | VInv e => v_inv (veval e)
  | VAbs e => v_abs (veval e) | VFloor e => v_floor (veval e)
  | VCeil e => v_ceil (veval e) | VTrunc e => v_trunc (veval e)
  | VMin a b => v_min (veval a) (veval b)
  | VMax a b => v_max (veval a) (veval b)
  | VAdd a b => v_add (veval a) (veval b)
  | VSub a b => v_sub (veval a) (veval b)
  | VMul a b => v_mul (veval a) (veval b)
  | VDiv a b => v_div (veval a) (veval b)
  | VAddUi e c => v_add_ui (veval e) c
  | VSubUi e c => v_sub_ui (veval e) c
  | VMulUi e c => v_mul_ui (veval e) c
  | VDivUi e c => v_div_ui (veval e) c
  end.

(** ** Chunks (isl_val_sioimath.c, isl_val_gmp.c)
    Memory is a list of chunks, each an integer in [0, 2^(8*size)).
    The two variants differ only in sizeinbase: [small31] selects
    isl_sioimath_sizeinbase (isl_int_sioimath.h:1176-1184), which is the
    constant 31 for a number stored in the small representation (simplified:
    every number that fits is taken to be stored small). *)
Definition sizeinbase2 (small31 : bool) (n : Z) : Z :=
  if small31 && (Z.abs n <? 2 ^ 31) then 31 else if n =? 0 then 1 else Z.log2 (Z.abs n) + 1.
(** isl_val_n_abs_num_chunks, isl_val_sioimath.c:57-68 and
    isl_val_gmp.c:90-101 *)
Definition n_abs_num_chunks (small31 : bool) (v : val) (size : Z) : Z :=
  (sizeinbase2 small31 (vn v) + size * 8 - 1) / (size * 8).
(** mpz_export / impz_export with order -1, endian 0, nails 0: writes the
    least significant chunk first and as many chunks as the number needs (none
    for zero); the rest of the array is untouched (trusted library) *)
Fixpoint export_chunks (bits : Z) (fuel : nat) (n : Z) (mem : list Z) : list Z :=
  match fuel, mem with
  | S f, _ :: mem' =>
    if n =? 0 then mem
    else n mod 2 ^ bits :: export_chunks bits f (n / 2 ^ bits) mem'
  | _, _ => mem
  end.
(** isl_val_get_abs_num_chunks, isl_val_sioimath.c:34-52 and
    isl_val_gmp.c:113-128; [mem] is the previous contents of the array *)
Definition get_abs_num_chunks (v : val) (size : Z) (mem : list Z) : vres (list Z) :=
  if negb (v_is_rat v) then VNull
  else
    let mem := export_chunks (8 * size) (length mem) (Z.abs (vn v)) mem in
    VOk (if v_is_zero v
         then match mem with [] => [] | _ :: t => 0 :: t end else mem).
(** mpz_import / impz_import, least significant chunk first (trusted) *)
Fixpoint import_chunks (bits : Z) (mem : list Z) : Z :=
  match mem with
  | [] => 0
  | c :: mem' => c + 2 ^ bits * import_chunks bits mem'
  end.
(** isl_val_int_from_chunks, isl_val_sioimath.c:7-21, isl_val_gmp.c:71-84 *)
Definition int_from_chunks (size : Z) (mem : list Z) : val :=
  v_int (import_chunks (8 * size) mem).
