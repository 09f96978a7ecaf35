(** Model of polynomials and quasi-polynomials, isl_polynomial.c.

    A polynomial is a constant (numerator and denominator; the denominator is
    zero for NaN and the infinities) or a polynomial in the variable [v] with
    a list of coefficients that are polynomials in earlier variables.  isl_int
    is Z.  Memory allocation succeeds.  Reference counts and copy-on-write are
    not modelled. *)
From Coq Require Import ZArith List Bool Arith.
From Verif Require Import SeqModel MatModel ValModel LocalModel BMapModel SpaceModel.
Import ListNotations.
Open Scope Z_scope.
Notation bind := LocalModel.bind (only parsing).

(** struct isl_poly, struct isl_poly_cst, struct isl_poly_rec, isl_polynomial_private.h:10-32 *)
Inductive poly := Cst (n d : Z) | Rec (v : nat) (p : list poly).
(** [poly->var], -1 for constants *)
Definition pvar (p : poly) : Z := match p with Cst _ _ => -1 | Rec v _ => Z.of_nat v end.

(** isl_poly_is_cst, isl_polynomial.c:51-57 *)
Definition p_is_cst (p : poly) : bool := match p with Cst _ _ => true | Rec _ _ => false end.
(** isl_poly_plain_cmp, isl_polynomial.c:84-130 *)
Fixpoint plain_cmp (p q : poly) {struct p} : Z :=
  if negb (pvar p =? pvar q) then pvar p - pvar q
  else match p, q with
  | Cst n d, Cst n' d' => let cmp := int_cmp n n' in if negb (cmp =? 0) then cmp else int_cmp d d'
  | Rec v l, Rec v' l' =>
    if negb (Nat.eqb (length l) (length l')) then Z.of_nat (length l) - Z.of_nat (length l')
    else (fix go l l' := match l, l' with
          | a :: t, b :: t' => let cmp := plain_cmp a b in if negb (cmp =? 0) then cmp else go t t'
          | _, _ => 0 end) l l'
  | _, _ => 0
  end.
(** isl_poly_is_equal, isl_polynomial.c:132-173 *)
Fixpoint p_is_equal (p q : poly) {struct p} : bool :=
  if negb (pvar p =? pvar q) then false
  else match p, q with
  | Cst n d, Cst n' d' => (n =? n') && (d =? d')
  | Rec v l, Rec v' l' =>
    if negb (Nat.eqb (length l) (length l')) then false
    else (fix go l l' := match l, l' with
          | a :: t, b :: t' => if p_is_equal a b then go t t' else false
          | _, _ => true end) l l'
  | _, _ => false
  end.
(** isl_poly_is_zero, isl_polynomial.c:175-189 *)
Definition p_is_zero (p : poly) : bool := match p with Cst n d => (n =? 0) && (0 <? d) | _ => false end.
(** isl_poly_sgn, isl_polynomial.c:191-205 *)
Definition p_sgn (p : poly) : Z := match p with Cst n d => Z.sgn n | _ => 0 end.
(** isl_poly_is_nan, isl_polynomial.c:207-221 *)
Definition p_is_nan (p : poly) : bool := match p with Cst n d => (n =? 0) && (d =? 0) | _ => false end.
(** isl_poly_is_infty, isl_polynomial.c:223-237 *)
Definition p_is_infty (p : poly) : bool := match p with Cst n d => (0 <? n) && (d =? 0) | _ => false end.
(** isl_poly_is_neginfty, isl_polynomial.c:239-253 *)
Definition p_is_neginfty (p : poly) : bool := match p with Cst n d => (n <? 0) && (d =? 0) | _ => false end.
(** isl_poly_is_one, isl_polynomial.c:255-271 *)
Definition p_is_one (p : poly) : bool := match p with Cst n d => (n =? d) && (0 <? d) | _ => false end.
(** isl_poly_is_negone, isl_polynomial.c:273-287 *)
Definition p_is_negone (p : poly) : bool := match p with Cst n d => (n =? -1) && (d =? 1) | _ => false end.
(** isl_poly_zero, isl_polynomial.c:308-320; isl_poly_one, isl_polynomial.c:322-334 *)
Definition p_zero : poly := Cst 0 1.
Definition p_one : poly := Cst 1 1.
(** isl_poly_infty, isl_polynomial.c:336-348; isl_poly_neginfty, isl_polynomial.c:350-362;
    isl_poly_nan, isl_polynomial.c:364-376 *)
Definition p_infty : poly := Cst 1 0.
Definition p_neginfty : poly := Cst (-1) 0.
Definition p_nan : poly := Cst 0 0.
(** isl_poly_rat_cst, isl_polynomial.c:378-390 *)
Definition p_rat_cst (n d : Z) : poly := Cst n d.

(** isl_poly_cst_reduce, isl_polynomial.c:735-746 *)
Definition cst_reduce (n d : Z) : poly :=
  let g := Z.gcd n d in
  if negb (g =? 0) && negb (g =? 1) then Cst (divexact n g) (divexact d g) else Cst n d.
(** isl_poly_sum_cst, isl_polynomial.c:748-777 *)
Definition sum_cst (n1 d1 n2 d2 : Z) : poly :=
  if d1 =? d2 then cst_reduce (n1 + n2) d1
  else cst_reduce (n1 * d2 + n2 * d1) (d1 * d2).
(** the loop of isl_poly_sum, isl_polynomial.c:896-913; [k] is [i + 1], the number of
    coefficients in [l1] is [rec1->n] *)
Fixpoint sum_loop (f : poly -> poly -> res poly) (k : nat) (l1 l2 : list poly) : res (list poly) :=
  match k with
  | O => Ok l1
  | S i =>
    match nth_error l1 i, nth_error l2 i with
    | Some a, Some b =>
      let! s := f a b in
      if Nat.eqb i (length l1 - 1) && p_is_zero s then sum_loop f i (firstn i l1) l2
      else sum_loop f i (lset l1 i s) l2
    | _, _ => UB
    end
  end.
(** isl_poly_sum, isl_polynomial.c:809-926, with replace_by_zero, isl_polynomial.c:779-788, and
    replace_by_constant_term, isl_polynomial.c:790-807 *)
Fixpoint sum_f (fuel : nat) (p1 p2 : poly) : res poly :=
  match fuel with
  | O => Div
  | S f =>
    if p_is_nan p1 then Ok p1 else if p_is_nan p2 then Ok p2
    else if p_is_zero p1 then Ok p2 else if p_is_zero p2 then Ok p1
    else if pvar p1 <? pvar p2 then sum_f f p2 p1
    else if pvar p2 <? pvar p1 then
      if p_is_infty p2 || p_is_neginfty p2 then Ok p2
      else match p1 with
           | Cst _ _ => Null
           | Rec v [] => UB
           | Rec v (a :: t) => let! a' := sum_f f a p2 in Ok (if Nat.eqb (length (a :: t)) 1 then a' else Rec v (a' :: t))
           end
    else match p1, p2 with
    | Cst n1 d1, Cst n2 d2 => Ok (sum_cst n1 d1 n2 d2)
    | Rec v l1, Rec _ l2 =>
      if Nat.ltb (length l1) (length l2) then sum_f f p2 p1
      else
        let! l := sum_loop (sum_f f) (length l2) l1 l2 in
        Ok (match l with [] => p_zero | [a] => a | _ => Rec v l end)
    | _, _ => Null
    end
  end.
Fixpoint depth (p : poly) : nat :=
  match p with Cst _ _ => O | Rec _ l => S (fold_right (fun a m => Nat.max (depth a) m) O l) end.
(** enough for the recursion, see [sum_total] *)
Definition p_fuel (p q : poly) : nat := 2 * (depth p + depth q) + 3.
Definition poly_sum (p q : poly) : res poly := sum_f (p_fuel p q) p q.

(** isl_poly_add_isl_int, isl_polynomial.c:944-968, with isl_poly_cst_add_isl_int, isl_polynomial.c:928-942 *)
Fixpoint poly_add_int (p : poly) (v : Z) : res poly :=
  match p with
  | Cst n d => Ok (Cst (n + d * v) d)
  | Rec x [] => UB
  | Rec x (a :: t) => let! a' := poly_add_int a v in Ok (Rec x (a' :: t))
  end.
(** isl_poly_mul_isl_int, isl_polynomial.c:993-1020, with isl_poly_cst_mul_isl_int, isl_polynomial.c:970-991 *)
Fixpoint poly_mul_int (p : poly) (v : Z) : poly :=
  match p with
  | Cst n d => if p_is_zero p then p else Cst (n * v) d
  | Rec x l => Rec x (map (fun a => poly_mul_int a v) l)
  end.
(** isl_poly_scale_val, isl_polynomial.c:1051-1079, with isl_poly_cst_scale_val, isl_polynomial.c:1024-1047 *)
Fixpoint poly_scale (p : poly) (v : val) : poly :=
  match p with
  | Cst n d => if p_is_zero p then p else cst_reduce (n * vn v) (d * vd v)
  | Rec x l => Rec x (map (fun a => poly_scale a v) l)
  end.

(** isl_poly_mul_cst, isl_polynomial.c:1081-1105 *)
Definition mul_cst (n1 d1 n2 d2 : Z) : poly := cst_reduce (n1 * n2) (d1 * d2).
(** the first loop of isl_poly_mul_rec, isl_polynomial.c:1125-1131; also the loop of
    isl_poly_mul, isl_polynomial.c:1240-1245, with the arguments exchanged *)
Fixpoint mapr (f : poly -> res poly) (l : list poly) : res (list poly) :=
  match l with [] => Ok [] | a :: t => let! a' := f a in let! t' := mapr f t in Ok (a' :: t') end.
(** the inner loop of isl_poly_mul_rec, isl_polynomial.c:1139-1147: [l2] contains the remaining
    coefficients, at positions [j], ... *)
Fixpoint mul_inner (mul : poly -> poly -> res poly) (a : poly) (i j : nat) (l2 : list poly) (r : list poly) : res (list poly) :=
  match l2 with
  | [] => Ok r
  | b :: t =>
    let! m := mul b a in
    match nth_error r (i + j) with
    | None => UB
    | Some c => let! s := poly_sum c m in mul_inner mul a i (S j) t (lset r (i + j) s)
    end
  end.
(** the outer loop *)
Fixpoint mul_outer (mul : poly -> poly -> res poly) (i : nat) (l1 l2 : list poly) (r : list poly) : res (list poly) :=
  match l1 with
  | [] => Ok r
  | a :: t => let! r' := mul_inner mul a i 1 l2 r in mul_outer mul (S i) t l2 r'
  end.
(** isl_poly_mul_rec, isl_polynomial.c:1107-1158 *)
Definition mul_rec (mul : poly -> poly -> res poly) (v : nat) (l1 l2 : list poly) : res poly :=
  match l2 with
  | [] => match l1 with [] => Null | _ => UB end
  | b0 :: t2 =>
    let! r := mapr (fun a => mul b0 a) l1 in
    let! r' := mul_outer mul 0 l1 t2 (r ++ repeat p_zero (length t2)) in
    Ok (Rec v r')
  end.
(** isl_poly_mul, isl_polynomial.c:1160-1256 *)
Fixpoint mul_f (fuel : nat) (p1 p2 : poly) : res poly :=
  match fuel with
  | O => Div
  | S f =>
    if p_is_nan p1 then Ok p1 else if p_is_nan p2 then Ok p2
    else if p_is_zero p1 then Ok p1 else if p_is_zero p2 then Ok p2
    else if p_is_one p1 then Ok p2 else if p_is_one p2 then Ok p1
    else if pvar p1 <? pvar p2 then mul_f f p2 p1
    else if pvar p2 <? pvar p1 then
      if p_is_infty p2 || p_is_neginfty p2 then Ok p_nan
      else match p1 with
           | Cst _ _ => Null
           | Rec v l => let! l' := mapr (fun a => mul_f f a p2) l in Ok (Rec v l')
           end
    else match p1, p2 with
    | Cst n1 d1, Cst n2 d2 => Ok (mul_cst n1 d1 n2 d2)
    | Rec v l1, Rec _ l2 => mul_rec (mul_f f) v l1 l2
    | _, _ => Null
    end
  end.
Definition poly_mul (p q : poly) : res poly := mul_f (p_fuel p q) p q.
(** the loop of isl_poly_pow, isl_polynomial.c:1277-1281 *)
Fixpoint pow_loop (fuel : nat) (r p : poly) (power : Z) : res poly :=
  match fuel with
  | O => Div
  | S f =>
    let power := Z.shiftr power 1 in
    if power =? 0 then Ok r
    else
      let! p := poly_mul p p in
      let! r := (if power mod 2 =? 0 then Ok r else poly_mul r p) in
      pow_loop f r p power
  end.
(** isl_poly_pow, isl_polynomial.c:1263-1285; [power] is an unsigned integer *)
Definition poly_pow (p : poly) (power : Z) : res poly :=
  if power =? 1 then Ok p
  else pow_loop (2 + Z.to_nat (Z.log2 power)) (if power mod 2 =? 0 then p_one else p) p power.

(** isl_poly_var_pow, isl_polynomial.c:1380-1402 *)
Definition var_pow (pos power : nat) : poly := Rec pos (repeat p_zero power ++ [p_one]).
(** reorder, isl_polynomial.c:1404-1441; the highest coefficient is handled first *)
Fixpoint reorder (p : poly) (r : list nat) : res poly :=
  match p with
  | Cst _ _ => Ok p
  | Rec v l =>
    match nth_error r v with
    | None => UB
    | Some x =>
      (fix go l := match l with
       | [] => Null
       | [a] => reorder a r
       | a :: t => let! s := go t in let! s := poly_mul s (var_pow x 1) in let! b := reorder a r in poly_sum s b
       end) l
    end
  end.
(** expand, isl_polynomial.c:1584-1623 *)
Fixpoint expand (p : poly) (exp : list nat) (first : nat) : res poly :=
  match p with
  | Cst _ _ => Ok p
  | Rec v l =>
    if Nat.ltb v first then Ok p
    else match nth_error exp (v - first) with
    | None => UB
    | Some x =>
      if Nat.eqb x (v - first) then Ok p
      else let! l' := (fix go l := match l with [] => Ok [] | a :: t => let! a' := expand a exp first in let! t' := go t in Ok (a' :: t') end) l in
           Ok (Rec (x + first) l')
    end
  end.
(** isl_poly_get_constant_val, isl_polynomial.c:2009-2032 *)
Fixpoint constant_val (p : poly) : res val :=
  match p with Cst n d => Ok (v_rat_raw n d) | Rec _ [] => UB | Rec _ (a :: _) => constant_val a end.
(** isl_poly_is_affine, isl_polynomial.c:2045-2070 *)
Fixpoint poly_is_affine (p : poly) : res bool :=
  match p with
  | Cst _ _ => Ok true
  | Rec _ l =>
    match l with
    | a :: b :: [] => if p_is_cst b then poly_is_affine a else Ok false
    | _ :: _ :: _ => Ok false
    | _ => Null
    end
  end.
(** update_coeff, isl_polynomial.c:2083-2101 *)
Definition update_coeff (aff : list Z) (n d : Z) (pos : nat) : list Z :=
  if n =? 0 then aff
  else
    let a0 := nth 0 aff 0 in
    let g := Z.gcd d a0 in
    let f := divexact d g in
    let h := divexact a0 g in
    zupd (seq_scale aff f) (1 + pos) (h * n).
(** isl_poly_update_affine, isl_polynomial.c:2103-2132 *)
Fixpoint update_affine (p : poly) (aff : list Z) : res (list Z) :=
  match p with
  | Cst n d => Ok (update_coeff aff n d 0)
  | Rec v l =>
    match l with
    | a :: b :: [] => match b with Cst n d => update_affine a (update_coeff aff n d (1 + v)) | _ => Null end
    | _ => Null
    end
  end.
(** poly_update_den, isl_polynomial.c:2214-2240 *)
Fixpoint update_den (p : poly) (d : Z) : Z :=
  match p with
  | Cst _ d' => Z.lcm d d'
  | Rec _ l => fold_left (fun d a => update_den a d) l d
  end.
(** isl_poly_subs, isl_polynomial.c:2286-2329 *)
Fixpoint poly_subs (p : poly) (first n : nat) (subs : list poly) : res poly :=
  match p with
  | Cst _ _ => Ok p
  | Rec v l =>
    if Nat.ltb v first then Ok p
    else
      let! base := (if Nat.leb (first + n) v then Ok (var_pow v 1)
                  else match nth_error subs (v - first) with Some s => Ok s | None => UB end) in
      (fix go l := match l with
       | [] => Null
       | [a] => poly_subs a first n subs
       | a :: t => let! s := go t in let! b := poly_subs a first n subs in let! s := poly_mul s base in poly_sum s b
       end) l
  end.
(** the loop of isl_poly_from_affine, isl_polynomial.c:2340-2351 *)
Fixpoint from_affine_loop (i : nat) (f : list Z) (denom : Z) (p : poly) : res poly :=
  match f with
  | [] => Ok p
  | c :: t =>
    if c =? 0 then from_affine_loop (S i) t denom p
    else
      let! t' := poly_mul (p_rat_cst c denom) (var_pow i 1) in
      let! p := poly_sum p t' in
      from_affine_loop (S i) t denom p
  end.
(** isl_poly_from_affine, isl_polynomial.c:2331-2354 *)
Definition from_affine (f : list Z) (denom : Z) : res poly :=
  match f with [] => Null | c :: t => from_affine_loop 0 t denom (p_rat_cst c denom) end.
(** poly_set_active, isl_polynomial.c:2661-2682; the variables less than [d] that occur *)
Fixpoint poly_set_active (p : poly) (d : nat) (active : list bool) : list bool :=
  match p with
  | Cst _ _ => active
  | Rec v l => fold_left (fun s a => poly_set_active a d s) l (if Nat.ltb v d then lset active v true else active)
  end.
(** isl_poly_drop, isl_polynomial.c:2843-2875 *)
Fixpoint poly_drop (p : poly) (first n : nat) : res poly :=
  if Nat.eqb n 0 then Ok p
  else match p with
  | Cst _ _ => Ok p
  | Rec v l =>
    if Nat.ltb v first then Ok p
    else if Nat.ltb v (first + n) then match l with [] => UB | a :: _ => poly_drop a first n end
    else let! l' := (fix go l := match l with [] => Ok [] | a :: t => let! a' := poly_drop a first n in let! t' := go t in Ok (a' :: t') end) l in
         Ok (Rec (v - n) l')
  end.
(** isl_poly_eval, isl_polynomial.c:3214-3259 *)
Fixpoint poly_eval (p : poly) (vec : list Z) : res val :=
  match p with
  | Cst n d => Ok (v_rat_raw n d)
  | Rec v l =>
    match nth_error vec (1 + v) with
    | None => UB
    | Some x =>
      let base := v_rat_raw x (nth 0 vec 0) in
      (fix go l := match l with
       | [] => Null
       | [a] => poly_eval a vec
       | a :: t => let! s := go t in let! b := poly_eval a vec in Ok (v_add (v_mul s base) b)
       end) l
    end
  end.
(** isl_poly_degree, isl_polynomial.c:3655-3693 *)
Fixpoint poly_degree (p : poly) (first last : nat) : Z :=
  if p_is_zero p then -1
  else match p with
  | Cst _ _ => 0
  | Rec v l =>
    if Nat.ltb v first then 0
    else (fix go i l deg := match l with
          | [] => deg
          | a :: t =>
            if p_is_zero a then go (i + 1) t deg
            else
              let d := poly_degree a first last in
              let d := if Nat.ltb v last then d + i else d in
              go (i + 1) t (if deg <? d then d else deg)
          end) 0 l (-1)
  end.
(** isl_poly_coeff, isl_polynomial.c:3712-3759 *)
Fixpoint poly_coeff (p : poly) (pos deg : nat) : poly :=
  match p with
  | Cst _ _ => if Nat.eqb deg 0 then p else p_zero
  | Rec v l =>
    if Nat.ltb v pos then (if Nat.eqb deg 0 then p else p_zero)
    else if Nat.eqb v pos then (if Nat.ltb deg (length l) then nth deg l p_zero else p_zero)
    else Rec v (map (fun a => poly_coeff a pos deg) l)
  end.
(** isl_poly_homogenize, isl_polynomial.c:3803-3854; [target - deg] is not negative *)
Fixpoint homogenize (p : poly) (deg target first last : nat) : res poly :=
  if p_is_zero p then Ok p
  else if Nat.eqb deg target then Ok p
  else match p with
  | Cst _ _ => if Nat.ltb target deg then UB else
      let! c := poly_mul p_one p in Ok (Rec first (repeat p_zero (target - deg) ++ [c]))
  | Rec v l =>
    if Nat.ltb v first then
      if Nat.ltb target deg then UB else
      let! c := poly_mul p_one p in Ok (Rec first (repeat p_zero (target - deg) ++ [c]))
    else
      let! l' := (fix go i l := match l with
                | [] => Ok []
                | a :: t =>
                  let! a' := (if p_is_zero a then Ok a
                            else homogenize a (if Nat.ltb v last then deg + i else i) target first last) in
                  let! t' := go (S i) t in Ok (a' :: t')
                end) 0%nat l in
      Ok (Rec v l')
  end.
(** struct isl_term, isl_polynomial_private.h:49-59: numerator, denominator and the
    powers of the variables.  isl_poly_foreach_term, isl_polynomial.c:4091-4156: the terms that
    are passed to [fn], which is assumed to return isl_stat_ok; [pow] has length [n] *)
Definition term := (Z * Z * list nat)%type.
Fixpoint foreach_term (p : poly) (pow : list nat) : res (list term * list nat) :=
  if p_is_zero p then Ok ([], pow)
  else if p_is_nan p || p_is_infty p || p_is_neginfty p then Null
  else match p with
  | Cst n d => Ok ([(n, d, pow)], pow)
  | Rec v l =>
    let! (ts, pow) := (fix go i l pow := match l with
                     | [] => Ok ([], pow)
                     | a :: t => let! (ta, pow) := foreach_term a (lset pow v i) in let! (tb, pow) := go (S i) t pow in Ok (ta ++ tb, pow)
                     end) 0%nat l pow in
    Ok (ts, lset pow v 0%nat)
  end.
(** the loop of isl_qpolynomial_from_term, isl_polynomial.c:4191-4196 *)
Fixpoint from_term_loop (i : nat) (pow : list nat) (p : poly) : res poly :=
  match pow with
  | [] => Ok p
  | k :: t => if Nat.eqb k 0 then from_term_loop (S i) t p else let! p := poly_mul p (var_pow i k) in from_term_loop (S i) t p
  end.
Definition from_term (t : term) : res poly := let '(n, d, pow) := t in from_term_loop 0 pow (p_rat_cst n d).
