(** Theorems about polynomials (C35).  [pval x p] is the value of [p] at the
    rational point [x]; [ordered b p] and [reduced p] make up the canonical
    representation of a polynomial in the first [b] variables. *)
From Coq Require Import ZArith List Bool QArith Arith Lia.
From Verif Require Import MatModel ValModel ValSpec LocalModel PolyModel PolySpec PolyBase PolyArith PolyOps PolyOps2 PolyOps3 PolyUniq PolyTerms PolyMore PolyHom PolyThms.
Import ListNotations.
Open Scope Q_scope.

(** isl_poly_sum *)
Theorem C35_sum p q b : ordered b p -> ordered b q ->
  exists s, poly_sum p q = Ok s /\ ordered b s /\ (forall x, pval x s == pval x p + pval x q) /\ (reduced p -> reduced q -> reduced s).
Proof. exact (poly_sum_ok p q b). Qed.
(** isl_poly_mul *)
Theorem C35_mul p q b : ordered b p -> ordered b q ->
  exists m, poly_mul p q = Ok m /\ ordered b m /\ (forall x, pval x m == pval x p * pval x q) /\ (reduced p -> reduced q -> reduced m) /\
    (p_is_zero p = false -> p_is_zero q = false -> p_is_zero m = false).
Proof. exact (poly_mul_ok p q b). Qed.
(** isl_poly_pow *)
Theorem C35_pow p b n : (0 <= n)%Z -> ordered b p ->
  exists m, poly_pow p n = Ok m /\ ordered b m /\ (forall x, pval x m == pw (pval x p) (Z.to_nat n)) /\ (reduced p -> reduced m).
Proof. exact (poly_pow_ok p b n). Qed.
(** isl_poly_add_isl_int *)
Theorem C35_add_int v p b : ordered b p ->
  exists m, poly_add_int p v = Ok m /\ ordered b m /\ (forall x, pval x m == pval x p + inject_Z v) /\ (reduced p -> reduced m).
Proof. exact (add_int_ok v p b). Qed.
(** isl_poly_mul_isl_int by a non-zero integer; the negation is the case -1 *)
Theorem C35_mul_int v p b : (v <> 0)%Z -> ordered b p ->
  ordered b (poly_mul_int p v) /\ (forall x, pval x (poly_mul_int p v) == inject_Z v * pval x p) /\ (v = 1 \/ v = -1 -> reduced p -> reduced (poly_mul_int p v))%Z.
Proof. exact (mul_int_ok v p b). Qed.
(** the result of isl_poly_mul_isl_int is not in lowest terms in general: 1/2 * 2 is represented as 2/2 *)
Theorem C35_mul_int_reduced_refuted : ~ (forall v p b, (v <> 0)%Z -> canonical b p -> canonical b (poly_mul_int p v)).
Proof. exact mul_int_not_reduced. Qed.
(** so that the comparison isl_poly_is_equal distinguishes two representations of the same polynomial *)
Theorem C35_mul_int_equal_refuted : ~ (forall v p q b, (v <> 0)%Z -> canonical b p -> canonical b q -> (forall x, pval x q == inject_Z v * pval x p) -> p_is_equal (poly_mul_int p v) q = true).
Proof. exact mul_int_not_equal. Qed.
(** isl_poly_scale_val by a finite value *)
Theorem C35_scale v p b : (0 < vd v)%Z -> (vn v <> 0)%Z -> ordered b p ->
  (forall x, pval x (poly_scale p v) == (vn v # Z.to_pos (vd v)) * pval x p) /\ ordered b (poly_scale p v) /\ (reduced p -> reduced (poly_scale p v)).
Proof. exact (poly_scale_ok v p b). Qed.
(** multiplying zero by infinity gives zero for polynomials, but NaN for values *)
Theorem C35_mul_infty_refuted : ~ (forall n1 d1 n2 d2, exists n d, poly_mul (Cst n1 d1) (Cst n2 d2) = Ok (Cst n d) /\ v_mul (v_rat_raw n1 d1) (v_rat_raw n2 d2) = v_rat_raw n d).
Proof. exact mul_infty_differs. Qed.
(** a canonical polynomial is determined by its values *)
Theorem C35_canonical_unique p q b : canonical b p -> canonical b q -> (forall x, pval x p == pval x q) -> p = q.
Proof. exact (canonical_unique p b q). Qed.
(** isl_poly_is_equal *)
Theorem C35_is_equal p q b : canonical b p -> canonical b q -> (p_is_equal p q = true <-> forall x, pval x p == pval x q).
Proof. exact (is_equal_values p q b). Qed.
(** isl_poly_plain_cmp is a total order on representations *)
Theorem C35_plain_cmp_eq p q : plain_cmp p q = 0%Z <-> p = q.
Proof. exact (plain_cmp_0 p q). Qed.
Theorem C35_plain_cmp_anti p q : Z.sgn (plain_cmp q p) = (- Z.sgn (plain_cmp p q))%Z.
Proof. exact (plain_cmp_anti p q). Qed.
Theorem C35_plain_cmp_trans p q r : (plain_cmp p q < 0)%Z -> (plain_cmp q r < 0)%Z -> (plain_cmp p r < 0)%Z.
Proof. exact (plain_cmp_trans p q r). Qed.
(** isl_poly_is_zero, isl_poly_is_one and isl_poly_is_negone *)
Theorem C35_is_zero p b : ordered b p -> (p_is_zero p = true <-> forall x, pval x p == 0).
Proof. exact (is_zero_values p b). Qed.
Theorem C35_is_one p b : canonical b p -> (p_is_one p = true <-> forall x, pval x p == 1).
Proof. exact (is_one_values p b). Qed.
Theorem C35_is_negone p b : canonical b p -> (p_is_negone p = true <-> forall x, pval x p == -1).
Proof. exact (is_negone_values p b). Qed.
(** isl_poly_var_pow *)
Theorem C35_var_pow pos k b : (pos < b)%nat -> (1 <= k)%nat -> canonical b (var_pow pos k) /\ forall x, pval x (var_pow pos k) == pw (x pos) k.
Proof. exact (var_pow_canonical pos k b). Qed.
(** reorder renames the variables *)
Theorem C35_reorder r b p a : ordered a p -> (a <= length r)%nat -> Forall (fun v => (v < b)%nat) r ->
  exists m, reorder p r = Ok m /\ ordered b m /\ (forall x, pval x m == pval (fun v => x (nth v r 0%nat)) p) /\ (reduced p -> reduced m).
Proof. exact (reorder_ok r b p a). Qed.
(** expand renames the variables from [first] on, keeping their order *)
Theorem C35_expand exp first b p a : increasing exp -> (forall i, (i < length exp)%nat -> (nth i exp 0 + first < b)%nat) -> (first <= b)%nat ->
  ordered a p -> (a <= first + length exp)%nat ->
  exists m, expand p exp first = Ok m /\ ordered b m /\ (forall x, pval x m == pval (expanded x exp first) p) /\ (reduced p -> reduced m).
Proof. exact (poly_expand_ok exp first b p a). Qed.
(** isl_poly_get_constant_val *)
Theorem C35_constant p b : ordered b p -> exists c, constant_val p = Ok c /\ (0 < vd c)%Z /\ (vn c # Z.to_pos (vd c)) == pval (fun _ => 0) p.
Proof. exact (constant_ok p b). Qed.
(** isl_poly_subs *)
Theorem C35_subs first n subs b p a : length subs = n -> Forall (ordered b) subs -> ordered a p -> (a <= b)%nat ->
  exists m, poly_subs p first n subs = Ok m /\ ordered b m /\ (forall x, pval x m == pval (substituted x first n subs) p) /\ (Forall reduced subs -> reduced p -> reduced m).
Proof. exact (fun H1 H2 => subs_ok first n subs b H1 H2 p a). Qed.
(** isl_poly_from_affine *)
Theorem C35_from_affine c f denom b : (0 < denom)%Z -> (length f <= b)%nat ->
  exists m, from_affine (c :: f) denom = Ok m /\ ordered b m /\ (forall x, inject_Z denom * pval x m == inject_Z c + affv x 0 f).
Proof. exact (from_affine_ok c f denom b). Qed.
(** its result is not in lowest terms in general: 4 x / 2 *)
Theorem C35_from_affine_refuted : ~ (forall c f denom m, (0 < denom)%Z -> from_affine (c :: f) denom = Ok m -> reduced m).
Proof. exact from_affine_not_reduced. Qed.
(** isl_poly_is_affine *)
Theorem C35_is_affine p b : ordered b p -> (poly_is_affine p = Ok true <-> exists (c : Q) g, forall x, pval x p == c + qsum (fun i => g i * x i) b).
Proof. exact (is_affine_values p b). Qed.
(** isl_poly_update_affine, as used by isl_qpolynomial_extract_affine: the coefficients of an affine polynomial *)
Theorem C35_extract_affine p b : ordered b p -> poly_is_affine p = Ok true ->
  exists d c f, update_affine p (1%Z :: 0%Z :: repeat 0%Z b) = Ok (d :: c :: f) /\ length f = b /\ (0 < d)%Z /\ forall x, inject_Z d * pval x p == inject_Z c + affv x 0 f.
Proof. exact (extract_affine_ok p b). Qed.
(** isl_poly_eval *)
Theorem C35_eval vec p b : (0 < nth 0 vec 1)%Z -> canonical b p -> (b < length vec)%nat ->
  exists c, poly_eval p vec = Ok c /\ means c (EFin (pval (at_vec vec) p)).
Proof. exact (poly_eval_ok vec p b). Qed.
(** isl_poly_coeff: a polynomial is the sum of its coefficients times powers of the variable, and the
    coefficients do not depend on the variable *)
Theorem C35_coeff k pos p b x : ordered b p -> degree_lt k pos p -> pval x p == qsum (fun i => pval x (poly_coeff p pos i) * pw (x pos) i) k.
Proof. exact (coeff_sum k pos p b x). Qed.
Theorem C35_coeff_free pos i p b x y : ordered b p -> (forall v, v <> pos -> x v == y v) -> pval x (poly_coeff p pos i) == pval y (poly_coeff p pos i).
Proof. exact (coeff_free_values pos i p b x y). Qed.
(** the representation of a coefficient is not canonical in general *)
Theorem C35_coeff_refuted : ~ (forall pos i p b, canonical b p -> canonical b (poly_coeff p pos i)).
Proof. exact coeff_not_canonical. Qed.
(** poly_update_den: the product with the denominator is integral at integer points *)
Theorem C35_den p b d : ordered b p -> (0 < d)%Z ->
  (0 < update_den p d)%Z /\ (d | update_den p d)%Z /\ (forall x, (forall v, exists z, x v == inject_Z z) -> exists z, inject_Z (update_den p d) * pval x p == inject_Z z).
Proof. exact (den_ok p b d). Qed.
(** poly_set_active marks the variables that occur, and the other ones have no effect *)
Theorem C35_active d p act : (d <= length act)%nat ->
  length (poly_set_active p d act) = length act /\ forall u, nth u (poly_set_active p d act) false = true <-> nth u act false = true \/ ((u < d)%nat /\ occurs u p).
Proof. exact (active_ok d p act). Qed.
Theorem C35_occurs p x y : (forall v, occurs v p -> x v == y v) -> pval x p == pval y p.
Proof. exact (occurs_values p x y). Qed.
(** in an ordered polynomial a variable that occurs does have an effect *)
Theorem C35_occurs_effect p b v : ordered b p -> occurs v p -> exists x y, (forall u, u <> v -> x u = y u) /\ ~ pval x p == pval y p.
Proof. exact (occurs_effect p b v). Qed.
(** isl_poly_drop *)
Theorem C35_drop first n p b : ordered b p -> (first + n <= b)%nat -> (forall u, (first <= u < first + n)%nat -> ~ occurs u p) ->
  exists m, poly_drop p first n = Ok m /\ ordered (b - n) m /\ (forall x, pval x m == pval (dropped x first n) p) /\ (reduced p -> reduced m).
Proof. exact (poly_drop_ok first n p b). Qed.
(** isl_poly_foreach_term: the terms have distinct powers, non-zero coefficients and sum up to the polynomial *)
Theorem C35_terms p b n : ordered b p -> (b <= n)%nat ->
  exists ts, foreach_term p (repeat 0%nat n) = Ok (ts, repeat 0%nat n) /\ (forall x, tsum x ts == pval x p) /\ NoDup (map snd ts) /\
    forall t, List.In t ts -> length (snd t) = n /\ fst (fst t) <> 0%Z /\ (0 < snd (fst t))%Z /\ forall i, (b <= i)%nat -> nth i (snd t) 0%nat = 0%nat.
Proof. exact (poly_terms_ok p b n). Qed.
(** isl_qpolynomial_from_term *)
Theorem C35_from_term n d pow b : (0 < d)%Z -> (length pow <= b)%nat ->
  exists m, from_term (n, d, pow) = Ok m /\ ordered b m /\ forall x, pval x m == tval x (n, d, pow).
Proof. exact (from_term_ok n d pow b). Qed.
(** isl_poly_degree: the largest total degree of a term in the given variables; -1 for zero *)
Theorem C35_degree first last p b n : ordered b p -> (b <= n)%nat -> p_is_zero p = false ->
  exists ts, foreach_term p (repeat 0%nat n) = Ok (ts, repeat 0%nat n) /\
  (forall t, List.In t ts -> (Z.of_nat (tdeg first last 0 (snd t)) <= poly_degree p first last)%Z) /\
  (exists t, List.In t ts /\ Z.of_nat (tdeg first last 0 (snd t)) = poly_degree p first last).
Proof. exact (poly_degree_ok first last p b n). Qed.
Theorem C35_degree_zero p first last : p_is_zero p = true -> poly_degree p first last = (-1)%Z.
Proof. exact (degree_zero p first last). Qed.
(** isl_poly_homogenize of a polynomial in the variables before [last], with [first] not used: the result is
    homogeneous of degree [target] in the variables from [first] to [last] and equal to the original
    polynomial where variable [first] is one *)
Theorem C35_homogenize first last p target : (first < last)%nat -> ordered last p -> ~ occurs first p -> (poly_degree p first last <= Z.of_nat target)%Z ->
  exists m, homogenize p 0 target first last = Ok m /\ ordered last m /\
    (forall x, x first == 1 -> pval x m == pval x p) /\ (forall x s, pval (scaled x s first last) m == pw s target * pval x m).
Proof. exact (homogenize_ok first last p target). Qed.
(** with variables after [last], the degree of the coefficients is computed with respect to the power of such a variable:
    d x0 + x0^2 is made non-homogeneous in x0 and t *)
Theorem C35_homogenize_refuted : ~ (forall first last b p target, (first < last)%nat -> canonical b p -> ~ occurs first p -> (poly_degree p first last <= Z.of_nat target)%Z ->
  forall m, homogenize p 0 target first last = Ok m -> forall x s, pval (scaled x s first last) m == pw s target * pval x m).
Proof. exact homogenize_not. Qed.

(** x y^2 / 2 - 3 y + 5 and x + 1 *)
Definition ex_p : poly := Rec 1 [Cst 5 1; Cst (-3) 1; Rec 0 [Cst 0 1; Cst 1 2]].
Definition ex_q : poly := Rec 0 [Cst 1 1; Cst 1 1].
Example C35_canonical_ex : canonical 2 ex_p /\ canonical 2 ex_q /\ canonical 1 ex_q.
Proof. repeat split; cbn; lia. Qed.
Example C35_sum_ex : poly_sum ex_p ex_q = Ok (Rec 1 [Rec 0 [Cst 6 1; Cst 1 1]; Cst (-3) 1; Rec 0 [Cst 0 1; Cst 1 2]]) /\
  poly_sum ex_q (Rec 0 [Cst 1 2; Cst (-1) 1]) = Ok (Cst 3 2).
Proof. split; reflexivity. Qed.
Example C35_mul_ex : poly_mul ex_p ex_q = Ok (Rec 1 [Rec 0 [Cst 5 1; Cst 5 1]; Rec 0 [Cst (-3) 1; Cst (-3) 1]; Rec 0 [Cst 0 1; Cst 1 2; Cst 1 2]]) /\
  poly_pow ex_q 3 = Ok (Rec 0 [Cst 1 1; Cst 3 1; Cst 3 1; Cst 1 1]) /\ poly_pow ex_q 0 = Ok p_one.
Proof. repeat split; reflexivity. Qed.
Example C35_int_ex : poly_add_int ex_p (-5) = Ok (Rec 1 [Cst 0 1; Cst (-3) 1; Rec 0 [Cst 0 1; Cst 1 2]]) /\
  poly_mul_int ex_p 2 = Rec 1 [Cst 10 1; Cst (-6) 1; Rec 0 [Cst 0 1; Cst 2 2]] /\
  poly_scale ex_p (v_rat_raw 2 3) = Rec 1 [Cst 10 3; Cst (-2) 1; Rec 0 [Cst 0 1; Cst 1 3]].
Proof. repeat split; reflexivity. Qed.
Example C35_cmp_ex : (plain_cmp ex_q ex_p < 0)%Z /\ p_is_equal ex_p ex_p = true /\ p_is_equal ex_p ex_q = false /\ p_is_one p_one = true /\ p_is_negone (Cst (-1) 1) = true /\ p_is_zero p_zero = true.
Proof. repeat split; reflexivity. Qed.
Example C35_rename_ex : reorder ex_p [1; 0]%nat = Ok (Rec 1 [Rec 0 [Cst 5 1; Cst (-3) 1]; Rec 0 [Cst 0 1; Cst 0 1; Cst 1 2]]) /\
  increasing [0; 2]%nat /\ expand ex_p [0; 2]%nat 0 = Ok (Rec 2 [Cst 5 1; Cst (-3) 1; Rec 0 [Cst 0 1; Cst 1 2]]) /\
  poly_subs ex_p 1 1 [ex_q] = Ok (Rec 0 [Cst 2 1; Cst (-5) 2; Cst 1 1; Cst 1 2]) /\ constant_val ex_p = Ok (v_rat_raw 5 1) /\
  poly_drop (Rec 2 [Cst 5 1; Cst 1 1]) 1 1 = Ok (Rec 1 [Cst 5 1; Cst 1 1]).
Proof. split; [reflexivity|]. split; [|repeat split; reflexivity]. intros [|[|i]] [|[|j]]; cbn; lia. Qed.
Example C35_affine_ex : from_affine [1; 4; -1]%Z 2 = Ok (Rec 1 [Rec 0 [Cst 1 2; Cst 4 2]; Cst (-1) 2]) /\ poly_is_affine (Rec 1 [Rec 0 [Cst 1 2; Cst 2 1]; Cst (-1) 2]) = Ok true /\
  update_affine (Rec 1 [Rec 0 [Cst 1 2; Cst 2 3]; Cst (-1) 2]) [1; 0; 0; 0]%Z = Ok [6; 3; 4; -3]%Z /\ poly_is_affine ex_p = Ok false.
Proof. repeat split; reflexivity. Qed.
Example C35_eval_ex : poly_eval ex_p [2; 3; 1]%Z = Ok (v_rat_raw 59 16) /\ update_den ex_p 3 = 6%Z /\ poly_set_active ex_p 2 [false; false] = [true; true].
Proof. repeat split; reflexivity. Qed.
Example C35_terms_ex : foreach_term ex_p [0; 0]%nat = Ok ([(5%Z, 1%Z, [0; 0]); ((-3)%Z, 1%Z, [0; 1]); (1%Z, 2%Z, [1; 2])]%nat, [0; 0]%nat) /\
  poly_degree ex_p 0 2 = 3%Z /\ from_term (1%Z, 2%Z, [1; 2]%nat) = Ok (Rec 1 [Cst 0 1; Cst 0 1; Rec 0 [Cst 0 1; Cst 1 2]]) /\
  degree_lt 3 1 ex_p /\ poly_coeff ex_p 0 1 = Rec 1 [Cst 0 1; Cst 0 1; Cst 1 2].
Proof. repeat split; try reflexivity; cbn; lia. Qed.
Example C35_homogenize_ex : let p := Rec 2 [Rec 1 [Cst 1 1; Cst 2 1]; Cst 3 1] in canonical 3 p /\ ~ occurs 0 p /\ poly_degree p 0 3 = 1%Z /\
  homogenize p 0 2 0 3 = Ok (Rec 2 [Rec 1 [Rec 0 [Cst 0 1; Cst 0 1; Cst 1 1]; Rec 0 [Cst 0 1; Cst 2 1]]; Rec 0 [Cst 0 1; Cst 3 1]]).
Proof. cbv zeta. split; [repeat split; cbn; lia|]. split; [cbn; lia|]. split; reflexivity. Qed.

Print Assumptions C35_sum.
Print Assumptions C35_mul.
Print Assumptions C35_pow.
Print Assumptions C35_add_int.
Print Assumptions C35_mul_int.
Print Assumptions C35_mul_int_reduced_refuted.
Print Assumptions C35_mul_int_equal_refuted.
Print Assumptions C35_scale.
Print Assumptions C35_mul_infty_refuted.
Print Assumptions C35_canonical_unique.
Print Assumptions C35_is_equal.
Print Assumptions C35_plain_cmp_eq.
Print Assumptions C35_plain_cmp_anti.
Print Assumptions C35_plain_cmp_trans.
Print Assumptions C35_is_zero.
Print Assumptions C35_is_one.
Print Assumptions C35_is_negone.
Print Assumptions C35_var_pow.
Print Assumptions C35_reorder.
Print Assumptions C35_expand.
Print Assumptions C35_constant.
Print Assumptions C35_subs.
Print Assumptions C35_from_affine.
Print Assumptions C35_from_affine_refuted.
Print Assumptions C35_is_affine.
Print Assumptions C35_extract_affine.
Print Assumptions C35_eval.
Print Assumptions C35_coeff.
Print Assumptions C35_coeff_free.
Print Assumptions C35_coeff_refuted.
Print Assumptions C35_den.
Print Assumptions C35_active.
Print Assumptions C35_occurs.
Print Assumptions C35_occurs_effect.
Print Assumptions C35_drop.
Print Assumptions C35_terms.
Print Assumptions C35_from_term.
Print Assumptions C35_degree.
Print Assumptions C35_degree_zero.
Print Assumptions C35_homogenize.
Print Assumptions C35_homogenize_refuted.
