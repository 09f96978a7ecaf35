(** Properties C06-C11 of isl_val. *)
From Coq Require Import ZArith QArith List Bool Lia String.
From Verif Require Import ValModel ValSpec ValProofs StreamModel StreamProofs.
Import ListNotations.
Open Scope Z_scope.

(** ** C06: any expression built from the isl_val operations evaluates to the
    canonical representation of its value in the extended rationals *)
Theorem C06_val_arithmetic_exact :
  forall e, vexp_ok e = true -> means (veval e) (eeval e).
Proof. exact veval_means. Qed.
Print Assumptions C06_val_arithmetic_exact.

(** each operation on arbitrary canonical values *)
Theorem C06_val_operations_exact :
  forall v1 v2 e1 e2 c, means v1 e1 -> means v2 e2 -> 0 <= c ->
    means (v_add v1 v2) (eadd e1 e2) /\ means (v_sub v1 v2) (esub e1 e2) /\
    means (v_mul v1 v2) (emul e1 e2) /\ means (v_div v1 v2) (ediv e1 e2) /\
    means (v_neg v1) (eneg e1) /\ means (v_inv v1) (einv e1) /\ means (v_abs v1) (eabs e1) /\
    means (v_floor v1) (efloor e1) /\ means (v_ceil v1) (eceil e1) /\ means (v_trunc v1) (etrunc e1) /\
    means (v_min v1 v2) (emin e1 e2) /\ means (v_max v1 v2) (emax e1 e2) /\
    means (v_add_ui v1 c) (eadd e1 (eint c)) /\ means (v_sub_ui v1 c) (esub e1 (eint c)) /\
    means (v_mul_ui v1 c) (emul e1 (eint c)) /\ means (v_div_ui v1 c) (ediv e1 (eint c)).
Proof.
  intros v1 v2 e1 e2 c H1 H2 Hc.
  repeat split;
  [exact (eadd_means _ _ _ _ H1 H2)|exact (esub_means _ _ _ _ H1 H2)|exact (emul_means _ _ _ _ H1 H2)
  |exact (ediv_means _ _ _ _ H1 H2)|exact (eneg_means _ _ H1)|exact (einv_means _ _ H1)
  |exact (eabs_means _ _ H1)|exact (efloor_means _ _ H1)|exact (eceil_means _ _ H1)
  |exact (etrunc_means _ _ H1)|exact (emin_means _ _ _ _ H1 H2)|exact (emax_means _ _ _ _ H1 H2)
  |exact (add_ui_means _ _ c H1)|exact (sub_ui_means _ _ c H1)|exact (mul_ui_means _ _ c Hc H1)
  |exact (div_ui_means _ _ c Hc H1)].
Qed.
Print Assumptions C06_val_operations_exact.

Theorem C06_val_2exp_exact :
  forall v i, means v (eint i) -> - 2 ^ 64 < i < 2 ^ 64 ->
  exists v', v_pow2 v = VOk v' /\
    means v' (EFin (if 0 <=? i then inject_Z (2 ^ i) else / inject_Z (2 ^ (- i)))).
Proof. exact pow2_ok. Qed.
Print Assumptions C06_val_2exp_exact.

(** equality of values is equality of the stored fields *)
Theorem C06_val_canonical_unique :
  forall v v' e e', means v e -> means v' e' -> (ext_eq e e' <-> v = v').
Proof.
  intros v v' e e' H H'. split; [exact (means_unique v v' e e' H H')|].
  intros <-. exact (means_fun v e e' H H').
Qed.
Print Assumptions C06_val_canonical_unique.

Definition ex_vexp : vexp :=
  VDiv (VSub (VRat 7 (-6)) (VMulUi (VRat 1 4) 3)) (VMax (VAdd (VInt 5) (VInv (VRat 3 2))) VNegInf).
Example C06_ex : vexp_ok ex_vexp = true /\ veval ex_vexp = mkv (-23) 68.
Proof. vm_compute. auto. Qed.

(** The constructor from an explicit numerator and denominator does not
    enforce canonical form when the denominator is zero: "2/0" and "infty"
    are both positive infinity but differ. *)
Theorem C06_val_zero_denominator_refuted :
  exists v w, val_read_from_str (codes "2/0") = Some (Some v) /\
    val_read_from_str (codes "infty") = Some (Some w) /\
    v_is_infty v = true /\ v_is_infty w = true /\ v_eq v w = false.
Proof. exists (mkv 2 0), (mkv 1 0). vm_compute. auto 10. Qed.
Print Assumptions C06_val_zero_denominator_refuted.

(** ** C07: special values *)
Theorem C07_val_special_values :
  forall v, canonical v ->
    (* NaN is absorbing *)
    v_add v_nan v = v_nan /\ v_add v v_nan = v_nan /\
    v_sub v_nan v = v_nan /\ v_sub v v_nan = v_nan /\
    v_mul v_nan v = v_nan /\ v_mul v v_nan = v_nan /\
    v_div v_nan v = v_nan /\ v_div v v_nan = v_nan /\
    v_min v_nan v = v_nan /\ v_min v v_nan = v_nan /\
    v_max v_nan v = v_nan /\ v_max v v_nan = v_nan /\
    (forall c, v_add_ui v_nan c = v_nan /\ v_sub_ui v_nan c = v_nan /\
               v_mul_ui v_nan c = v_nan /\ v_div_ui v_nan c = v_nan) /\
    v_neg v_nan = v_nan /\ v_inv v_nan = v_nan /\ v_abs v_nan = v_nan /\
    (* undefined combinations *)
    v_sub v_infty v_infty = v_nan /\ v_add v_infty v_neginfty = v_nan /\
    v_add v_neginfty v_infty = v_nan /\
    v_mul v_zero v_infty = v_nan /\ v_mul v_infty v_zero = v_nan /\
    v_mul v_zero v_neginfty = v_nan /\ v_mul v_neginfty v_zero = v_nan /\
    v_div v_infty v_infty = v_nan /\ v_div v_neginfty v_infty = v_nan /\
    v_div v_infty v_neginfty = v_nan /\ v_div v_neginfty v_neginfty = v_nan /\
    v_div v v_zero = v_nan /\ v_inv v_zero = v_nan /\ v_div_ui v 0 = v_nan /\
    v_mul_ui v_infty 0 = v_nan /\ v_mul_ui v_neginfty 0 = v_nan /\
    (* finite operands *)
    (v_is_rat v = true ->
       v_add v v_infty = v_infty /\ v_add v_infty v = v_infty /\
       v_add v v_neginfty = v_neginfty /\ v_add v_neginfty v = v_neginfty /\
       v_sub v v_infty = v_neginfty /\ v_sub v_infty v = v_infty /\
       v_sub v v_neginfty = v_infty /\ v_sub v_neginfty v = v_neginfty /\
       v_div v v_infty = v_zero /\ v_div v v_neginfty = v_zero) /\
    (v_is_pos v = true ->
       v_mul v v_infty = v_infty /\ v_mul v_infty v = v_infty /\
       v_mul v v_neginfty = v_neginfty /\ v_mul v_neginfty v = v_neginfty) /\
    (v_is_neg v = true ->
       v_mul v v_infty = v_neginfty /\ v_mul v_infty v = v_neginfty /\
       v_mul v v_neginfty = v_infty /\ v_mul v_neginfty v = v_infty) /\
    v_inv v_infty = v_zero /\ v_inv v_neginfty = v_zero /\
    v_abs v_neginfty = v_infty /\ v_abs v_infty = v_infty /\
    v_neg v_infty = v_neginfty /\ v_neg v_neginfty = v_infty /\
    (* rounding *)
    (v_is_rat v = false -> v_floor v = v /\ v_ceil v = v /\ v_trunc v = v).
Proof. exact special_values_ok. Qed.
Print Assumptions C07_val_special_values.
Example C07_ex : canonical (mkv (-3) 7) /\ v_is_rat (mkv (-3) 7) = true /\
  v_is_neg (mkv (-3) 7) = true /\ canonical v_nan.
Proof.
  split; [exists (EFin (-3 # 7)); vm_compute; auto|].
  repeat split. exists ENan. vm_compute; auto.
Qed.

(** ** C08: comparisons *)
Theorem C08_val_comparisons :
  forall v1 v2 e1 e2, means v1 e1 -> means v2 e2 ->
    v_lt v1 v2 = elt e1 e2 /\ v_le v1 v2 = ele e1 e2 /\
    v_gt v1 v2 = elt e2 e1 /\ v_ge v1 v2 = ele e2 e1 /\
    v_eq v1 v2 = eeq e1 e2 /\
    v_ne v1 v2 = match e1, e2 with ENan, _ | _, ENan => false | _, _ => negb (eeq e1 e2) end /\
    v_abs_eq v1 v2 = eeq e1 e2 || eeq e1 (eneg e2) /\
    (forall i, v_eq_si v1 i = eeq e1 (eint i) /\ v_gt_si v1 i = elt (eint i) e1 /\
       v_cmp_si v1 i = (if elt e1 (eint i) then -1 else if elt (eint i) e1 then 1 else 0)) /\
    (e1 <> ENan -> v_sgn v1 = if elt e1 (eint 0) then -1 else if elt (eint 0) e1 then 1 else 0) /\
    v_is_zero v1 = eeq e1 (eint 0) /\ v_is_one v1 = eeq e1 (eint 1) /\ v_is_negone v1 = eeq e1 (eint (-1)) /\
    v_is_pos v1 = elt (eint 0) e1 /\ v_is_neg v1 = elt e1 (eint 0) /\
    v_is_nonneg v1 = ele (eint 0) e1 /\ v_is_nonpos v1 = ele e1 (eint 0).
Proof.
  intros v1 v2 e1 e2 H1 H2. split; [exact (v_lt_ok _ _ _ _ H1 H2)|]. split; [exact (v_le_ok _ _ _ _ H1 H2)|].
  split; [exact (v_lt_ok _ _ _ _ H2 H1)|]. split; [exact (v_le_ok _ _ _ _ H2 H1)|].
  split; [exact (v_eq_ok _ _ _ _ H1 H2)|]. split; [exact (v_ne_ok _ _ _ _ H1 H2)|].
  split; [exact (v_abs_eq_ok _ _ _ _ H1 H2)|].
  split; [exact (fun i => conj (v_eq_si_ok _ _ i H1) (conj (v_gt_si_ok _ _ i H1) (v_cmp_si_ok _ _ i H1)))|].
  split; [exact (v_sgn_ok _ _ H1)|exact (v_predicates_ok _ _ H1)].
Qed.
Print Assumptions C08_val_comparisons.
(** the specification order is a total preorder on the non-NaN values whose
    equivalence is equality, and compares false with NaN *)
Theorem C08_val_order_total :
  (forall a b, a <> ENan -> b <> ENan -> ele a b = true \/ ele b a = true) /\
  (forall a b c, ele a b = true -> ele b c = true -> ele a c = true) /\
  (forall a b, eeq a b = true <-> a <> ENan /\ ext_eq a b) /\
  (forall a, ele ENan a = false /\ ele a ENan = false).
Proof.
  split; [exact ele_total|]. split; [exact ele_trans|]. split; [exact eeq_ext|].
  intros [|[|]|q]; auto.
Qed.
Print Assumptions C08_val_order_total.
Example C08_ex : v_lt (mkv (-2) 3) (mkv (-3) 5) = true /\ v_ne v_nan v_nan = false /\
  means (mkv (-2) 3) (EFin (-4 # 6)).
Proof. vm_compute. auto. Qed.

(** ** C09: integer functions *)
Theorem C09_val_mod : forall a b, b <> 0 ->
  exists r, v_mod (v_int a) (v_int b) = VOk (v_int r) /\
    (b | a - r) /\ (0 < b -> 0 <= r < b) /\ (b < 0 -> b < r <= 0).
Proof. exact v_mod_spec. Qed.
Print Assumptions C09_val_mod.
Theorem C09_val_gcdext : forall a b, exists g x y,
  v_gcdext (v_int a) (v_int b) = VOk (v_int g, v_int x, v_int y) /\
  x * a + y * b = g /\ 0 <= g /\ (g | a) /\ (g | b).
Proof. exact v_gcdext_spec. Qed.
Print Assumptions C09_val_gcdext.
Theorem C09_val_is_divisible_by : forall a b,
  exists r, v_is_divisible_by (v_int a) (v_int b) = VOk r /\ (r = true <-> (b | a)).
Proof. exact v_div_by_ok. Qed.
Print Assumptions C09_val_is_divisible_by.
Theorem C09_val_non_integers_rejected : forall v1 v2,
  v_is_int v1 = false \/ v_is_int v2 = false ->
  v_mod v1 v2 = VNull /\ v_gcd v1 v2 = VNull /\ v_gcdext v1 v2 = VNull /\ v_is_divisible_by v1 v2 = VNull.
Proof. exact nonint_rejected. Qed.
Print Assumptions C09_val_non_integers_rejected.
(** isl_val_gcd returns a negative "gcd" for two equal negative arguments *)
Theorem C09_val_gcd_refuted :
  exists a b, v_gcd (v_int a) (v_int b) = VOk (v_int (-4)) /\ Z.gcd a b = 4.
Proof. exists (-4), (-4). vm_compute. auto. Qed.
Print Assumptions C09_val_gcd_refuted.
(** it is the non-negative gcd in all other cases.  Full claim: the same
    without the hypothesis. *)
Theorem C09_val_gcd_partial :
  forall a b, a <> b \/ 0 <= a -> v_gcd (v_int a) (v_int b) = VOk (v_int (Z.gcd a b)).
Proof. exact v_gcd_spec. Qed.
Print Assumptions C09_val_gcd_partial.
Example C09_ex : v_gcdext (v_int (-240)) (v_int 46) = VOk (v_int 2, v_int 9, v_int 47) /\
  v_mod (v_int 7) (v_int (-3)) = VOk (v_int (-2)) /\ v_is_int (mkv 1 2) = false /\
  v_gcd (v_int 12) (v_int (-18)) = VOk (v_int 6).
Proof. vm_compute. auto. Qed.

(** ** C10: printing and reading back *)
Theorem C10_val_print_read : forall v, canonical v ->
  val_read_from_str (val_print v) = Some (Some v).
Proof. exact val_round_trip. Qed.
Print Assumptions C10_val_print_read.
Example C10_ex : canonical (mkv (-120) 7) /\ val_print (mkv (-120) 7) = codes "-120/7".
Proof. split; [exists (EFin (-120 # 7)); vm_compute; auto|reflexivity]. Qed.

(** ** C11: chunks.  [false] selects the GMP variant, [true] the
    small-integer-optimised imath variant. *)
Theorem C11_val_chunks_gmp :
  forall v size mem, 0 < size -> v_is_rat v = true ->
    Z.of_nat (List.length mem) = n_abs_num_chunks false v size ->
    exists mem', get_abs_num_chunks v size mem = VOk mem' /\
      List.length mem' = List.length mem /\
      int_from_chunks size mem' = v_int (Z.abs (vn v)).
Proof. exact chunks_gmp_ok. Qed.
Print Assumptions C11_val_chunks_gmp.
(** imath variant: the announced number of chunks exceeds the number written
    and stale array contents are read back as part of the number *)
Theorem C11_val_chunks_sioimath_refuted :
  exists v size mem mem', 0 < size /\ v_is_rat v = true /\
    Z.of_nat (List.length mem) = n_abs_num_chunks true v size /\
    get_abs_num_chunks v size mem = VOk mem' /\
    int_from_chunks size mem' <> v_int (Z.abs (vn v)).
Proof.
  exists (v_int 5), 1, [255; 255; 255; 255], [5; 255; 255; 255]. vm_compute.
  repeat split; congruence.
Qed.
Print Assumptions C11_val_chunks_sioimath_refuted.
(** Full claim: the same without the third hypothesis. *)
Theorem C11_val_chunks_sioimath_partial :
  forall v size mem, 0 < size -> v_is_rat v = true ->
    n_abs_num_chunks true v size = n_abs_num_chunks false v size ->
    Z.of_nat (List.length mem) = n_abs_num_chunks true v size ->
    exists mem', get_abs_num_chunks v size mem = VOk mem' /\
      List.length mem' = List.length mem /\
      int_from_chunks size mem' = v_int (Z.abs (vn v)).
Proof. exact chunks_sio_ok. Qed.
Print Assumptions C11_val_chunks_sioimath_partial.
Example C11_ex : let v := mkv (-1000000000000) 7 in
  n_abs_num_chunks true v 1 = 5 /\ n_abs_num_chunks false v 1 = 5 /\
  get_abs_num_chunks v 1 [9; 9; 9; 9; 9] = VOk [0; 16; 165; 212; 232].
Proof. vm_compute. auto. Qed.
