(** Theorems about quasi-polynomials and lists of integer divisions (C35).  [qvalue q v r] states that [q]
    takes the value [r] at the integer point with homogeneous coordinates [v]. *)
From Coq Require Import ZArith List Bool QArith Arith Lia.
From Verif Require Import SeqSpec MatModel ValModel ValSpec LocalModel LocalSpec LocalProofs SpaceModel PolyModel PolySpec QpModel QpSpec QpProofs QpRefute.
Import ListNotations.
Open Scope Z_scope.

(** a quasi-polynomial has exactly one value at each integer point *)
Theorem C35_qp_defined q v : wf_qp q -> int_point (q_d q) v -> (exists r, qvalue q v r) /\ forall r r', qvalue q v r -> qvalue q v r' -> (r == r')%Q.
Proof. intros G P. split; [exact (qvalue_total q v G P)|intros r r'; exact (qvalue_unique q v r r' G)]. Qed.
(** isl_local_extend_point_vec computes the only values of the integer divisions at a point *)
Theorem C35_extend_point d M v : wf_divs d M -> known M -> length v = (1 + d)%nat -> nth 0 v 0 = 1 ->
  exists w, extend_point d M v = Ok w /\ sat d M w /\ firstn (1 + d) w = v /\ forall w', sat d M w' -> firstn (1 + d) w' = v -> w' = w.
Proof.
  intros W K L E. destruct (extend_point_ok d M v W K L E) as (w & A & B & C). exists w. split; [exact A|]. split; [exact B|]. split; [exact C|].
  intros w' H1 H2. exact (sat_unique d M w' w W K H1 B (eq_trans H2 (eq_sym C))).
Qed.
(** isl_merge_divs *)
Theorem C35_merge_divs d M1 M2 : wf_divs d M1 -> wf_divs d M2 ->
  exists div e1 e2, merge_divs d M1 M2 = Ok (div, e1, e2) /\ wf_divs d div /\ (known M1 -> known M2 -> known div) /\
    length e1 = length M1 /\ length e2 = length M2 /\ increasing e1 /\ increasing e2 /\
    (forall i, (i < length e1)%nat -> (nth i e1 0 < length div)%nat) /\ (forall i, (i < length e2)%nat -> (nth i e2 0 < length div)%nat) /\
    (length div <= length M1 + length M2)%nat /\
    forall w, sat d div w -> sat d M1 (select d e1 w) /\ sat d M2 (select d e2 w).
Proof. exact (merge_divs_ok d M1 M2). Qed.
(** isl_qpolynomial_add, isl_qpolynomial_sub and isl_qpolynomial_mul *)
Theorem C35_qp_add q1 q2 : wf_qp q1 -> wf_qp q2 -> is_equal (q_sp q1) (q_sp q2) = true ->
  exists q, qp_add q1 q2 = Ok q /\ wf_qp q /\ (q_sp q = q_sp q1 \/ q_sp q = q_sp q2) /\ (reduced (q_poly q1) -> reduced (q_poly q2) -> reduced (q_poly q)) /\
    forall v r1 r2, qvalue q1 v r1 -> qvalue q2 v r2 -> qvalue q v (r1 + r2)%Q.
Proof. exact (qp_add_ok q1 q2). Qed.
Theorem C35_qp_sub q1 q2 : wf_qp q1 -> wf_qp q2 -> is_equal (q_sp q1) (q_sp q2) = true ->
  exists q, qp_sub q1 q2 = Ok q /\ wf_qp q /\ (q_sp q = q_sp q1 \/ q_sp q = q_sp q2) /\ (reduced (q_poly q1) -> reduced (q_poly q2) -> reduced (q_poly q)) /\
    forall v r1 r2, qvalue q1 v r1 -> qvalue q2 v r2 -> qvalue q v (r1 - r2)%Q.
Proof. exact (qp_sub_ok q1 q2). Qed.
Theorem C35_qp_mul q1 q2 : wf_qp q1 -> wf_qp q2 -> is_equal (q_sp q1) (q_sp q2) = true ->
  exists q, qp_mul q1 q2 = Ok q /\ wf_qp q /\ (q_sp q = q_sp q1 \/ q_sp q = q_sp q2) /\ (reduced (q_poly q1) -> reduced (q_poly q2) -> reduced (q_poly q)) /\
    forall v r1 r2, qvalue q1 v r1 -> qvalue q2 v r2 -> qvalue q v (r1 * r2)%Q.
Proof. exact (qp_mul_ok q1 q2). Qed.
Theorem C35_qp_spaces q1 q2 : is_equal (q_sp q1) (q_sp q2) = false -> qp_add q1 q2 = Null /\ qp_mul q1 q2 = Null.
Proof. intros E. split; apply binop_null; exact E. Qed.
(** isl_qpolynomial_add_isl_int, isl_qpolynomial_mul_isl_int, isl_qpolynomial_neg, isl_qpolynomial_scale_val, isl_qpolynomial_pow *)
Theorem C35_qp_add_int q z : wf_qp q -> exists q', qp_add_int q z = Ok q' /\ wf_qp q' /\ q_sp q' = q_sp q /\ (reduced (q_poly q) -> reduced (q_poly q')) /\ forall v r, qvalue q v r -> qvalue q' v (r + inject_Z z)%Q.
Proof. exact (qp_add_int_ok q z). Qed.
Theorem C35_qp_mul_int q z : wf_qp q -> wf_qp (qp_mul_int q z) /\ q_sp (qp_mul_int q z) = q_sp q /\ ((z = 1 \/ z = -1) -> reduced (q_poly q) -> reduced (q_poly (qp_mul_int q z))) /\ forall v r, qvalue q v r -> qvalue (qp_mul_int q z) v (inject_Z z * r)%Q.
Proof. exact (qp_mul_int_ok q z). Qed.
Theorem C35_qp_neg q : wf_qp q -> wf_qp (qp_neg q) /\ q_sp (qp_neg q) = q_sp q /\ (reduced (q_poly q) -> reduced (q_poly (qp_neg q))) /\ forall v r, qvalue q v r -> qvalue (qp_neg q) v (- r)%Q.
Proof. exact (qp_neg_ok q). Qed.
Theorem C35_qp_scale q c : wf_qp q -> 0 < vd c -> exists q', qp_scale q c = Ok q' /\ wf_qp q' /\ q_sp q' = q_sp q /\ (reduced (q_poly q) -> reduced (q_poly q')) /\ forall v r, qvalue q v r -> qvalue q' v ((vn c # Z.to_pos (vd c)) * r)%Q.
Proof. exact (qp_scale_ok q c). Qed.
Theorem C35_qp_pow q n : wf_qp q -> 0 <= n -> exists q', qp_pow q n = Ok q' /\ wf_qp q' /\ q_sp q' = q_sp q /\ (reduced (q_poly q) -> reduced (q_poly q')) /\ forall v r, qvalue q v r -> qvalue q' v (pw r (Z.to_nat n)).
Proof. exact (qp_pow_ok q n). Qed.
(** isl_qpolynomial_eval; the value at a void point is NaN *)
Theorem C35_qp_eval q v : wf_qp q -> reduced (q_poly q) -> int_point (q_d q) v -> exists c r, qp_eval q v = Ok c /\ means c (EFin r) /\ qvalue q v r.
Proof. exact (qp_eval_ok q v). Qed.
Theorem C35_qp_eval_void q : exists c, qp_eval q [] = Ok c /\ means c ENan.
Proof. exists v_nan. split; [exact (qp_eval_void q)|]. cbn. auto. Qed.
(** isl_qpolynomial_plain_is_equal never wrongly claims equality *)
Theorem C35_qp_plain_is_equal q1 q2 : wf_qp q1 -> wf_qp q2 -> qp_plain_is_equal q1 q2 = true -> is_equal (q_sp q1) (q_sp q2) = true /\ forall v r, qvalue q1 v r -> qvalue q2 v r.
Proof. exact (qp_plain_is_equal_ok q1 q2). Qed.
(** isl_qpolynomial_from_aff does not preserve the value: remove_redundant_divs only marks the first integer division that
    an integer division depends on and then drops the other ones.  The witness is
    floor((floor(x/2) + floor(x/3))/5) at x = 6 *)
Theorem C35_from_aff_refuted : ~ (forall qsort s M a q, sorts qsort -> wf_divs (dim_all s) M -> known M -> length a = (2 + dim_all s + length M)%nat -> 0 < nth 0 a 0 ->
  qp_from_aff qsort s M a = Ok q -> forall v r, aff_value (dim_all s) M a v r -> qvalue q v r).
Proof. exact from_aff_wrong. Qed.
(** sort_divs reorders the rows of the integer divisions without reordering the columns that refer to them *)
Theorem C35_sort_divs_refuted : ~ (forall qsort q q', sorts qsort -> wf_qp q -> sort_divs qsort q = Ok q' -> forall v r, qvalue q v r -> qvalue q' v r).
Proof. exact sort_divs_wrong. Qed.
(** as a result, isl_qpolynomial_move_dims does not preserve the value: exchanging two variables *)
Theorem C35_move_dims_refuted : ~ (forall qsort q q', sorts qsort -> wf_qp q -> q_d q = 2%nat -> qp_move qsort (q_sp q) q 0 1 1 = Ok q' -> forall x y r, qvalue q [1; x; y] r -> qvalue q' [1; y; x] r).
Proof. exact move_wrong. Qed.

(** ** Examples *)
(** floor(x/2) and floor((x + floor(x/2))/3) *)
Definition ex_divs : mat := [[2;0;1;0;0];[3;0;1;1;0]].
Definition ex_q1 : qp := mkqp (sp 1) ex_divs (Rec 2 [Cst 1 2; Rec 1 [Cst 0 1; Cst 1 1]]).
Definition ex_q2 : qp := mkqp (sp 1) [[3;1;1;0]] (Rec 1 [Cst 0 1; Cst 3 1]).
Example ex_wf1 : wf_qp ex_q1.
Proof. destruct (wf_b_ok 1 ex_divs eq_refl) as (W & K). split; [exact W|]. split; [exact K|]. cbn. repeat split; lia. Qed.
Example ex_wf2 : wf_qp ex_q2.
Proof. destruct (wf_b_ok 1 [[3;1;1;0]] eq_refl) as (W & K). split; [exact W|]. split; [exact K|]. cbn. repeat split; lia. Qed.
Example ex_point : int_point (q_d ex_q1) [1;7].
Proof. split; reflexivity. Qed.
Example ex_values : exists c1 c2 c, qp_eval ex_q1 [1;7] = Ok c1 /\ qp_eval ex_q2 [1;7] = Ok c2 /\ (let! q := qp_add ex_q1 ex_q2 in qp_eval q [1;7]) = Ok c /\ (vn c1, vd c1) = (19, 2) /\ (vn c2, vd c2) = (6, 1) /\ (vn c, vd c) = (31, 2).
Proof. do 3 eexists. split; [reflexivity|]. split; [reflexivity|]. split; [reflexivity|]. auto. Qed.
Example ex_merge : exists M, merge_divs 1 ex_divs [[3;1;1;0]] = Ok (M, [0; 2]%nat, [1]%nat) /\ length M = 3%nat.
Proof. eexists. split; reflexivity. Qed.
Example ex_sub : exists q, qp_sub ex_q1 ex_q2 = Ok q /\ q_n q = 3%nat.
Proof. eexists. split; reflexivity. Qed.
Example ex_mul : exists q c, qp_mul ex_q1 ex_q2 = Ok q /\ qp_eval q [1;7] = Ok c /\ (vn c, vd c) = (57, 1).
Proof. do 2 eexists. split; [reflexivity|]. split; reflexivity. Qed.
Example ex_pow : exists q c, qp_pow ex_q1 2 = Ok q /\ qp_eval q [1;7] = Ok c /\ (vn c, vd c) = (361, 4).
Proof. do 2 eexists. split; [reflexivity|]. split; reflexivity. Qed.
Example ex_scale : exists q c, qp_scale ex_q1 (mkv 2 3) = Ok q /\ qp_eval q [1;7] = Ok c /\ (vn c, vd c) = (19, 3).
Proof. do 2 eexists. split; [reflexivity|]. split; reflexivity. Qed.
Example ex_add_int : exists q c, qp_add_int ex_q1 5 = Ok q /\ qp_eval q [1;7] = Ok c /\ (vn c, vd c) = (29, 2).
Proof. do 2 eexists. split; [reflexivity|]. split; reflexivity. Qed.
Example ex_neg : exists c, qp_eval (qp_neg ex_q1) [1;7] = Ok c /\ (vn c, vd c) = (-19, 2).
Proof. eexists. split; reflexivity. Qed.
Example ex_plain : qp_plain_is_equal ex_q1 ex_q1 = true /\ qp_plain_is_equal ex_q1 ex_q2 = false.
Proof. split; reflexivity. Qed.
Example ex_spaces : qp_add ex_q1 (qp_zero (sp 2)) = Null.
Proof. reflexivity. Qed.

Print Assumptions C35_qp_defined.
Print Assumptions C35_extend_point.
Print Assumptions C35_merge_divs.
Print Assumptions C35_qp_add.
Print Assumptions C35_qp_sub.
Print Assumptions C35_qp_mul.
Print Assumptions C35_qp_spaces.
Print Assumptions C35_qp_add_int.
Print Assumptions C35_qp_mul_int.
Print Assumptions C35_qp_neg.
Print Assumptions C35_qp_scale.
Print Assumptions C35_qp_pow.
Print Assumptions C35_qp_eval.
Print Assumptions C35_qp_eval_void.
Print Assumptions C35_qp_plain_is_equal.
Print Assumptions C35_from_aff_refuted.
Print Assumptions C35_sort_divs_refuted.
Print Assumptions C35_move_dims_refuted.
