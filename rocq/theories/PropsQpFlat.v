(** C35: simplification of the integer divisions of a quasi-polynomial, insertion and moving of variables.

    sort_divs reorders integer divisions without adjusting references between them and remove_redundant_divs
    may drop integer divisions that are still referred to (PropsQp.v), so that the theorems that involve these
    functions require that no integer division refers to another one ([flat]). *)
From Coq Require Import ZArith List Bool QArith Arith Lia.
From Verif Require Import SeqModel SeqSpec MatModel ValModel LocalModel LocalSpec SpaceModel PolyModel PolySpec QpModel QpSpec QpProofs QpRefute QpReduce QpReduce2 QpFlat QpFlat2 QpMove.
Import ListNotations.
Open Scope Z_scope.

(** the second loop of reduce_divs (normalize_div, reduce_div, needs_invert and invert_div), followed by the
    substitution of the integer divisions; they may refer to each other *)
Theorem C35_reduce_loop q : wf_qp q -> let d := q_d q in let n := q_n q in
  let '(M, mat) := reduce_loop d (seq 0 n) (q_div q) (map (fun i => zupd (repeat 0 (1 + d + n)) (1 + d + i) 1) (seq 0 n)) in
  exists s p, affine_polys mat = Ok s /\ poly_subs (q_poly q) d n s = Ok p /\ wf_qp (mkqp (q_sp q) M p) /\ length M = n /\
    forall v r, qvalue q v r -> qvalue (mkqp (q_sp q) M p) v r.
Proof. exact (reduce_loop_value q). Qed.
(** substitute_non_divs: the integer divisions with denominator one are replaced by their values; they may refer to each other *)
Theorem C35_substitute_non_divs q fuel i : wf_qp q -> exists q', substitute_non_divs fuel i q = Ok q' /\ wf_qp q' /\ q_sp q' = q_sp q /\ (q_n q' <= q_n q)%nat /\
  forall v r, qvalue q v r -> qvalue q' v r.
Proof. exact (non_divs_value q fuel i). Qed.
(** sort_divs *)
Theorem C35_sort_divs_flat qsort q : sorts qsort -> wf_qp q -> flat (q_d q) (q_div q) ->
  exists q', sort_divs qsort q = Ok q' /\ wf_qp q' /\ q_sp q' = q_sp q /\ (q_n q' <= q_n q)%nat /\ forall v r, qvalue q v r -> qvalue q' v r.
Proof. exact (sort_value qsort q). Qed.
(** reduce_divs; the recursion is bounded by the number of integer divisions *)
Theorem C35_reduce_divs_flat qsort fuel q : sorts qsort -> wf_qp q -> flat (q_d q) (q_div q) -> (q_n q < fuel)%nat ->
  exists q', reduce_divs qsort fuel q = Ok q' /\ wf_qp q' /\ q_sp q' = q_sp q /\ (q_n q' <= q_n q)%nat /\ forall v r, qvalue q v r -> qvalue q' v r.
Proof. exact (reduce_value qsort fuel q). Qed.
(** remove_redundant_divs *)
Theorem C35_remove_redundant_divs_flat q : wf_qp q -> flat (q_d q) (q_div q) ->
  exists q', remove_redundant_divs q = Ok q' /\ wf_qp q' /\ q_sp q' = q_sp q /\ (q_n q' <= q_n q)%nat /\ forall v r, qvalue q v r -> qvalue q' v r.
Proof. exact (remove_redundant_value q). Qed.
(** isl_qpolynomial_from_aff *)
Theorem C35_from_aff_flat qsort s M a : sorts qsort -> wf_divs (dim_all s) M -> known M -> flat (dim_all s) M -> length a = (2 + dim_all s + length M)%nat -> 0 < nth 0 a 0 ->
  exists q, qp_from_aff qsort s M a = Ok q /\ wf_qp q /\ q_sp q = s /\ forall v r, aff_value (dim_all s) M a v r -> qvalue q v r.
Proof. exact (fun H => from_aff_flat qsort H s M a). Qed.
(** isl_qpolynomial_insert_dims: the value does not depend on the new variables; the integer divisions may refer to each other *)
Theorem C35_insert_dims q g n s : wf_qp q -> (g <= q_d q)%nat -> dim_all s = (q_d q + n)%nat ->
  exists M p, qp_insert q g n = Ok (M, p) /\ wf_qp (mkqp s M p) /\
    forall u v r, length u = n -> qvalue q v r -> qvalue (mkqp s M p) (firstn (1 + g) v ++ u ++ skipn (1 + g) v) r.
Proof. exact (insert_ok q g n s). Qed.
(** isl_qpolynomial_move_dims *)
Theorem C35_move_dims_flat qsort q s dst src n : sorts qsort -> wf_qp q -> flat (q_d q) (q_div q) -> (src + n <= q_d q)%nat -> (dst + n <= q_d q)%nat -> dim_all s = q_d q ->
  exists q', qp_move qsort s q dst src n = Ok q' /\ wf_qp q' /\ forall v v' r, moved (q_d q) dst src n v v' -> qvalue q v r -> qvalue q' v' r.
Proof. exact (move_flat qsort q s dst src n). Qed.

(** ** Examples *)
(** floor((7x+3)/2), floor(2x/4) and floor((3x+3)/4) in one variable *)
Definition ex_flat : mat := [[2;3;7;0;0;0];[4;0;2;0;0;0];[4;3;3;0;0;0]].
Definition ex_fq : qp := mkqp (sp 1) ex_flat (Rec 3 [Rec 1 [Cst 0 1; Cst 1 1]; Rec 2 [Cst 0 1; Cst 1 1]]).
Example ex_fq_wf : wf_qp ex_fq.
Proof. destruct (wf_b_ok 1 ex_flat eq_refl) as (W & K). split; [exact W|]. split; [exact K|]. cbn. repeat split; lia. Qed.
Lemma flat_b d M : forallb (fun r => forallb (Z.eqb 0) (skipn (2 + d) r)) M = true -> flat d M.
Proof.
  intros H j k Hk. destruct (Nat.lt_ge_cases j (length M)) as [Hj|Hj]; [|rewrite (nth_overflow M) by lia; destruct k; reflexivity]. rewrite forallb_forall in H. specialize (H _ (nth_In M [] Hj)). rewrite forallb_forall in H.
  destruct (Nat.lt_ge_cases k (length (nth j M []))) as [Hl|Hl]; [|apply nth_overflow; exact Hl]. assert (E : nth k (nth j M []) 0 = nth (k - (2 + d)) (skipn (2 + d) (nth j M [])) 0) by (rewrite SeqProofs.nth_skipn; f_equal; lia).
  rewrite E. specialize (H (nth (k - (2 + d)) (skipn (2 + d) (nth j M [])) 0)). apply Z.eqb_eq in H; [symmetry; exact H|]. apply nth_In. rewrite skipn_length. lia.
Qed.
Example ex_fq_flat : flat (q_d ex_fq) (q_div ex_fq).
Proof. apply flat_b. reflexivity. Qed.
(** the first two integer divisions become equal, the third one is inverted *)
Example ex_reduced : exists q c c', reduce_divs isort 4 ex_fq = Ok q /\ q_div q = [[2;0;1;0;0];[4;0;1;0;0]] /\ qp_eval ex_fq [1;7] = Ok c /\ qp_eval q [1;7] = Ok c' /\ (vn c, vd c) = (vn c', vd c') /\ (vn c, vd c) = (44, 1).
Proof. do 3 eexists. split; [vm_compute; reflexivity|]. split; [vm_compute; reflexivity|]. split; [vm_compute; reflexivity|]. split; [vm_compute; reflexivity|]. split; reflexivity. Qed.
(** (2 floor(x/2) + 3 floor((x+1)/3))/2, with an integer division that is not used *)
Definition ex_fa : list Z := [2;1;0;2;3;0].
Definition ex_fM : mat := [[2;0;1;0;0;0];[3;1;1;0;0;0];[5;0;1;0;0;0]].
Example ex_from_aff : wf_divs 1 ex_fM /\ known ex_fM /\ flat 1 ex_fM /\ exists q c, qp_from_aff isort (sp 1) ex_fM ex_fa = Ok q /\ q_n q = 2%nat /\ qp_eval q [1;8] = Ok c /\ (vn c, vd c) = (9, 1).
Proof.
  destruct (wf_b_ok 1 ex_fM eq_refl) as (W & K). split; [exact W|]. split; [exact K|]. split; [apply flat_b; reflexivity|]. do 2 eexists. split; [vm_compute; reflexivity|]. split; [reflexivity|]. split; vm_compute; reflexivity.
Qed.
Example ex_insert : exists M p c, qp_insert ex_fq 0 2 = Ok (M, p) /\ qp_eval (mkqp (sp 3) M p) [1;5;-5;7] = Ok c /\ (vn c, vd c) = (44, 1).
Proof. do 3 eexists. split; [vm_compute; reflexivity|]. split; vm_compute; reflexivity. Qed.
(** floor(x/2) z + floor((y + z)/3) *)
Definition ex_mq : qp := mkqp (sp 3) [[2;0;1;0;0;0;0];[3;0;0;1;1;0;0]] (Rec 4 [Rec 3 [Cst 0 1; Rec 2 [Cst 0 1; Cst 1 1]]; Cst 1 1]).
Example ex_move : moved 3 2 0 1 [1;5;6;7] [1;6;7;5] /\ exists q c c', qp_move isort (sp 3) ex_mq 2 0 1 = Ok q /\ qp_eval ex_mq [1;5;6;7] = Ok c /\ qp_eval q [1;6;7;5] = Ok c' /\ (vn c, vd c) = (18, 1) /\ (vn c', vd c') = (18, 1).
Proof.
  split; [apply (moved_up 3 2 0 1 [] [6;7] [5] []); cbn; lia|]. do 3 eexists. split; [vm_compute; reflexivity|]. split; [vm_compute; reflexivity|]. split; [vm_compute; reflexivity|]. split; reflexivity.
Qed.
Example ex_move_wf : wf_qp ex_mq /\ flat (q_d ex_mq) (q_div ex_mq).
Proof. split; [|apply flat_b; reflexivity]. destruct (wf_b_ok 3 [[2;0;1;0;0;0;0];[3;0;0;1;1;0;0]] eq_refl) as (W & K). split; [exact W|]. split; [exact K|]. cbn. repeat split; lia. Qed.
(** x + floor(x + 2 floor(x/2)) where the second integer division has denominator one and refers to the first *)
Definition ex_nq : qp := mkqp (sp 1) [[2;0;1;0;0];[1;0;1;2;0]] (Rec 2 [Rec 0 [Cst 0 1; Cst 1 1]; Cst 1 1]).
Example ex_non_divs : wf_qp ex_nq /\ exists q c, substitute_non_divs 2 0 ex_nq = Ok q /\ q_n q = 1%nat /\ qp_eval q [1;7] = Ok c /\ (vn c, vd c) = (20, 1).
Proof.
  split; [destruct (wf_b_ok 1 [[2;0;1;0;0];[1;0;1;2;0]] eq_refl) as (W & K); split; [exact W|]; split; [exact K|]; cbn; repeat split; lia|]. do 2 eexists. split; [vm_compute; reflexivity|]. split; [reflexivity|]. split; vm_compute; reflexivity.
Qed.

Print Assumptions C35_reduce_loop.
Print Assumptions C35_substitute_non_divs.
Print Assumptions C35_sort_divs_flat.
Print Assumptions C35_reduce_divs_flat.
Print Assumptions C35_remove_redundant_divs_flat.
Print Assumptions C35_from_aff_flat.
Print Assumptions C35_insert_dims.
Print Assumptions C35_move_dims_flat.
