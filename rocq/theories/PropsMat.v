(** C21 and C22: Hermite normal form, rank, kernel, inverse, product and
    transposition of integer matrices. *)
From Coq Require Import ZArith List Bool Lia.
From Verif Require Import SeqModel SeqSpec MatModel MatSpec HermiteProofs2 InverseProofs InverseProofs2 MatProofs.
Import ListNotations.
Open Scope Z_scope.

Definition exM : list (list Z) := [[4; 6; 2]; [1; -3; 5]; [2; 0; 7]].
Definition exS : list (list Z) := [[4; 6; 2]; [2; 3; 1]; [2; 0; 7]].
Lemma exM_mat : is_mat 3 3 exM.
Proof. split; [reflexivity|]. intros [|[|[|r]]] Hr; try reflexivity. lia. Qed.
Lemma exS_mat : is_mat 3 3 exS.
Proof. split; [reflexivity|]. intros [|[|[|r]]] Hr; try reflexivity. lia. Qed.

(** ** C21 *)
(** Hermite normal form: [M U = H], [U] and [Q] are inverse integer matrices and
    [H] is in column echelon form with reduced elements.  The function
    terminates. *)
Theorem C21_left_hermite nr nc M neg : is_mat nr nc M ->
  exists s ps, left_hermite nr nc M neg = Some s /\
    is_mat nr nc (hM s) /\
    same nr nc (elt (hM s)) (times nc (elt M) (elt (hU s))) /\
    inverses nc (elt (hU s)) (elt (hQ s)) /\
    is_hermite nr nc neg (elt (hM s)) ps.
Proof. exact (left_hermite_spec nr nc M neg). Qed.
Print Assumptions C21_left_hermite.
Example C21_left_hermite_ex : is_mat 3 3 exM /\
  left_hermite 3 3 exM false = Some (mkh [[2; 0; 0]; [5; 9; 0]; [1; 0; 3]] [[4; 7; -2]; [-2; -4; 1]; [-1; -2; 1]] [[2; 3; 1]; [-1; -2; 0]; [0; -1; 2]]) /\
  left_hermite 3 3 exM true = Some (mkh [[2; 0; 0]; [-4; 9; 0]; [-2; 0; 3]] [[-1; 7; -2]; [1; -4; 1]; [0; -2; 1]] [[2; 3; 1]; [1; 1; 1]; [2; 2; 3]]) /\
  is_mat 3 3 exS /\ option_map hM (left_hermite 3 3 exS false) = Some [[2; 0; 0]; [1; 0; 0]; [1; 3; 0]].
Proof. split; [exact exM_mat|]. split; [reflexivity|]. split; [reflexivity|]. split; [exact exS_mat|reflexivity]. Qed.

(** isl_mat_rank computes the rank *)
Theorem C21_rank nr nc M : is_mat nr nc M -> exists k, mat_rank nr nc M = Some k /\ has_rank nr nc (elt M) k.
Proof. exact (rank_ok nr nc M). Qed.
Print Assumptions C21_rank.
Example C21_rank_ex : is_mat 3 3 exS /\ mat_rank 3 3 exS = Some 2%nat.
Proof. split; [exact exS_mat|reflexivity]. Qed.

(** isl_mat_right_kernel computes a basis of the integer kernel *)
Theorem C21_right_kernel nr nc M : is_mat nr nc M ->
  exists k K, mat_right_kernel nr nc M = Some (k, K) /\ kernel_basis nr nc (elt M) k (elt K).
Proof. exact (kernel_ok nr nc M). Qed.
Print Assumptions C21_right_kernel.
Example C21_right_kernel_ex : is_mat 3 3 exS /\ mat_right_kernel 3 3 exS = Some (1%nat, [[7]; [-4]; [-2]]) /\
  mat_right_kernel 1 3 [[2; 3; 5]] = Some (2%nat, [[3; 5]; [-2; -5]; [0; 1]]).
Proof. split; [exact exS_mat|]. split; reflexivity. Qed.

(** isl_mat_unimodular_complete keeps the given rows and returns a matrix with an
    integer inverse *)
Theorem C21_unimodular_complete n M row R : is_mat n n M -> (row <= n)%nat -> unimodular_complete n M row = Ok R ->
  (forall r c, (r < row)%nat -> (c < n)%nat -> elt R r c = elt M r c) /\ exists U, inverses n U (elt R).
Proof. exact (complete_ok n M row R). Qed.
Print Assumptions C21_unimodular_complete.
(** ... and only fails if there is no such matrix *)
Theorem C21_unimodular_complete_null n M row : is_mat n n M -> (row <= n)%nat -> unimodular_complete n M row = Null ->
  ~ exists R U, (forall r c, (r < row)%nat -> (c < n)%nat -> R r c = elt M r c) /\ inverses n U R.
Proof. exact (complete_null n M row). Qed.
Print Assumptions C21_unimodular_complete_null.
Theorem C21_unimodular_complete_total n M row : is_mat n n M -> (row <= n)%nat ->
  unimodular_complete n M row <> Div /\ unimodular_complete n M row <> UB.
Proof. exact (complete_terminates n M row). Qed.
Print Assumptions C21_unimodular_complete_total.
Example C21_unimodular_complete_ex :
  is_mat 3 3 [[2; 3; 5]; [0; 0; 0]; [0; 0; 0]] /\
  unimodular_complete 3 [[2; 3; 5]; [0; 0; 0]; [0; 0; 0]] 1 = Ok [[2; 3; 5]; [1; 1; 0]; [0; 0; 1]] /\
  unimodular_complete 3 [[2; 4; 6]; [0; 0; 0]; [0; 0; 0]] 1 = Null.
Proof.
  split; [split; [reflexivity|]; intros [|[|[|r]]] Hr; try reflexivity; lia|]. split; reflexivity.
Qed.

(** ** C22 *)
(** isl_mat_right_inverse: the result is an inverse up to a positive factor.  A
    square matrix is also inverted on the left.  The function only fails if the
    rows are dependent.  Missing: matrices without rows, see below *)
Theorem C22_right_inverse_partial nr nc M : is_mat nr nc M -> (1 <= nr)%nat ->
  match right_inverse nr nc M with
  | Ok inv => exists a, 0 < a /\ (nr <= nc)%nat /\
      (forall i j, (i < nr)%nat -> (j < nc)%nat -> times nc (elt M) (elt inv) i j = a * delta i j) /\
      (nr = nc -> forall i j, (i < nr)%nat -> (j < nr)%nat -> times nr (elt inv) (elt M) i j = a * delta i j)
  | Null => exists v, (exists r, (r < nr)%nat /\ v r <> 0) /\ forall c, (c < nc)%nat -> total nr (fun r => v r * elt M r c) = 0
  | _ => False
  end.
Proof. exact (right_inverse_ok nr nc M). Qed.
Print Assumptions C22_right_inverse_partial.
Example C22_right_inverse_ex : is_mat 3 3 exM /\
  right_inverse 3 3 exM = Ok [[7; 14; -12]; [-1; -8; 6]; [-2; -4; 6]] /\
  right_inverse 1 3 [[2; 3; 5]] = Ok [[-1; 3; 5]; [1; -2; -5]; [0; 0; 1]] /\
  right_inverse 3 3 exS = Null.
Proof. split; [exact exM_mat|]. split; [reflexivity|]. split; reflexivity. Qed.
(** isl_mat_right_inverse reads the first element of a matrix without rows
    (isl_mat.c:1179) *)
Theorem C22_right_inverse_no_rows_refuted : ~ forall nr nc M, is_mat nr nc M -> right_inverse nr nc M <> UB.
Proof. intros H. apply (H 0%nat 2%nat []); [|reflexivity]. split; [reflexivity|]. intros r Hr. inversion Hr. Qed.
Print Assumptions C22_right_inverse_no_rows_refuted.

(** isl_mat_inverse_product: the result is a solution up to a positive factor.
    The function only fails on singular matrices *)
Theorem C22_inverse_product n m L R : is_mat n n L -> is_mat n m R ->
  match inverse_product n m L R with
  | Ok X => exists a, 0 < a /\ (forall i j, (i < n)%nat -> (j < m)%nat -> times n (elt L) (elt X) i j = a * elt R i j) /\
      forall v, (forall r, (r < n)%nat -> apply n (elt L) v r = 0) -> forall r, (r < n)%nat -> v r = 0
  | Null => exists v, (exists r, (r < n)%nat /\ v r <> 0) /\ forall r, (r < n)%nat -> apply n (elt L) v r = 0
  | _ => False
  end.
Proof. exact (inverse_product_ok n m L R). Qed.
Print Assumptions C22_inverse_product.
Example C22_inverse_product_ex : is_mat 3 3 exM /\ is_mat 3 2 [[1; 2]; [3; 4]; [5; 7]] /\
  inverse_product 3 2 exM [[1; 2]; [3; 4]; [5; 7]] = Ok [[-11; -14]; [5; 8]; [16; 22]] /\
  inverse_product 3 2 exS [[1; 2]; [3; 4]; [5; 7]] = Null.
Proof.
  split; [exact exM_mat|]. split; [split; [reflexivity|]; intros [|[|[|r]]] Hr; try reflexivity; lia|]. split; reflexivity.
Qed.

(** isl_mat_product *)
Theorem C22_product nr n nc L R : is_mat nr n L -> is_mat nr nc (mat_product nr nc L R) /\
  forall i j, (i < nr)%nat -> (j < nc)%nat -> elt (mat_product nr nc L R) i j = times n (elt L) (elt R) i j.
Proof. exact (product_ok nr n nc L R). Qed.
Print Assumptions C22_product.
Example C22_product_ex : is_mat 3 3 exM /\ mat_product 3 3 exM exS = [[32; 42; 28]; [8; -3; 34]; [22; 12; 53]].
Proof. split; [exact exM_mat|reflexivity]. Qed.

(** isl_mat_transpose *)
Theorem C22_transpose nr nc M : is_mat nr nc M -> is_mat nc nr (mat_transpose nr nc M) /\
  forall i j, (i < nc)%nat -> (j < nr)%nat -> elt (mat_transpose nr nc M) i j = elt M j i.
Proof. exact (transpose_ok nr nc M). Qed.
Print Assumptions C22_transpose.
Example C22_transpose_ex : is_mat 3 3 exM /\ mat_transpose 3 3 exM = [[4; 1; 2]; [6; -3; 0]; [2; 5; 7]] /\
  mat_transpose 1 3 [[1; 2; 3]] = [[1]; [2]; [3]].
Proof. split; [exact exM_mat|]. split; reflexivity. Qed.

(** isl_mat_vec_product *)
Theorem C22_vec_product nr nc M v : is_mat nr nc M -> length v = nc ->
  length (mat_vec_product nr M v) = nr /\
  forall i, (i < nr)%nat -> nth i (mat_vec_product nr M v) 0 = apply nc (elt M) (fun k => nth k v 0) i.
Proof. exact (mat_vec_ok nr nc M v). Qed.
Print Assumptions C22_vec_product.
(** isl_vec_mat_product *)
Theorem C22_vec_mat_product nr nc M v : is_mat nr nc M -> length v = nr ->
  length (vec_mat_product nc v M) = nc /\
  forall j, (j < nc)%nat -> nth j (vec_mat_product nc v M) 0 = total nr (fun k => nth k v 0 * elt M k j).
Proof. exact (vec_mat_ok nr nc M v). Qed.
Print Assumptions C22_vec_mat_product.
Example C22_vec_product_ex : is_mat 3 3 exM /\ mat_vec_product 3 exM [1; 2; 3] = [22; 10; 23] /\ vec_mat_product 3 [1; 2; 3] exM = [12; 0; 33].
Proof. split; [exact exM_mat|]. split; reflexivity. Qed.

(** isl_mat_normalize divides by the greatest common divisor; the division is by
    zero on a zero matrix *)
Theorem C22_normalize nr nc M : is_mat nr nc M ->
  match mat_normalize nr M with
  | Ok M' => exists g, is_gcd g (concat M) /\ 0 < g /\ is_mat nr nc M' /\
       forall i j, (i < nr)%nat -> (j < nc)%nat -> elt M i j = g * elt M' i j
  | UB => forall i j, (i < nr)%nat -> (j < nc)%nat -> elt M i j = 0
  | _ => False
  end.
Proof. exact (normalize_mat_ok nr nc M). Qed.
Print Assumptions C22_normalize.
Example C22_normalize_ex : is_mat 2 2 [[4; 6]; [-8; 10]] /\ mat_normalize 2 [[4; 6]; [-8; 10]] = Ok [[2; 3]; [-4; 5]] /\
  mat_normalize 1 [[0; 0]] = UB.
Proof. split; [split; [reflexivity|]; intros [|[|r]] Hr; try reflexivity; lia|]. split; reflexivity. Qed.

(** isl_mat_is_scaled_identity *)
Theorem C22_is_scaled_identity nr nc M : is_mat nr nc M ->
  (mat_is_scaled_identity nr nc M = true <-> nr = nc /\ exists d, forall i j, (i < nr)%nat -> (j < nc)%nat -> elt M i j = d * delta i j).
Proof. exact (scaled_identity_ok nr nc M). Qed.
Print Assumptions C22_is_scaled_identity.
Example C22_is_scaled_identity_ex : is_mat 2 2 [[3; 0]; [0; 3]] /\ mat_is_scaled_identity 2 2 [[3; 0]; [0; 3]] = true /\
  mat_is_scaled_identity 2 2 [[3; 0]; [0; 4]] = false.
Proof. split; [split; [reflexivity|]; intros [|[|r]] Hr; try reflexivity; lia|]. split; reflexivity. Qed.
