(** Properties of variable and parameter compression (C44). *)
From Coq Require Import ZArith List Bool Lia.
From Verif Require Import SeqModel MatModel MatSpec EqModel EqSpec EqProofs EqProofs2 EqProofs4 InverseMin.
Import ListNotations.
Open Scope Z_scope.

(** isl_mat_final_variable_compression: the integer solutions of the equalities
    are the integer images of T, with T2 recovering the compressed variables;
    an empty result only if there are no integer solutions; NULL only if the
    final variables do not have equalities of full row rank *)
Theorem C44_final_variable_compression m first n B : is_mat m (1 + first + n) B ->
  match final_variable_compression m first n B with
  | Ok (Some (T, T2)) =>
      is_mat (1 + first + n) (1 + first + (n - m)) T /\ is_mat (1 + first + (n - m)) (1 + first + n) T2 /\
      (first = O -> elt T 0 0 = 1) /\
      compresses (1 + first + n) (1 + first + (n - m)) (elt T) (elt T2) (satisfies m (1 + first + n) (elt B))
  | Ok None => forall v, homogeneous v -> ~ satisfies m (1 + first + n) (elt B) v
  | Null => (n < m)%nat \/ exists k, (k < m)%nat /\ has_rank m n (fun i j => elt B i (1 + first + j)) k
  | _ => False
  end.
Proof. exact (final_variable_compression_ok m first n B). Qed.
Print Assumptions C44_final_variable_compression.
(* 3 + y = 2 a + 4 b, with a parameter y *)
Example C44_final_variable_compression_ex : is_mat 1 4 [[3; 1; -2; -4]] /\
  final_variable_compression 1 1 2 [[3; 1; -2; -4]] = Ok (Some ([[2; 0; 0]; [0; 2; 0]; [3; 1; -4]; [0; 0; 2]], [[1; 0; 0; 0]; [0; 1; 0; 0]; [0; 0; 0; 1]])) /\
  final_variable_compression 1 0 2 [[3; -2; -4]] = Ok None /\
  final_variable_compression 2 0 2 [[3; -2; -4]; [1; 1; 2]] = Null.
Proof. split; [split; [reflexivity|]; intros [|r] Hr; [reflexivity|lia]|]. repeat split; vm_compute; reflexivity. Qed.

(** isl_mat_parameter_compression: an affine bijection from all integer points
    onto the solutions of the congruences B v = 0 mod d; a zero-column result
    if and only if there is no solution; no failure, no failed assertion.  The
    linear part is lower triangular and reduced *)
Theorem C44_parameter_compression m n B d : is_mat m (1 + n) B -> length d = m -> (forall x, In x d -> 0 < x) ->
  match parameter_compression m n B d with
  | Ok (Some T) => is_mat (1 + n) (1 + n) T /\ parametrizes (1 + n) (elt T) (congruent m (1 + n) (elt B) (fun i => nth i d 0)) /\
      elt T 0 0 = 1 /\ reduced_triangular (1 + n) (elt T)
  | Ok None => forall v, homogeneous v -> ~ congruent m (1 + n) (elt B) (fun i => nth i d 0) v
  | _ => False
  end.
Proof. exact (parameter_compression_ok m n B d). Qed.
Print Assumptions C44_parameter_compression.
Example C44_parameter_compression_ex : is_mat 2 3 [[1; 2; 3]; [2; 1; 1]] /\
  parameter_compression 2 2 [[1; 2; 3]; [2; 1; 1]] [5; 4] = Ok (Some [[1; 0; 0]; [42; 1; 0]; [0; 11; 20]]) /\
  parameter_compression 2 2 [[0; 2; 4]; [2; 6; 4]] [8; 9] = Ok (Some [[1; 0; 0]; [-14; 2; 0]; [7; 15; 18]]) /\
  parameter_compression 1 2 [[1; 2; 3]] [5] = Ok (Some [[1; 0; 0]; [-8; 1; 0]; [0; 1; 5]]) /\
  parameter_compression 2 2 [[0; 2; 4]; [1; 6; 4]] [8; 2] = Ok None.
Proof. split; [split; [reflexivity|]; intros [|[|r]] Hr; [reflexivity|reflexivity|lia]|]. repeat split; vm_compute; reflexivity. Qed.

(** particular_solution: a solution of the congruences is found if there is one *)
Theorem C44_particular_solution m n B d : (forall i, (i < m)%nat -> 0 < nth i d 0) ->
  match particular_solution m n B d with
  | Ok (Some cst) => is_mat n 1 cst /\ congruent m (1 + n) (elt B) (fun i => nth i d 0) (fun i => match i with O => 1 | S j => elt cst j 0 end)
  | Ok None => forall v, homogeneous v -> ~ congruent m (1 + n) (elt B) (fun i => nth i d 0) v
  | _ => False
  end.
Proof. exact (particular_solution_ok m n B d). Qed.
Print Assumptions C44_particular_solution.
Example C44_particular_solution_ex : (forall i, (i < 2)%nat -> 0 < nth i [5; 4] 0) /\
  particular_solution 2 2 [[1; 2; 3]; [2; 1; 1]] [5; 4] = Ok (Some [[42]; [0]]) /\
  particular_solution 2 2 [[0; 2; 4]; [1; 6; 4]] [8; 2] = Ok None.
Proof. split; [intros [|[|i]] Hi; cbn; lia|]. split; vm_compute; reflexivity. Qed.

(** the common denominator of isl_mat_right_inverse is the smallest possible *)
Theorem C22_right_inverse_minimal n M inv : is_mat n n M -> (1 <= n)%nat -> right_inverse n n M = Ok inv ->
  forall W b, (forall i j, (i < n)%nat -> (j < n)%nat -> times n (elt M) W i j = b * delta i j) ->
  (times n (elt M) (elt inv) 0 0 | b).
Proof. exact (right_inverse_min n M inv). Qed.
Print Assumptions C22_right_inverse_minimal.
Example C22_right_inverse_minimal_ex : right_inverse 2 2 [[2; 0]; [0; 4]] = Ok [[2; 0]; [0; 1]] /\
  times 2 (elt [[2; 0]; [0; 4]]) (elt [[2; 0]; [0; 1]]) 0 0 = 4 /\
  forall i j, (i < 2)%nat -> (j < 2)%nat -> times 2 (elt [[2; 0]; [0; 4]]) (elt [[4; 0]; [0; 2]]) i j = 8 * delta i j.
Proof. split; [vm_compute; reflexivity|]. split; [vm_compute; reflexivity|]. intros [|[|i]] [|[|j]] Hi Hj; try lia; vm_compute; reflexivity. Qed.
