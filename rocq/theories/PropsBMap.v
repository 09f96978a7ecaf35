(** Properties of constraint normalization and Gaussian elimination on basic
    maps (C23, C24). *)
From Coq Require Import ZArith List Bool Lia Arith.
From Verif Require Import SeqModel SeqSpec MatModel BMapModel BMapSpec BMapSem BMapNorm BMapGauss BMapGauss2 BMapOrder.
Import ListNotations.
Open Scope Z_scope.

(** C24: the points do not change (integer points, or rational points for a
    rational basic map) *)
Theorem C24_normalize_points b : wf b ->
  forall p, length p = (1 + nvar b)%nat -> admissible (b_rat b) p -> (points b p <-> points (normalize_constraints b) p).
Proof. exact (fun W => proj1 (normalize_constraints_ok b W)). Qed.
(** the rational relaxation can only shrink *)
Theorem C24_normalize_relaxation b : wf b ->
  forall v, 0 < hd 0 v -> b_empty (normalize_constraints b) = false ->
  system (b_eq (normalize_constraints b)) (b_ineq (normalize_constraints b)) v -> system (b_eq b) (b_ineq b) v.
Proof. exact (fun W => proj1 (proj2 (normalize_constraints_ok b W))). Qed.
(** the coefficients of the remaining constraints have no common divisor *)
Theorem C24_normalize_reduced b : wf b -> b_empty (normalize_constraints b) = false ->
  Forall (reduced (b_rat b)) (b_eq (normalize_constraints b)) /\ Forall (reduced (b_rat b)) (b_ineq (normalize_constraints b)) /\
  b_div (normalize_constraints b) = b_div b.
Proof. exact (fun W => proj1 (proj2 (proj2 (normalize_constraints_ok b W)))). Qed.
Theorem C24_normalize_space b : wf b -> wf (normalize_constraints b) /\ nvar (normalize_constraints b) = nvar b /\ b_rat (normalize_constraints b) = b_rat b.
Proof. exact (fun W => proj2 (proj2 (proj2 (normalize_constraints_ok b W)))). Qed.

(** a basic set in two variables with 2x + 4y = 6 and 3x - 7 >= 0 *)
Definition ex_b : bmap := mkb 0 0 2 [[-6; 2; 4]] [[-7; 3; 0]] [] false false false.
Example ex_b_wf : wf ex_b.
Proof. repeat split; repeat constructor. Qed.
(** the bound x >= 7/3 is tightened to x >= 3 *)
Example ex_b_normalized : normalize_constraints ex_b = mkb 0 0 2 [[-3; 1; 2]] [[-3; 1; 0]] [] false false false.
Proof. reflexivity. Qed.
(** the point (3, 0) is in it, so the equivalence is not vacuous *)
Example ex_b_point : points ex_b [1; 3; 0] /\ admissible (b_rat ex_b) [1; 3; 0].
Proof. split; [split; [reflexivity|]; exists []; split; [reflexivity|]; split; repeat constructor; cbv; discriminate|split; [reflexivity|reflexivity]]. Qed.
(** 2x + 4y = 5 does not have integer solutions *)
Example ex_b_empty : b_empty (normalize_constraints (mkb 0 0 2 [[-5; 2; 4]] [] [] false false false)) = true.
Proof. reflexivity. Qed.
(** ... but it does have rational ones, so the flag matters *)
Example ex_b_rat : b_empty (normalize_constraints (mkb 0 0 2 [[-5; 2; 4]] [] [] true false false)) = false.
Proof. reflexivity. Qed.

(** C23: Gaussian elimination preserves the points, leaves the equalities in
    echelon form, and the definitions of the local variables remain implied *)
Theorem C23_gauss b : wf b -> acyclic b ->
  exists b' p, gauss b = Ok (b', p) /\ same_space b b' /\ wf b' /\ ordered b' /\ (denoms (b_div b) -> denoms (b_div b')) /\
   (forall q, length q = (1 + nvar b)%nat -> 0 < hd 0 q -> (points b q <-> points b' q)) /\
   (b_empty b = false -> b_empty b' = false -> exists ps, echelon (b_eq b') ps) /\
   (b_empty b' = false -> ndiv b' = ndiv b /\ (implied b -> implied b')).
Proof. exact (gauss_ok b). Qed.
(** the result is only marked empty if there are no points *)
Theorem C23_gauss_empty b b' p : wf b -> acyclic b -> gauss b = Ok (b', p) -> b_empty b' = true ->
  forall q, length q = (1 + nvar b)%nat -> 0 < hd 0 q -> ~ points b q.
Proof.
  exact (gauss_empty b b' p).
Qed.
(** ordering the integer divisions only renames local variables *)
Theorem C23_order_divs b : wf b -> acyclic b -> exists b', order_divs b = Ok b' /\ ordered b' /\
  (forall q, length q = (1 + nvar b)%nat -> (points b q <-> points b' q)) /\ (implied b -> implied b').
Proof.
  exact (order_divs_points b).
Qed.
(** without the hypothesis the computation does not end: two integer divisions
    that refer to each other *)
Definition ex_cyclic : bmap := mkb 0 0 0 [] [] [[2; 0; 0; 1]; [2; 0; 1; 0]] false false false.
Theorem C23_cyclic_definitions_diverge : forall fuel, order_divs_loop fuel ex_cyclic 0 = Div.
Proof. exact (fun fuel => nat_ind (fun f => order_divs_loop f ex_cyclic 0 = Div) eq_refl (fun f IH => IH) fuel). Qed.

(** x = 2 e1, y = x + e0 + 1 with e0 = floor(e1/2), e1 = floor(x/2): the integer
    divisions are in the wrong order *)
Definition ex_g : bmap := mkb 0 0 2
  [[0; 1; 0; 0; -2]; [1; 1; -1; 1; 0]] [[5; 0; 1; 0; 0]; [0; 0; 0; -2; 1]; [1; 0; 0; 2; -1]]
  [[2; 0; 0; 0; 0; 1]; [2; 0; 1; 0; 0; 0]] false false false.
Example ex_g_wf : wf ex_g /\ acyclic ex_g.
Proof.
  split; [repeat split; repeat constructor|]. exists (fun k => match k with O => 1 | _ => 0 end%nat). intros k j Hk Hj H N. cbv in Hk, Hj.
  destruct k as [|[|k]]; destruct j as [|[|j]]; try lia; cbv in N; congruence.
Qed.
Example ex_g_gauss : gauss ex_g = Ok (mkb 0 0 2
  [[1; 1; -1; 0; 1]; [0; -1; 0; 2; 0]] [[5; 0; 1; 0; 0]; [4; 5; -4; 0; 0]; [-2; -5; 4; 0; 0]]
  [[2; 0; 1; 0; 0; 0]; [4; 0; 1; 0; 0; 0]] false false false, true).
Proof. reflexivity. Qed.

Print Assumptions C24_normalize_points.
Print Assumptions C24_normalize_relaxation.
Print Assumptions C24_normalize_reduced.
Print Assumptions C24_normalize_space.
Print Assumptions C23_gauss.
Print Assumptions C23_gauss_empty.
Print Assumptions C23_order_divs.
Print Assumptions C23_cyclic_definitions_diverge.
