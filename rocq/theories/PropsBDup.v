(** Properties of the removal of duplicate and opposite constraints (C25), for
    every hash function. *)
From Coq Require Import ZArith List Bool Lia Arith.
From Verif Require Import SeqModel SeqSpec MatModel BMapModel BMapSpec BMapSem BDupModel BDupProofs.
Import ListNotations.
Open Scope Z_scope.

(** the inequalities at positions [i] and [j] are opposite, up to the constant term *)
Definition opposite (l : list (list Z)) (i j : nat) : Prop :=
  (i < j < length l)%nat /\ tl (nth j l []) = map Z.opp (tl (nth i l [])).

(** C25: the points do not change, no two inequalities are parallel afterwards,
    and if no progress is reported, then all pairs of opposite inequalities have
    a positive slack *)
Theorem C25_remove_duplicate_constraints hash b detect : wf b -> b_empty b = false ->
  exists b' p, remove_duplicate_constraints hash b detect = Ok (b', p) /\ same_space b b' /\ wf b' /\
   (forall q, length q = (1 + nvar b)%nat -> 0 < hd 0 q -> (points b q <-> points b' q)) /\
   NoDup (map (@tl Z) (b_ineq b')) /\
   (b_empty b' = false -> ndiv b' = ndiv b /\ (implied b -> implied b') /\ (acyclic b -> acyclic b') /\ (denoms (b_div b) -> denoms (b_div b'))) /\
   (b_empty b' = false -> p = false -> b' = b /\ forall i j, opposite (b_ineq b) i j -> 0 < hd 0 (nth i (b_ineq b) []) + hd 0 (nth j (b_ineq b) [])).
Proof. exact (remove_duplicates_points hash b detect). Qed.
(** the result is only marked empty if there is not even a rational solution *)
Theorem C25_empty hash b detect b' p : wf b -> b_empty b = false -> remove_duplicate_constraints hash b detect = Ok (b', p) -> b_empty b' = true ->
  forall v, 0 < hd 0 v -> ~ system (b_eq b) (b_ineq b) v.
Proof. exact (remove_duplicates_empty hash b detect b' p). Qed.
(** isl_basic_map_detect_inequality_pairs ends, and afterwards there are no
    parallel inequalities and no opposite ones without slack *)
Theorem C25_detect_inequality_pairs hash b : wf b -> b_empty b = false ->
  exists b' p, detect_inequality_pairs hash b = Ok (b', p) /\ same_space b b' /\ wf b' /\
   (forall q, length q = (1 + nvar b)%nat -> 0 < hd 0 q -> (points b q <-> points b' q)) /\
   NoDup (map (@tl Z) (b_ineq b')) /\ (b_empty b' = false -> ndiv b' = ndiv b /\ (implied b -> implied b')) /\
   (b_empty b' = false -> forall i j, opposite (b_ineq b') i j -> 0 < hd 0 (nth i (b_ineq b') []) + hd 0 (nth j (b_ineq b') [])).
Proof. exact (detect_pairs_points hash b). Qed.

(** x >= 0, x >= -3, -x + 2y >= -1, x - 2y >= 1, y >= 0; a hash function that
    maps everything to the same value *)
Definition ex_d : bmap := mkb 0 0 2 [] [[0; 1; 0]; [3; 1; 0]; [1; -1; 2]; [-1; 1; -2]; [0; 0; 1]] [] false false false.
Example ex_d_wf : wf ex_d. Proof. repeat split; repeat constructor. Qed.
Example ex_d_result : remove_duplicate_constraints (fun _ => O) ex_d true = Ok (mkb 0 0 2 [[1; -1; 2]] [[0; 1; 0]; [0; 0; 1]] [] false false false, true).
Proof. reflexivity. Qed.
(** with another hash function *)
Example ex_d_result2 : remove_duplicate_constraints (fun r => Z.to_nat (hd 0 r)) ex_d true = Ok (mkb 0 0 2 [[1; -1; 2]] [[0; 1; 0]; [0; 0; 1]] [] false false false, true).
Proof. reflexivity. Qed.
Example ex_d_point : points ex_d [1; 1; 0] /\ points ex_d [1; 3; 1].
Proof. split; (split; [reflexivity|]; exists []; split; [reflexivity|]; split; repeat constructor; cbv; discriminate). Qed.
(** x >= 1 and x <= 0 *)
Example ex_d_empty : exists b', remove_duplicate_constraints (fun _ => O) (mkb 0 0 1 [] [[-1; 1]; [0; -1]] [] false false false) true = Ok (b', false) /\ b_empty b' = true.
Proof. eexists. split; reflexivity. Qed.
(** 0 <= x - 2 e <= 1 defines e as floor(x/2) *)
Example ex_d_div : remove_duplicate_constraints (fun _ => O) (mkb 0 0 1 [] [[0; 1; -2]; [1; -1; 2]] [[0; 0; 0; 0]] false false false) true =
  Ok (mkb 0 0 1 [] [[0; 1; -2]; [1; -1; 2]] [[2; 0; 1; 0]] false false false, true).
Proof. reflexivity. Qed.
(** isl_basic_map_detect_inequality_pairs handles several pairs *)
Example ex_d_pairs : detect_inequality_pairs (fun _ => O) (mkb 0 0 2 [] [[0; 1; 0]; [0; -1; 0]; [2; 0; 1]; [-2; 0; -1]] [] false false false) =
  Ok (mkb 0 0 2 [[2; 0; 1]; [0; 1; 0]] [] [] false false false, true).
Proof. reflexivity. Qed.

Print Assumptions C25_remove_duplicate_constraints.
Print Assumptions C25_empty.
Print Assumptions C25_detect_inequality_pairs.
