(** Properties of the simplification of basic maps (C45). *)
From Coq Require Import ZArith List Bool Lia Arith.
From Verif Require Import SeqModel SeqSpec MatModel BMapModel BMapSpec BMapSem BDupModel BElimModel BElimSpec TabModel TabMap SimpModel SimpSpec SimpFinal PropsBElim.
Import ListNotations.
Open Scope Z_scope.

(** C45: isl_basic_map_simplify does not change the points of a basic map and
    leaves it consistent, whatever the hash function, for every correct
    tableau.  The statement does not cover the termination of the loop *)
Theorem C45_simplify hash no_redundant tab fuel b b' : sound_tab tab -> good b -> simplify hash no_redundant tab fuel b = Ok b' ->
  same_space b b' /\ good b' /\ forall q, length q = (1 + nvar b)%nat -> admissible (b_rat b) q -> (points b q <-> points b' q).
Proof. intros T. exact (simplify_pres hash no_redundant tab T fuel b b'). Qed.
(** C45: the same for the tableau of isl_tab.c *)
Theorem C45_simplify_tab hash no_redundant tfuel fuel b b' : good b -> simplify hash no_redundant (tab_of tfuel) fuel b = Ok b' ->
  same_space b b' /\ good b' /\ forall q, length q = (1 + nvar b)%nat -> admissible (b_rat b) q -> (points b q <-> points b' q).
Proof. exact (simplify_pres hash no_redundant (tab_of tfuel) (tab_of_sound tfuel) fuel b b'). Qed.
(** C45: isl_basic_map_finalize does not change the points either *)
Theorem C45_finalize b : good b ->
  (same_space b (finalize b) /\ good (finalize b) /\ forall q, length q = (1 + nvar b)%nat -> admissible (b_rat b) q -> (points b q <-> points (finalize b) q)) /\
  (ordered b -> ordered (finalize b)).
Proof. exact (finalize_pres b). Qed.

(** x + y = 2 e, e = floor((x+y)/2), x - 3 y = 6 u, x >= 0, y <= 20 *)
Definition ex_s : bmap := mkb 0 0 2 [[0; 1; 1; -2; 0]; [0; 1; -3; 0; -6]] [[0; 1; 0; 0; 0]; [20; 0; -1; 0; 0]] [[2; 0; 1; 1; 0; 0]; [0; 0; 0; 0; 0; 0]] false false false.
Ltac five v L := destruct v as [|v0 [|v1 [|v2 [|v3 [|v4 [|]]]]]]; try discriminate L.
Example ex_s_good : good ex_s.
Proof.
  split; [repeat split; repeat constructor|]. split; [|split; [repeat (apply Forall_cons; [cbn; lia|]); apply Forall_nil|split; [|split; [discriminate|discriminate]]]].
  - exists (fun k => k). intros [|[|k]] [|[|j]]; cbn; intros; lia.
  - intros v L H1 [S1 S2]. five v L. inversion S1 as [|r l E1 _]. subst. unfold zero_on in E1. cbn [dot] in E1. cbn [hd] in H1. subst v0. intros [|[|k]] Hk; [right; cbn [ex_s b_div nth hd tl dot nvar b_param b_in b_out Nat.add]; lia|left; reflexivity|cbn in Hk; lia].
Qed.
(** the two congruences are rewritten to x = 3 floor(x/3), x + 3 y = 6 floor((x+3y)/6) *)
Example ex_s_result : simplify (fun _ => O) (fun _ => false) no_tab 3 ex_s =
  Ok (mkb 0 0 2 [[0; -1; -3; 0; 6]; [0; -1; 0; 3; 0]] [[0; 1; 0; 0; 0]; [20; 0; -1; 0; 0]] [[3; 0; 1; 0; 0; 0]; [6; 0; 1; 3; 0; 0]] false false true).
Proof. vm_compute. reflexivity. Qed.
Example ex_s_result_tab : simplify (fun _ => O) (fun _ => false) (tab_of 20) 3 ex_s =
  Ok (mkb 0 0 2 [[0; -1; -3; 0; 6]; [0; -1; 0; 3; 0]] [[0; 1; 0; 0; 0]; [20; 0; -1; 0; 0]] [[3; 0; 1; 0; 0; 0]; [6; 0; 1; 3; 0; 0]] false false true).
Proof. vm_compute. reflexivity. Qed.
(** e = floor(x/3) is not used *)
Definition ex_t : bmap := mkb 0 0 1 [] [[7; -1; 0]; [0; 1; -3]; [2; -1; 3]] [[3; 0; 1; 0]] false false false.
Example ex_t_good : good ex_t.
Proof.
  split; [repeat split; repeat constructor|]. split; [|split; [repeat (apply Forall_cons; [cbn; lia|]); apply Forall_nil|split; [|split; [discriminate|discriminate]]]].
  - exists (fun k => k). intros [|k] [|j]; cbn; intros; lia.
  - intros v L H1 [S1 S2]. destruct v as [|v0 [|v1 [|v2 [|]]]]; try discriminate L. inversion S2 as [|r l E1 S3]. subst. inversion S3 as [|r l E2 S4]. subst. inversion S4 as [|r l E3 _]. subst. unfold nonneg_on in *. cbn [dot] in *. cbn [hd] in H1. subst v0. intros [|k] Hk; [right; cbn [ex_t b_div nth hd tl dot nvar b_param b_in b_out Nat.add]; lia|cbn in Hk; lia].
Qed.
Example ex_t_result : finalize ex_t = mkb 0 0 1 [] [[7; -1]] [] false false false.
Proof. reflexivity. Qed.

Print Assumptions C45_simplify.
Print Assumptions C45_simplify_tab.
Print Assumptions C45_finalize.
