(** Properties of Fourier-Motzkin elimination (C26) and of the removal of
    redundant constraints. *)
From Coq Require Import ZArith List Bool Lia Arith Permutation Sorted.
From Verif Require Import SeqModel SeqSpec MatModel BMapModel BMapSpec BMapSem BMapLists BMapGauss BDupModel BElimModel BElimSpec BElimSort BElimCols BElimProofs BElimFM BElimVars.
Import ListNotations.
Open Scope Z_scope.

(** the variables that are eliminated *)
Definition among (pos n c : nat) : Prop := (pos <= c < pos + n)%nat.

(** C26: for a basic map with the RATIONAL flag, a rational point is in the
    result iff the eliminated variables can be chosen, after scaling up the
    homogeneous coordinates, such that it becomes a point of the original *)
Theorem C26_rational hash no_redundant tab b pos n : sound_tab tab -> wf b -> acyclic b -> b_empty b = false -> (pos + n <= total b)%nat -> b_rat b = true ->
  exists b', eliminate_vars hash no_redundant tab b pos n = Ok b' /\ same_space b b' /\ wf b' /\
   forall q, length q = (1 + nvar b)%nat -> 0 < hd 0 q ->
    (rational_point b' q <-> exists k q', 0 < k /\ agree (among pos n) (scale k q) q' /\ rational_point b q').
Proof. exact (eliminate_vars_rational hash no_redundant tab b pos n). Qed.
(** C26: every integer (or rational) point that differs from a point of the
    original in the eliminated variables only is in the result *)
Theorem C26_sound hash no_redundant tab b pos n : sound_tab tab -> wf b -> acyclic b -> b_empty b = false -> (pos + n <= total b)%nat ->
  exists b', eliminate_vars hash no_redundant tab b pos n = Ok b' /\ same_space b b' /\ wf b' /\ acyclic b' /\
   forall q q', length q = (1 + nvar b)%nat -> admissible (b_rat b) q -> points b q -> agree (among pos n) q q' -> points b' q'.
Proof. exact (eliminate_vars_sound hash no_redundant tab b pos n). Qed.
(** C26: the result does not involve the eliminated variables *)
Theorem C26_free hash no_redundant tab b pos n b' : sound_tab tab -> wf b -> acyclic b -> b_empty b = false -> (pos + n <= total b)%nat ->
  eliminate_vars hash no_redundant tab b pos n = Ok b' -> b_empty b' = false ->
  ndiv b' = ndiv b /\ forall c r, among pos n c -> In r (b_eq b') \/ In r (b_ineq b') -> nth (1 + c) r 0 = 0.
Proof. exact (eliminate_vars_free hash no_redundant tab b pos n b'). Qed.
(** isl_basic_map_remove_redundancies does not change the points *)
Theorem C26_remove_redundancies no_redundant tab b : sound_tab tab -> wf b -> acyclic b ->
  exists b', remove_redundancies no_redundant tab b = Ok b' /\ same_space b b' /\ wf b' /\ ordered b' /\
   forall q, length q = (1 + nvar b)%nat -> admissible (b_rat b) q -> (points b q <-> points b' q).
Proof. exact (remove_redundancies_points no_redundant tab b). Qed.
(** isl_basic_map_sort_constraints sorts the inequalities, by the position of
    their last coefficient first *)
Theorem C26_sort_constraints b : exists l, sort_constraints b = Ok (set_ineq b l) /\ Permutation (b_ineq b) l /\
  StronglySorted (fun x y => sort_constraint_cmp (total b) x y <= 0) l.
Proof. exact (sort_constraints_ok b). Qed.

(** a tableau that does not find anything *)
Definition no_tab (b : bmap) : bool * list kind := (false, []).
Example no_tab_sound : sound_tab no_tab.
Proof.
  intros b _ _ v _ _. cbn [fst snd no_tab]. unfold system, obeys. rewrite (Forall_nth_iff (nonneg_on v) _ []). apply and_iff_compat_l.
  split; intros H i Hi; specialize (H i Hi); destruct i; exact H.
Qed.
(** 2 x <= 3 y, x >= y - 1, x <= 5 with x eliminated *)
Definition ex_f : bmap := mkb 0 0 2 [] [[0; -2; 3]; [1; 1; -1]; [5; -1; 0]] [] true false false.
Example ex_f_wf : wf ex_f. Proof. repeat split; repeat constructor. Qed.
Example ex_f_acyclic : acyclic ex_f. Proof. exists (fun _ => O). intros k j Hk. cbv in Hk. lia. Qed.
Example ex_f_result : eliminate_vars (fun _ => O) (fun _ => false) no_tab ex_f 0 1 = Ok (mkb 0 0 2 [] [[2; 0; 1]; [6; 0; -1]] [] true false false).
Proof. reflexivity. Qed.
(** the second variable occurs in an equality: x = 2 y + e, e = floor(x/3), y >= 0 *)
Definition ex_g : bmap := mkb 0 0 2 [[0; 1; -2; -1]] [[0; 0; 1; 0]; [0; 1; 0; -3]; [2; -1; 0; 3]] [[3; 0; 1; 0; 0]] false false false.
Example ex_g_wf : wf ex_g. Proof. repeat split; repeat constructor. Qed.
Example ex_g_acyclic : acyclic ex_g.
Proof. exists (fun k => k). intros k j Hk Hj. assert (k = 0%nat) by (cbv in Hk; lia). assert (j = 0%nat) by (cbv in Hj; lia). subst. cbv. intros _ H. congruence. Qed.
Example ex_g_result : eliminate_vars (fun _ => O) (fun _ => false) no_tab ex_g 1 1 = Ok (mkb 0 0 2 [] [[0; 1; 0; -1]; [0; 1; 0; -3]; [2; -1; 0; 3]] [[3; 0; 1; 0; 0]] false false false).
Proof. reflexivity. Qed.

(** without the RATIONAL flag, rational points may be lost: x + y >= 1, x <= y
    with x eliminated becomes y >= 1, while x = y = 1/2 satisfies both *)
Definition ex_h : bmap := mkb 0 0 2 [] [[-1; 1; 1]; [0; -1; 1]] [] false false false.
Theorem C26_integer_flag_refuted : wf ex_h /\ acyclic ex_h /\ points ex_h [2; 1; 1] /\
  exists b', eliminate_vars (fun _ => O) (fun _ => false) no_tab ex_h 0 1 = Ok b' /\ ~ points b' [2; 1; 1].
Proof.
  split; [repeat split; repeat constructor|]. split; [exists (fun _ => O); intros k j Hk; cbv in Hk; lia|]. split; [split; [reflexivity|]; exists []; split; [reflexivity|]; split; repeat constructor; cbv; discriminate|].
  eexists. split; [reflexivity|]. intros (_ & e & _ & _ & H). inversion H as [|x l H1 H2]. apply H1. reflexivity.
Qed.

Print Assumptions C26_rational.
Print Assumptions C26_sound.
Print Assumptions C26_free.
Print Assumptions C26_remove_redundancies.
Print Assumptions C26_sort_constraints.
Print Assumptions C26_integer_flag_refuted.
