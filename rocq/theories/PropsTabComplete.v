(** The tableaus find all implicit equalities and all redundant constraints (C47).

    The theorems C31_detect_equalities and C31_detect_redundant in PropsTab.v say
    that what isl_tab_detect_implicit_equalities and isl_tab_detect_redundant
    report is right.  The theorems below say that they do not miss anything: a
    constraint that is not reported has a point as evidence.  The evidence is a
    rational point, as it is for the code. *)
From Coq Require Import ZArith List Bool Lia Arith.
From Verif Require Import SeqModel SeqSpec MatModel BMapModel BMapSpec BMapSem BElimModel BElimSpec BElimProofs PropsBElim TabModel TabSpec TabBase TabStep TabClose TabDetect TabMap TabComplete TabComplete2 TabHold TabComplete3 PropsTab.
Import ListNotations.
Open Scope Z_scope.

(** C47: an inequality constraint that is not reported to be an equality, nor
    redundant, after isl_tab_detect_implicit_equalities is positive at some
    point that satisfies all constraints *)
Theorem C47_detect_equalities int L fuel t : represents int L t -> sample_ok None t -> marks_ok t -> (t_rat t = false -> int = true) ->
  wp (detect_implicit_equalities fuel t) (fun t' => t_empty t' = false -> forall c, (c < t_ncon t')%nat ->
    v_nonneg (t_info t' (con c)) = true -> v_frozen (t_info t' (con c)) = false -> is_equality t' c = false -> is_redundant t' c = false ->
    exists p, 0 < hd 0 p /\ feas L t' p /\ 0 < value L p (con c)).
Proof. exact (equalities_complete int L fuel t). Qed.
(** C47: an inequality constraint that is not reported to be an equality, nor
    redundant, after isl_tab_detect_redundant is needed: some point violates it
    and satisfies all other constraints that are not reported to be redundant.  If
    the tableau is not marked rational, then the point violates the constraint by
    at least one *)
Theorem C47_detect_redundant int L fuel t : represents int L t -> sample_ok None t -> marks_ok t -> (t_rat t = false -> int = true) ->
  wp (detect_redundant fuel t) (fun t' => t_empty t' = false -> forall c, (c < t_ncon t')%nat ->
    v_nonneg (t_info t' (con c)) = true -> v_frozen (t_info t' (con c)) = false -> is_equality t' c = false -> is_redundant t' c = false ->
    exists p, 0 < hd 0 p /\ length p = (1 + t_nvar t')%nat /\
      (forall d, (d < t_ncon t')%nat -> is_equality t' d = true -> value L p (con d) = 0) /\
      (forall d, (d < t_ncon t')%nat -> v_nonneg (t_info t' (con d)) = true -> is_redundant t' d = false -> d <> c -> 0 <= value L p (con d)) /\
      value L p (con c) < 0 /\ (t_rat t' = false -> value L p (con c) <= - hd 0 p)).
Proof. exact (redundant_complete int L fuel t). Qed.

(** C47: what isl_basic_map_remove_redundancies learns from its tableau: an
    inequality that is neither found to be an equality nor redundant cannot be
    removed, since a point violates it, by at least one if the basic map is not
    rational, and satisfies everything else that is kept *)
Theorem C47_redundancy_tab fuel b t i : wf b -> b_empty b = false -> redundancy_tab fuel b = Ok t -> t_empty t = false -> (i < length (b_ineq b))%nat ->
  nth i (tab_kinds t (length (b_ineq b))) Other = Other ->
  exists p, 0 < hd 0 p /\ length p = (1 + total b)%nat /\ Forall (zero_on p) (b_eq b) /\
    (forall j, (j < length (b_ineq b))%nat -> j <> i ->
      match nth j (tab_kinds t (length (b_ineq b))) Other with Equality => zero_on p (nth j (b_ineq b) []) | Redundant => True | Other => nonneg_on p (nth j (b_ineq b) []) end) /\
    dot (nth i (b_ineq b) []) p < 0 /\ (b_rat b = false -> dot (nth i (b_ineq b) []) p <= - hd 0 p).
Proof. exact (redundancy_minimal fuel b t i). Qed.

(** 0 <= x <= 5, 0 <= y <= 3, x + y <= 9, x + y <= 7: the fifth constraint is
    redundant, the others are not, and there are no equalities *)
Definition ex_tc : bmap := mkb 0 0 2 [] [[0; 1; 0]; [5; -1; 0]; [0; 0; 1]; [3; 0; -1]; [9; -1; -1]; [7; -1; -1]] [] false false false.
Example ex_tc_wf : wf ex_tc. Proof. repeat split; repeat constructor. Qed.
Example ex_tc_tab : exists t, from_basic_map 100 ex_tc = Ok t /\ t_empty t = false /\ represents false (b_eq ex_tc ++ b_ineq ex_tc) t /\ sample_ok None t /\ marks_ok t.
Proof.
  pose proof (C31_from_basic_map 100 ex_tc ex_tc_wf eq_refl) as H. assert (E : match from_basic_map 100 ex_tc with Ok t => t_empty t = false | _ => False end) by (vm_compute; reflexivity).
  destruct (from_basic_map 100 ex_tc) as [t| | |]; try contradiction. rewrite E in H. exists t. split; [reflexivity|]. split; [exact E|]. split; [apply H|]. split; apply H.
Qed.
Example ex_tc_equalities : match from_basic_map 100 ex_tc with
  | Ok t => match detect_implicit_equalities 100 t with
            | Ok t' => t_empty t' = false /\ map (fun c => v_nonneg (t_info t' (con c)) && negb (v_frozen (t_info t' (con c)) || is_equality t' c || is_redundant t' c)) [0; 1; 2; 3; 4; 5]%nat = [true; true; true; true; false; true]
            | _ => False end
  | _ => False end.
Proof. vm_compute. split; reflexivity. Qed.
Example ex_tc_redundant : match from_basic_map 100 ex_tc with
  | Ok t => match detect_redundant 100 t with
            | Ok t' => t_empty t' = false /\ map (fun c => v_nonneg (t_info t' (con c)) && negb (v_frozen (t_info t' (con c)) || is_equality t' c || is_redundant t' c)) [0; 1; 2; 3; 4; 5]%nat = [true; true; true; true; false; true]
            | _ => False end
  | _ => False end.
Proof. vm_compute. split; reflexivity. Qed.
Example ex_tc_kinds : match redundancy_tab 100 ex_tc with Ok t => t_empty t = false /\ tab_kinds t 6 = [Other; Other; Other; Other; Redundant; Other] | _ => False end.
Proof. vm_compute. split; reflexivity. Qed.
(** the point (5, 3) violates x + y <= 7 by one and satisfies the other
    constraints that are kept *)
Example ex_tc_needed : dot [7; -1; -1] [1; 5; 3] = -1 /\ Forall (nonneg_on [1; 5; 3]) [[0; 1; 0]; [5; -1; 0]; [0; 0; 1]; [3; 0; -1]].
Proof. split; [reflexivity|]. repeat constructor; unfold nonneg_on; cbn; lia. Qed.

Print Assumptions C47_detect_equalities.
Print Assumptions C47_detect_redundant.
Print Assumptions C47_redundancy_tab.
