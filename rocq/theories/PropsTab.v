(** Properties of the simplex tableaus (C31).

    [represents int L t] (TabSpec.v): tableau [t] is a tableau for the affine
    expressions [L] of its constraints: its rows are consequences of these
    expressions, its columns are independent, and its marks (zero, redundant)
    follow from the constraints, at all integer points if [int], at all rational
    points otherwise.  [feas L t p]: point [p] satisfies the constraints of [t].
    [wp r Q]: [r] is a result that satisfies [Q], or the fuel ran out; in
    particular it is not an error return or an access out of range. *)
From Coq Require Import ZArith List Bool Lia Arith.
From Verif Require Import SeqModel SeqSpec MatModel BMapModel BMapSpec BMapSem BElimModel BElimSpec BElimProofs BElimFM BElimVars PropsBElim TabModel TabSpec TabBase TabStep TabSign TabMin TabKill TabAdd TabClose TabCut TabDetect TabRestore TabBuild TabMap.
Import ListNotations.
Open Scope Z_scope.

(** C31: at every point that satisfies the constraints, every row gives the value
    of its variable in terms of those of the columns *)
Theorem C31_rows int L t p i : represents int L t -> feas L t p -> (i < nrow t)%nat ->
  0 < den t i /\ den t i * value L p (rowv t i) = dot (tl (nth i (t_rows t) [])) (hd 0 p :: map (value L p) (t_cv t)).
Proof. exact (rows_hold int L t p i). Qed.
(** C31: isl_tab_pivot on a non-zero element of a live row and column *)
Theorem C31_pivot int L t i c : represents int L t -> (t_red t <= i < nrow t)%nat -> (t_dead t <= c < ncol t)%nat -> cf t i c <> 0 ->
  wp (pivot t i c) (fun t' => represents int L t' /\ forall p, 0 < hd 0 p -> (feas L t' p <-> feas L t p)).
Proof. exact (pivot_keeps int L t i c). Qed.
(** C31: the sample value is a rational point that satisfies all constraints *)
Theorem C31_sample int L t : represents int L t -> sample_ok None t ->
  exists p, 0 < hd 0 p /\ feas L t p /\ forall i, (i < nrow t)%nat -> den t i * value L p (rowv t i) = hd 0 p * cst t i.
Proof. exact (sample_feasible int L t). Qed.
(** C31: isl_tab_add_ineq; the sample value satisfies all constraints again,
    unless the tableau is found to be empty, in which case it has no (rational)
    points *)
Theorem C31_add_ineq int L t fuel ineq : represents int L t -> sample_ok None t -> t_cone t = false -> t_empty t = false -> length ineq = (1 + t_nvar t)%nat ->
  wp (add_ineq fuel t ineq) (fun t' => represents int (L ++ [ineq]) t' /\
    (forall p, adm int p -> (feas (L ++ [ineq]) t' p <-> feas L t p /\ 0 <= dot ineq p)) /\
    if t_empty t' then forall p, adm int p -> feas L t p -> ~ 0 <= dot ineq p else sample_ok None t').
Proof. exact (add_ineq_keeps int L t fuel ineq). Qed.
(** C31: add_eq (on a tableau without inequalities); an error is only returned if
    the equality is a combination of the constraints, up to the constant term *)
Theorem C31_add_eq L t e : represents false L t -> quiet t -> length e = (1 + t_nvar t)%nat ->
  match add_eq0 t e with
  | Ok t' => represents false (L ++ [e]) t' /\ quiet t' /\ forall p, 0 < hd 0 p -> (feas (L ++ [e]) t' p <-> feas L t p /\ dot e p = 0)
  | Null => dependent (t_nvar t) L e
  | UB => False
  | Div => True
  end.
Proof. exact (add_eq_keeps L t e). Qed.
(** C31: isl_tab_detect_implicit_equalities *)
Theorem C31_detect_equalities int L fuel t : represents int L t -> sample_ok None t -> marks_ok t -> (t_rat t = false -> int = true) ->
  wp (detect_implicit_equalities fuel t) (fun t' => represents int L t' /\ sample_ok None t' /\ marks_ok t' /\ (forall p, adm int p -> (feas L t' p <-> feas L t p)) /\
    (t_empty t' = true -> t_empty t = true \/ forall p, adm int p -> ~ feas L t p)).
Proof. exact (detect_eq_keeps int L fuel t). Qed.
(** C31: isl_tab_detect_redundant *)
Theorem C31_detect_redundant int L fuel t : represents int L t -> sample_ok None t -> marks_ok t -> (t_rat t = false -> int = true) ->
  wp (detect_redundant fuel t) (fun t' => represents int L t' /\ sample_ok None t' /\ marks_ok t' /\ (forall p, adm int p -> (feas L t' p <-> feas L t p)) /\
    (t_empty t' = true -> t_empty t = true \/ forall p, adm int p -> ~ feas L t p)).
Proof. exact (detect_red_keeps int L fuel t). Qed.
(** C31: isl_tab_restore_redundant *)
Theorem C31_restore_redundant L fuel t : represents false L t -> sample_ok None t -> marks_ok t -> t_undo t = false ->
  wp (restore_redundant fuel t) (fun t' => represents false L t' /\ sample_ok None t' /\ marks_ok t' /\ forall p, adm false p -> (feas L t' p <-> feas L t p)).
Proof. exact (restore_keeps L fuel t). Qed.
(** C31: the sign of the maximal value of a constraint, as sign_of_max finds it *)
Theorem C31_sign_of_max int L v fuel t : represents int L t -> live t v -> sample_ok None t ->
  wp (sign_of_max fuel t v) (fun '(t', s) => represents int L t' /\ sample_ok None t' /\ (forall p, 0 < hd 0 p -> (feas L t' p <-> feas L t p)) /\
    ((s = 1 /\ exists p, 0 < hd 0 p /\ feas L t p /\ 0 < value L p v) \/
     (s = 0 /\ (exists p, 0 < hd 0 p /\ feas L t p /\ value L p v = 0) /\ forall p, 0 < hd 0 p -> feas L t p -> value L p v <= 0) \/
     (s = -1 /\ forall p, 0 < hd 0 p -> feas L t p -> value L p v < 0))).
Proof. exact (sign_of_max_exact int L v fuel t). Qed.
(** C31: the tableau of a basic map; an error is only returned if its equalities
    are not linearly independent *)
Theorem C31_from_basic_map fuel b : wf b -> b_empty b = false ->
  match from_basic_map fuel b with
  | Ok t => if t_empty t then forall v, length v = (1 + total b)%nat -> 0 < hd 0 v -> ~ system (b_eq b) (b_ineq b) v
            else represents false (b_eq b ++ b_ineq b) t /\ sample_ok None t /\ marks_ok t /\
              forall v, 0 < hd 0 v -> (feas (b_eq b ++ b_ineq b) t v <-> length v = (1 + total b)%nat /\ system (b_eq b) (b_ineq b) v)
  | Null => exists i, (i < length (b_eq b))%nat /\ dependent (total b) (firstn i (b_eq b)) (nth i (b_eq b) [])
  | UB => False
  | Div => True
  end.
Proof. exact (from_basic_map_keeps fuel b). Qed.
(** C31: no error for equalities in the form that isl_basic_map_gauss computes *)
Theorem C31_from_gauss fuel b ps : wf b -> b_empty b = false -> echelon (b_eq b) ps -> from_basic_map fuel b <> Null.
Proof. exact (from_echelon fuel b ps). Qed.
(** C26, C31: the classification of the inequalities by
    isl_basic_map_remove_redundancies is correct *)
Theorem C31_redundancy_tab fuel b t : wf b -> b_empty b = false -> redundancy_tab fuel b = Ok t ->
  classified b (t_empty t) (tab_kinds t (length (b_ineq b))).
Proof. exact (redundancy_classified fuel b t). Qed.
(** the premise of the theorems C26 on the elimination of variables holds *)
Theorem C26_tab_sound fuel : sound_tab (tab_of fuel).
Proof. exact (tab_of_sound fuel). Qed.
(** C26 with the tableau of the code *)
Theorem C26_rational_tab fuel hash no_redundant b pos n : wf b -> acyclic b -> b_empty b = false -> (pos + n <= total b)%nat -> b_rat b = true ->
  exists b', eliminate_vars hash no_redundant (tab_of fuel) b pos n = Ok b' /\ same_space b b' /\ wf b' /\
   forall q, length q = (1 + nvar b)%nat -> 0 < hd 0 q ->
    (rational_point b' q <-> exists k q', 0 < k /\ agree (among pos n) (scale k q) q' /\ rational_point b q').
Proof. exact (C26_rational hash no_redundant (tab_of fuel) b pos n (C26_tab_sound fuel)). Qed.
Theorem C26_sound_tab fuel hash no_redundant b pos n : wf b -> acyclic b -> b_empty b = false -> (pos + n <= total b)%nat ->
  exists b', eliminate_vars hash no_redundant (tab_of fuel) b pos n = Ok b' /\ same_space b b' /\ wf b' /\ acyclic b' /\
   forall q q', length q = (1 + nvar b)%nat -> admissible (b_rat b) q -> points b q -> agree (among pos n) q q' -> points b' q'.
Proof. exact (C26_sound hash no_redundant (tab_of fuel) b pos n (C26_tab_sound fuel)). Qed.
Theorem C26_remove_redundancies_tab fuel no_redundant b : wf b -> acyclic b ->
  exists b', remove_redundancies no_redundant (tab_of fuel) b = Ok b' /\ same_space b b' /\ wf b' /\ ordered b' /\
   forall q, length q = (1 + nvar b)%nat -> admissible (b_rat b) q -> (points b q <-> points b' q).
Proof. exact (C26_remove_redundancies no_redundant (tab_of fuel) b (C26_tab_sound fuel)). Qed.

(** 2 x = y, 0 <= x <= 5, y <= 12, z >= 0, z <= x - 5 *)
Definition ex_t : bmap := mkb 0 0 3 [[0; 2; -1; 0]] [[0; 1; 0; 0]; [5; -1; 0; 0]; [12; 0; -1; 0]; [0; 0; 0; 1]; [-5; 1; 0; -1]] [] false false false.
Example ex_t_wf : wf ex_t. Proof. repeat split; repeat constructor. Qed.
Example ex_t_echelon : echelon [[0; -2; 1; 0]] [2%nat].
Proof.
  split; [reflexivity|]. split; [intros i j H; cbn in H; lia|]. intros i Hi. cbn in Hi. assert (i = 0%nat) by lia. subst. cbn [nth]. split; [lia|]. split; [lia|]. split.
  - intros c Hc. destruct c as [|[|[|[|c]]]]; try lia; cbn; try reflexivity; destruct c; reflexivity.
  - intros j Hj Hn. cbn in Hj. lia.
Qed.
(** the tableau finds that x = 5 and z = 0, and that the other constraints are
    redundant *)
Example ex_t_tab : exists t, from_basic_map 100 ex_t = Ok t /\ t_empty t = false /\ represents false (b_eq ex_t ++ b_ineq ex_t) t /\ sample_ok None t /\ marks_ok t.
Proof.
  pose proof (C31_from_basic_map 100 ex_t ex_t_wf eq_refl) as H. assert (E : match from_basic_map 100 ex_t with Ok t => t_empty t = false | _ => False end) by (vm_compute; reflexivity).
  destruct (from_basic_map 100 ex_t) as [t| | |]; try contradiction. rewrite E in H. exists t. split; [reflexivity|]. split; [exact E|]. split; [apply H|]. split; apply H.
Qed.
Example ex_t_kinds : tab_of 100 ex_t = (false, [Redundant; Equality; Redundant; Equality; Equality]).
Proof. vm_compute. reflexivity. Qed.
(** adding x <= 4 makes the tableau empty, adding x >= 3 does not *)
Example ex_t_ineq : match from_basic_map 100 ex_t with
  | Ok t => match add_ineq 100 t [4; -1; 0; 0], add_ineq 100 t [-3; 1; 0; 0] with Ok t1, Ok t2 => t_empty t1 = true /\ t_empty t2 = false | _, _ => False end
  | _ => False end.
Proof. vm_compute. split; reflexivity. Qed.
(** the same equality twice *)
Example ex_t_dependent : from_basic_map 100 (mkb 0 0 2 [[0; 1; -1]; [0; -2; 2]] [] [] false false false) = Null.
Proof. vm_compute. reflexivity. Qed.
(** a column with a non-zero element *)
Example ex_t_pivot : match from_basic_map 100 ex_t with Ok t => (t_red t <= 4 < nrow t)%nat /\ (t_dead t <= 0 < ncol t)%nat /\ cf t 4 0 <> 0 | _ => False end.
Proof. vm_compute. repeat split; try lia. Qed.
(** the sign of the maximal value of the second and of the first inequality *)
Example ex_t_sign : match from_basic_map 100 ex_t with
  | Ok t => match sign_of_max 100 t (con 2), sign_of_max 100 t (con 1) with Ok (_, s1), Ok (_, s2) => s1 = 0 /\ s2 = 1 | _, _ => False end
  | _ => False end.
Proof. vm_compute. split; reflexivity. Qed.

Print Assumptions C31_rows.
Print Assumptions C31_pivot.
Print Assumptions C31_sample.
Print Assumptions C31_add_ineq.
Print Assumptions C31_add_eq.
Print Assumptions C31_detect_equalities.
Print Assumptions C31_detect_redundant.
Print Assumptions C31_restore_redundant.
Print Assumptions C31_sign_of_max.
Print Assumptions C31_from_basic_map.
Print Assumptions C31_from_gauss.
Print Assumptions C31_redundancy_tab.
Print Assumptions C26_tab_sound.
Print Assumptions C26_rational_tab.
Print Assumptions C26_sound_tab.
Print Assumptions C26_remove_redundancies_tab.
