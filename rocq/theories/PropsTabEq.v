(** Adding equalities to a simplex tableau that has inequalities (C31).

    The notions are those of PropsTab.v.  The expression of the new constraint
    is the equality or its opposite (the code negates the row and records this
    in var->negated). *)
From Coq Require Import ZArith List Bool Lia Arith.
From Verif Require Import SeqModel SeqSpec MatModel BMapModel BMapSpec BMapSem BElimModel BElimSpec BElimProofs BElimFM TabModel TabSpec TabBase TabStep TabBuild TabMap LpModel TabEqModel TabEq TabEq2 PropsTab.
Import ListNotations.
Open Scope Z_scope.

(** C31: isl_tab_add_valid_eq.  Some (rational) point that satisfies the
    constraints has to satisfy the equality.  The result holds exactly the points
    on the hyperplane, in particular the same points if the equality is valid. *)
Theorem C31_add_valid_eq int L t fuel e : represents int L t -> sample_ok None t -> length e = (1 + t_nvar t)%nat ->
  (exists p, 0 < hd 0 p /\ feas L t p /\ dot e p = 0) ->
  wp (add_valid_eq fuel t e) (fun t' => exists e', (e' = e \/ e' = seq_neg e) /\ represents int (L ++ [e']) t' /\ sample_ok None t' /\
    t_nvar t' = t_nvar t /\ t_ncon t' = S (t_ncon t) /\ t_empty t' = t_empty t /\
    forall p, 0 < hd 0 p -> (feas (L ++ [e']) t' p <-> feas L t p /\ dot e p = 0)).
Proof. exact (add_valid_eq_ok int L t fuel e). Qed.
(** C31: isl_tab_add_eq.  If the result is marked empty, then no point satisfies
    the equality.  Otherwise the result holds exactly the points that do, and its
    sample value is one of them; the constraint is dropped again if its row is
    manifestly zero. *)
Theorem C31_add_eq_general int L t fuel e : represents int L t -> sample_ok None t -> t_cone t = false -> t_empty t = false -> length e = (1 + t_nvar t)%nat ->
  wp (add_eq fuel t e) (fun t' => t_nvar t' = t_nvar t /\
    if t_empty t' then forall p, 0 < hd 0 p -> feas L t p -> dot e p <> 0
    else exists L', (L' = L \/ L' = L ++ [e] \/ L' = L ++ [seq_neg e]) /\ represents int L' t' /\ sample_ok None t' /\
      forall p, 0 < hd 0 p -> (feas L' t' p <-> feas L t p /\ dot e p = 0)).
Proof. exact (add_eq_ok int L t fuel e). Qed.

(** ** examples: 0 <= x <= 5, 0 <= y <= 3 *)
Definition ex_te : bmap := mkb 0 0 2 [] [[0; 1; 0]; [5; -1; 0]; [0; 0; 1]; [3; 0; -1]] [] false false false.
Example ex_te_wf : wf ex_te. Proof. repeat split; repeat constructor. Qed.
Example ex_te_tab : exists t, from_basic_map 100 ex_te = Ok t /\ t_empty t = false /\ t_cone t = false /\ t_nvar t = 2%nat /\ represents false (b_eq ex_te ++ b_ineq ex_te) t /\ sample_ok None t /\
  exists p, 0 < hd 0 p /\ feas (b_eq ex_te ++ b_ineq ex_te) t p /\ dot [-4; 1; 1] p = 0.
Proof.
  pose proof (C31_from_basic_map 100 ex_te ex_te_wf eq_refl) as H.
  assert (E : match from_basic_map 100 ex_te with Ok t => t_empty t = false /\ t_cone t = false /\ t_nvar t = 2%nat | _ => False end) by (vm_compute; repeat split).
  destruct (from_basic_map 100 ex_te) as [t| | |]; try contradiction. destruct E as (E & Ec & Ev). rewrite E in H. destruct H as (H1 & H2 & _ & H3). exists t. split; [reflexivity|]. split; [exact E|]. split; [exact Ec|]. split; [exact Ev|].
  split; [exact H1|]. split; [exact H2|]. exists [1; 2; 2]. split; [cbn; lia|]. split; [|reflexivity]. apply H3; [cbn; lia|]. split; [reflexivity|]. unfold system; cbn [b_eq b_ineq ex_te]. split; [constructor|]. repeat (constructor; [vm_compute; discriminate|]). constructor.
Qed.
(** adding x + y = 4 removes a column; then the same equality is found to be
    implied, x + y = 9 and x = 5 and y = 0 conflict; x + y = 8 touches a vertex *)
Example ex_te_add : match from_basic_map 100 ex_te with
  | Ok t => match add_eq 100 t [-4; 1; 1], add_valid_eq 100 t [-4; 1; 1], add_eq 100 t [-9; 1; 1], add_eq 100 t [-8; 1; 1] with
            | Ok t1, Ok t2, Ok t3, Ok t4 =>
              (t_empty t1, t_ncon t1, ncol t1) = (false, 5, 1)%nat /\ (t_empty t2, t_ncon t2, ncol t2) = (false, 5, 1)%nat /\ t_empty t3 = true /\ (t_empty t4, ncol t4) = (false, 1)%nat /\
              match add_eq 100 t1 [-8; 2; 2], add_eq 100 t1 [-5; 1; 0], add_valid_eq 100 t1 [4; -1; -1] with
              | Ok t5, Ok t6, Ok t7 => (t_empty t5, t_ncon t5) = (false, 5)%nat /\ t_empty t6 = true /\ (t_empty t7, t_ncon t7, ncol t7) = (false, 6, 1)%nat
              | _, _, _ => False end
            | _, _, _, _ => False end
  | _ => False end.
Proof. vm_compute. repeat split. Qed.
(** the same with undo information: the row that was added is removed again *)
Example ex_te_undo : match from_basic_map 100 ex_te with
  | Ok t => match add_eq 100 (fst (tab_snap t)) [-4; 1; 1] with
            | Ok t1 => match add_eq 100 t1 [-8; 2; 2] with Ok t2 => t_undo t1 = true /\ (t_ncon t1, ncol t1, t_dead t1) = (5, 2, 1)%nat /\ t_log t2 = t_log t1 /\ (t_ncon t2, nrow t2) = (5, nrow t1)%nat | _ => False end
            | _ => False end
  | _ => False end.
Proof. vm_compute. repeat split. Qed.

Print Assumptions C31_add_valid_eq.
Print Assumptions C31_add_eq_general.
