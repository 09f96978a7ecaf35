(** The properties of rolling back a tableau (C32), and only these. *)
From Coq Require Import ZArith List Bool Arith Lia.
From Verif Require Import SeqModel SeqSpec MatModel BMapModel BMapSpec BMapSem BElimModel BElimSpec BElimProofs BElimFM BElimVars PropsBElim TabModel TabSpec TabBase TabStep TabSign TabMin TabKill TabAdd TabClose TabCut TabDetect TabRestore TabBuild TabMap LpModel LpUndo UndoSpec UndoBase UndoReach UndoOps PropsTab.
Import ListNotations.
Open Scope Z_scope.

(** C32, the full property: "after isl_tab_snap, any sequence of constraint
    additions, detections and eliminations followed by isl_tab_rollback leaves a
    tableau that represents exactly the constraints present at the snapshot".
    Proved here: for every sequence of the primitive operations of [reach] (pivots
    in any order, marking rows redundant, killing columns, adding rows, setting
    the flags of a constraint, nested rollbacks), rollback succeeds without a need
    for more than one step of fuel and restores the constraints, their flags, the
    redundant rows, the dead columns and the undo stack.
    Missing: that isl_tab_detect_implicit_equalities, isl_tab_detect_redundant
    and isl_tab_add_eq are such sequences (isl_tab_add_ineq is: C32_add_ineqs);
    rows that are only redundant for integer points; the records for inserted
    variables, relaxed and unrestricted constraints, saved bases and basic maps. *)
Theorem C32_rollback_partial L0 t0 : represents false L0 t0 -> sample_ok None t0 -> t_undo t0 = true ->
  forall fuel ex L t, reach L0 t0 ex L t ->
  exists t', rollback (S fuel) t (length (t_log t0)) = Ok t' /\ represents false L0 t' /\ sample_ok None t' /\ alike t0 t' /\
    (forall p, feas L0 t' p <-> feas L0 t0 p) /\ t_log t' = t_log t0 /\ t_undo t' = true.
Proof. exact (rollback_ok L0 t0). Qed.
(** C32: a rollback to an inner snapshot is itself one of the operations that a
    rollback to an outer snapshot undoes *)
Theorem C32_nested L0 t0 L t1 : represents false L0 t0 -> sample_ok None t0 -> t_undo t0 = true -> reach L0 t0 None L t1 -> represents false L t1 ->
  forall fuel ex2 L2 t2, reach L t1 ex2 L2 t2 -> exists t', rollback (S fuel) t2 (length (t_log t1)) = Ok t' /\ reach L0 t0 None L t'.
Proof. exact (nested_ok L0 t0 L t1). Qed.
(** C32: isl_tab_snap, any number of calls of isl_tab_add_ineq, isl_tab_rollback *)
Theorem C32_add_ineqs L t fuel ls t1 : represents false L t -> sample_ok None t -> (forall l, List.In l ls -> length l = (1 + t_nvar t)%nat) ->
  add_ineqs fuel (fst (tab_snap t)) ls = Ok t1 ->
  exists t', rollback 1 t1 (snd (tab_snap t)) = Ok t' /\ represents false L t' /\ sample_ok None t' /\ alike t t' /\ (forall p, feas L t' p <-> feas L t p) /\ t_log t' = t_log t.
Proof. exact (add_ineqs_undone L t fuel ls t1). Qed.

(** 0 <= x, 0 <= y, x + y <= 10 *)
Definition ex_u : bmap := mkb 0 0 2 [] [[0; 1; 0]; [0; 0; 1]; [10; -1; -1]] [] false false false.
Example ex_u_wf : wf ex_u. Proof. repeat split; repeat constructor. Qed.
Example ex_u_tab : exists t, from_basic_map 100 ex_u = Ok t /\ t_empty t = false /\ represents false (b_eq ex_u ++ b_ineq ex_u) t /\ sample_ok None t.
Proof.
  pose proof (C31_from_basic_map 100 ex_u ex_u_wf eq_refl) as H. assert (E : match from_basic_map 100 ex_u with Ok t => t_empty t = false | _ => False end) by (vm_compute; reflexivity).
  destruct (from_basic_map 100 ex_u) as [t| | |]; try contradiction. rewrite E in H. exists t. split; [reflexivity|]. split; [exact E|]. split; apply H.
Qed.
(** the constraints x >= 6, y >= 2, y >= 5 are added: pivots are needed and the
    tableau ends up empty, with a stack of undo records; rolling back removes the
    three rows, the emptiness and the records, but not the pivots *)
Definition ex_lines : list (list Z) := [[-6; 1; 0]; [-2; 0; 1]; [-5; 0; 1]].
Example ex_u_rollback :
  match from_basic_map 100 ex_u with
  | Ok t => match add_ineqs 100 (fst (tab_snap t)) ex_lines with
            | Ok t1 => t_empty t1 = true /\ t_ncon t1 = 6%nat /\ (length (t_log t1) - length (t_log t) >= 7)%nat /\
                match rollback 1 t1 (snd (tab_snap t)) with
                | Ok t' => t_empty t' = false /\ t_ncon t' = 3%nat /\ nrow t' = nrow t /\ t_log t' = t_log t /\ t_rv t' <> t_rv t
                | _ => False
                end
            | _ => False
            end
  | _ => False
  end.
Proof. vm_compute. repeat split; try lia; discriminate. Qed.
(** so the hypotheses of the theorems hold for these states *)
Example ex_u_reach : exists L t0 ex L1 t1, represents false L t0 /\ sample_ok None t0 /\ t_undo t0 = true /\ reach L t0 ex L1 t1 /\ t_empty t1 = true /\ t_ncon t1 = 6%nat.
Proof.
  destruct ex_u_tab as (t & E & _ & R & D). pose proof ex_u_rollback as H. rewrite E in H. destruct (add_ineqs 100 (fst (tab_snap t)) ex_lines) as [t1| | |] eqn:Ea; try contradiction. destruct H as (Em & Nc & _).
  pose proof (snap_twin t) as Sm. pose proof (same_represents _ _ _ _ Sm R) as R0. pose proof (same_sample _ _ _ Sm D) as D0.
  destruct (add_ineqs_reach _ (fst (tab_snap t)) R0 D0 eq_refl 100 ex_lines _ _ t1 (r_start _ _) R0) as (ex & L' & Rc); [|exact Ea|eexists _, _, ex, L', t1; split; [exact R0|]; split; [exact D0|]; split; [reflexivity|]; split; [exact Rc|]; auto].
  assert (Nv : t_nvar t = 2%nat). { assert (X : match from_basic_map 100 ex_u with Ok t => t_nvar t = 2%nat | _ => False end) by (vm_compute; reflexivity). rewrite E in X. exact X. }
  change (t_nvar (fst (tab_snap t))) with (t_nvar t). rewrite Nv. intros l [<-|[<-|[<-|[]]]]; reflexivity.
Qed.

Print Assumptions C32_rollback_partial.
Print Assumptions C32_nested.
Print Assumptions C32_add_ineqs.
