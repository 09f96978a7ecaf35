(** Property C32 for records of the basis (isl_tab_push_basis): statements.
    The notions are those of PropsTab.v. *)
From Coq Require Import ZArith List Bool Lia Arith.
From Verif Require Import SeqModel SeqSpec MatModel BMapModel BMapSpec TabModel TabSpec TabBase TabPivot TabStep LpModel TabBasis PropsTabRelax.
Import ListNotations.
Open Scope Z_scope.

(** C32: undoing isl_tab_push_basis.  [t0] is the tableau when the basis was
    saved, [t] a tableau for the same constraints, with the same number of
    columns, such that no further columns have been removed, no variable of the
    saved basis is marked redundant and the columns that are marked zero belong to
    the saved basis.  Then restore_basis does not fail, the variables of the columns are those
    of the saved basis, and the tableau holds the same points as before. *)
Theorem C32_restore_basis int L t0 t fuel : core L t0 -> represents int L t -> t_nvar t = t_nvar t0 -> ncol t = ncol t0 -> t_inundo t = true ->
  (forall v, valid t v -> gone t v -> gone t0 v) -> (forall v, List.In v (t_cv t0) -> v_red (t_info t v) = false) ->
  (forall c, (c < t_dead t)%nat -> List.In (colv t c) (t_cv t0)) ->
  exists t', perform_undo fuel t (U_basis (t_cv t0)) = Ok t' /\ represents int L t' /\ t_nvar t' = t_nvar t0 /\ (forall v, List.In v (t_cv t') <-> List.In v (t_cv t0)) /\
    (forall u, v_nonneg (t_info t' u) = v_nonneg (t_info t u) /\ v_red (t_info t' u) = v_red (t_info t u) /\ v_zero (t_info t' u) = v_zero (t_info t u)) /\
    t_log t' = t_log t /\ forall p, feas L t' p <-> feas L t p.
Proof. exact (restore_basis_ok int L t0 t). Qed.

(** the tableau of the example of PropsTabRelax.v; [ex_tb] is the tableau after a pivot *)
Definition ex_tb0 : tab := w_inundo (tab_for_relax ex_tr true) true.
Definition ex_tb : tab := pivot_step ex_tb0 2 0.
Lemma inundo_represents int L t : represents int L t -> represents int L (w_inundo t true).
Proof. intros [C Z0 Im]. destruct C as [A F Cl Cw Cr Ci]. constructor; [constructor; [destruct A; constructor; assumption|destruct F; constructor; assumption|exact Cl|exact Cw|exact Cr|exact Ci]|exact Z0|exact Im]. Qed.
Lemma pivoted_hyps L t0 i c : represents false L t0 -> t_inundo t0 = true -> (t_red t0 <= i < nrow t0)%nat -> (t_dead t0 <= c < ncol t0)%nat -> cf t0 i c <> 0 -> t_dead t0 = O ->
  let t := pivot_step t0 i c in core L t0 /\ represents false L t /\ t_nvar t = t_nvar t0 /\ ncol t = ncol t0 /\ t_inundo t = true /\
  (forall v, valid t v -> gone t v -> gone t0 v) /\ (forall v, List.In v (t_cv t0) -> v_red (t_info t v) = false) /\
  (forall c, (c < t_dead t)%nat -> List.In (colv t c) (t_cv t0)).
Proof.
  intros R Iu Hi Hc Nz Dd t. pose proof (r_core _ _ _ R) as C. pose proof (c_arr _ _ C) as A.
  split; [exact C|]. split; [exact (st_represents false L t0 i c R Hi Hc Nz)|]. split; [reflexivity|]. split; [apply st_ncol|]. split; [exact Iu|]. split; [|split].
  - intros v V G. apply (ps_gone t0 i c A (proj2 Hi) (proj2 Hc) v V). exact G.
  - intros v Iv. unfold t. rewrite (ps_flag t0 i c A (proj2 Hi) (proj2 Hc) v_red) by reflexivity. destruct (In_nth _ _ 0 Iv) as (q & Hq & <-). apply (f_cols _ (c_flg _ _ C) q Hq).
  - change (t_dead t) with (t_dead t0). rewrite Dd. intros q H. inversion H.
Qed.
Example ex_tb_hyps : let L := b_ineq ex_tr in core L ex_tb0 /\ represents false L ex_tb /\ t_nvar ex_tb = t_nvar ex_tb0 /\ ncol ex_tb = ncol ex_tb0 /\ t_inundo ex_tb = true /\
  (forall v, valid ex_tb v -> gone ex_tb v -> gone ex_tb0 v) /\ (forall v, List.In v (t_cv ex_tb0) -> v_red (t_info ex_tb v) = false) /\
  (forall c, (c < t_dead ex_tb)%nat -> List.In (colv ex_tb c) (t_cv ex_tb0)).
Proof.
  assert (N1 : t_red ex_tb0 = 2%nat) by (vm_compute; reflexivity). assert (N2 : nrow ex_tb0 = 5%nat) by (vm_compute; reflexivity).
  assert (N3 : t_dead ex_tb0 = 0%nat) by (vm_compute; reflexivity). assert (N4 : ncol ex_tb0 = 2%nat) by (vm_compute; reflexivity).
  assert (N5 : cf ex_tb0 2 0 = -1) by (vm_compute; reflexivity). assert (N6 : t_inundo ex_tb0 = true) by (vm_compute; reflexivity).
  assert (R : represents false (b_ineq ex_tr) ex_tb0) by exact (inundo_represents false (b_ineq ex_tr) (tab_for_relax ex_tr true) (proj1 ex_tr_hyps)).
  unfold ex_tb. revert N1 N2 N3 N4 N5 N6 R. generalize ex_tb0 as t. generalize (b_ineq ex_tr) as L. intros L t N1 N2 N3 N4 N5 N6 R.
  apply (pivoted_hyps L t 2 0 R N6).
  - rewrite N1, N2. split; repeat constructor.
  - rewrite N3, N4. split; repeat constructor.
  - rewrite N5. discriminate.
  - exact N3.
Qed.
(** the basis consists of other variables before it is restored *)
Example ex_tb_undo : t_cv ex_tb0 = [-1; -3] /\ t_cv ex_tb = [-2; -3] /\
  match perform_undo 1 ex_tb (U_basis (t_cv ex_tb0)) with Ok t' => t_cv t' = t_cv ex_tb0 | _ => False end.
Proof. vm_compute. auto. Qed.

Print Assumptions C32_restore_basis.
