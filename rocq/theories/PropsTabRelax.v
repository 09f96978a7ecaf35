(** Relaxing an inequality of a simplex tableau (C31).

    The notions are those of PropsTab.v; [relaxed L c] are the constraints [L]
    with the constant term of constraint [c] increased by one. *)
From Coq Require Import ZArith List Bool Lia Arith.
From Verif Require Import SeqModel SeqSpec MatModel BMapModel BMapSpec BMapSem BElimModel BElimSpec BElimProofs BElimFM TabModel TabSpec TabBase TabStep TabBuild TabMap LpModel TabRelaxModel TabRelax TabRelax2 PropsTab.
Import ListNotations.
Open Scope Z_scope.

(** C31: isl_tab_relax, on an inequality that is marked neither redundant nor
    zero, when undo information is kept (as in the only caller).  If whatever is
    marked redundant is still implied after the relaxation, then the result is a
    tableau for the relaxed constraints, its sample value satisfies them, and it
    holds exactly the points that satisfy them. *)
Theorem C31_relax int L t fuel c : represents int L t -> sample_ok None t -> t_undo t = true -> (c < t_ncon t)%nat ->
  v_nonneg (t_info t (con c)) = true -> v_red (t_info t (con c)) = false -> v_zero (t_info t (con c)) = false ->
  (forall p, adm int p -> feas (relaxed L c) t p -> forall u, valid t u -> v_nonneg (t_info t u) = true -> v_red (t_info t u) = true -> 0 <= value (relaxed L c) p u) ->
  wp (relax fuel t (con c)) (fun t' => represents int (relaxed L c) t' /\ sample_ok None t' /\
    t_nvar t' = t_nvar t /\ t_ncon t' = t_ncon t /\ t_empty t' = t_empty t /\
    forall p, 0 < hd 0 p -> (feas (relaxed L c) t' p <-> feas (relaxed L c) t p)).
Proof. exact (fun R D U H N Rd Z M => relax_ok int L c t fuel R D U H N Rd Z M). Qed.

(** C31: isl_tab_relax refuses a constraint that is marked redundant, even if its
    row was removed, and an equality in a column, even if the column was removed *)
Theorem C31_relax_refused int L t fuel c : represents int L t -> (c < t_ncon t)%nat ->
  v_red (t_info t (con c)) = true \/ (v_zero (t_info t (con c)) = true /\ v_row (t_info t (con c)) = false) ->
  relax fuel t (con c) = Null.
Proof. exact (relax_refused int L t fuel c). Qed.

(** the tableau of a basic map, with undo information *)
Definition tab_for_relax (b : bmap) (undo : bool) : tab :=
  match from_basic_map 100 b with Ok t => if undo then fst (tab_snap t) else t | _ => tab_alloc 0 end.
Definition kinds_of (t : tab) (l : list Z) : list (bool * bool * bool) := map (fun u => (v_nonneg (t_info t u), v_red (t_info t u), v_zero (t_info t u))) l.
Lemma snap_represents int L t : represents int L t -> represents int L (fst (tab_snap t)).
Proof. intros [C Z0 Im]. destruct C as [A F Cl Cw Cr Ci]. constructor; [constructor; [destruct A; constructor; assumption|destruct F; constructor; assumption|exact Cl|exact Cw|exact Cr|exact Ci]|exact Z0|exact Im]. Qed.

(** its flags nonneg, redundant and zero are as given *)
Definition tab_facts (b : bmap) (n m : nat) (l : list Z) (ks : list (bool * bool * bool)) : Prop :=
  match from_basic_map 100 b with Ok t => t_empty t = false /\ t_undo t = false /\ t_ncon t = n /\ t_nvar t = m /\ kinds_of t l = ks | _ => False end.
Lemma facts_represents b n m l ks undo : wf b -> b_empty b = false -> b_eq b = [] -> tab_facts b n m l ks -> let t := tab_for_relax b undo in
  represents false (b_ineq b) t /\ sample_ok None t /\ t_undo t = undo /\ t_ncon t = n /\ t_nvar t = m /\ kinds_of t l = ks.
Proof.
  intros W Ee E0 K t. unfold tab_facts in K. pose proof (C31_from_basic_map 100 b W Ee) as H. unfold t, tab_for_relax. clear t. rewrite E0 in H.
  destruct (from_basic_map 100 b) as [t| | |]; try contradiction. destruct K as (E & U & Nc & Nv & K). rewrite E in H. destruct H as (H1 & H2 & _ & H3).
  destruct undo; [|exact (conj H1 (conj H2 (conj U (conj Nc (conj Nv K)))))]. exact (conj (snap_represents false _ t H1) (conj H2 (conj eq_refl (conj Nc (conj Nv K))))).
Qed.

(** ** example: 1 <= x <= 5, 1 <= y <= 3, x + y <= 6; the first constraint is relaxed.
    The variables are marked redundant (non-negative), which they still are *)
Definition ex_tr : bmap := mkb 0 0 2 [] [[-1; 1; 0]; [5; -1; 0]; [-1; 0; 1]; [3; 0; -1]; [6; -1; -1]] [] false false false.
Example ex_tr_wf : wf ex_tr. Proof. repeat split; repeat constructor. Qed.
Example ex_tr_hyps : let t := tab_for_relax ex_tr true in let L := b_ineq ex_tr in
  represents false L t /\ sample_ok None t /\ t_undo t = true /\ (0 < t_ncon t)%nat /\
  v_nonneg (t_info t (con 0)) = true /\ v_red (t_info t (con 0)) = false /\ v_zero (t_info t (con 0)) = false /\
  (forall p, adm false p -> feas (relaxed L 0) t p -> forall u, valid t u -> v_nonneg (t_info t u) = true -> v_red (t_info t u) = true -> 0 <= value (relaxed L 0) p u).
Proof.
  cbv zeta. destruct (facts_represents ex_tr 5 2 [-5; -4; -3; -2; -1; 0; 1] [(true, false, false); (true, false, false); (true, false, false); (true, false, false); (true, false, false); (true, true, false); (true, true, false)] true ex_tr_wf eq_refl eq_refl) as (R & D & U & Nc & Nv & K); [vm_compute; repeat split|].
  set (t := tab_for_relax ex_tr true) in *. clearbody t. cbn [kinds_of map] in K. injection K as K1 K2 K3 K4 K5 K6 K7 K8 K9 K10 K11 K12 K13 K14 K15 K16 K17 K18 K19 K20 K21.
  split; [exact R|]. clear R. split; [exact D|]. clear D. split; [exact U|]. rewrite Nc. split; [repeat constructor|]. change (con 0) with (-1). split; [exact K13|]. split; [exact K14|]. split; [exact K15|].
  intros p Ad (Lp & Fe) u V Nu Rd. assert (VV : forall x, -5 <= x < 2 -> valid t x) by (intros x Hx; unfold valid; rewrite Nc, Nv; exact Hx). unfold valid in V. rewrite Nc, Nv in V. rewrite Nv in Lp. cbn in V.
  assert (Us : u = -5 \/ u = -4 \/ u = -3 \/ u = -2 \/ u = -1 \/ u = 0 \/ u = 1) by (clear - V; lia). destruct Ad as (Hp & _).
  destruct p as [|h [|x [|y [|? ?]]]]; cbn in Lp; try discriminate Lp.
  pose proof (proj2 (Fe (-1) (VV (-1) ltac:(split; reflexivity || discriminate))) K13 K14) as F1. pose proof (proj2 (Fe (-3) (VV (-3) ltac:(split; reflexivity || discriminate))) K7 K8) as F3.
  destruct Us as [->|[->|[->|[->|[->|[->| ->]]]]]]; try congruence; change (0 <= 0 * h + (1 * x + (0 * y + 0))) in F1; change (0 <= -1 * h + (0 * x + (1 * y + 0))) in F3; cbn [hd] in Hp; [change (0 <= x)|change (0 <= y)]; clear - Hp F1 F3; lia.
Qed.
(** x = 0 is now allowed and x = -1 is not *)
Example ex_tr_relax : match relax 100 (tab_for_relax ex_tr true) (con 0) with
  | Ok t' => match add_ineq 100 t' [0; -1; 0], add_ineq 100 t' [-1; -1; 0] with Ok t1, Ok t2 => (t_empty t1, t_empty t2) = (false, true) /\ hd U_empty (t_log t') = U_relax (con 0) | _, _ => False end
  | _ => False end.
Proof. vm_compute. repeat split. Qed.

(** isl_tab_rollback undoes the relaxation: x = 0 is not allowed any more *)
Definition relax_back (b : bmap) (c : nat) (q : list (list Z)) : option (list (option bool) * list (option bool) * list (option bool)) :=
  let t := tab_for_relax b true in
  let ask t := map (fun r => match add_ineq 100 t r with Ok t' => Some (t_empty t') | _ => None end) q in
  match relax 100 t (con c) with
  | Ok t1 => match rollback 100 t1 (length (t_log t)) with Ok t2 => Some (ask t, ask t1, ask t2) | _ => None end
  | _ => None end.
Example ex_tr_back : relax_back ex_tr 0 [[0; -1; 0]; [-1; 1; 0]] = Some ([Some true; Some false], [Some false; Some false], [Some true; Some false]).
Proof. vm_compute. reflexivity. Qed.
(** x - y >= 0, x + y >= 0, x >= 0, where the sample value of the constraint is zero *)
Definition ex_tz : bmap := mkb 0 0 2 [] [[0; 1; -1]; [0; 1; 1]; [0; 1; 0]] [] false false false.
Example ex_tz_back : relax_back ex_tz 1 [[-1; -1; -1]; [-2; -1; -1]] = Some ([Some true; Some true], [Some false; Some true], [Some true; Some true]).
Proof. vm_compute. reflexivity. Qed.
(** x >= 1, in a column and unbounded from above *)
Example ex_tc_back : relax_back (mkb 0 0 1 [] [[-1; 1]] [] false false false) 0 [[0; -1]; [-1; -1]] = Some ([Some true; Some true], [Some false; Some true], [Some true; Some true]).
Proof. vm_compute. reflexivity. Qed.
(** a constraint that is marked redundant is refused: the second one of ex_tm below *)
Example ex_refused : let t := tab_for_relax (mkb 0 0 1 [] [[-1; 1]; [-1; 2]] [] false false false) true in
  (1 < t_ncon t)%nat /\ v_red (t_info t (con 1)) = true /\ relax 100 t (con 1) = Null.
Proof. vm_compute. repeat split; repeat constructor. Qed.

(** ** undo information is needed: x + y >= 1, y >= 1, x >= 0.  The first constraint
    is in a column; when it is moved to a row, this row is found to be redundant
    and is removed.  The code then accesses row -1. *)
Definition ex_tu : bmap := mkb 0 0 2 [] [[-1; 1; 1]; [-1; 0; 1]; [0; 1; 0]] [] false false false.
Example ex_tu_wf : wf ex_tu. Proof. repeat split; repeat constructor. Qed.
Theorem C31_relax_undo_refuted : let t := tab_for_relax ex_tu false in let L := b_ineq ex_tu in
  represents false L t /\ sample_ok None t /\ (0 < t_ncon t)%nat /\ v_nonneg (t_info t (con 0)) = true /\ v_red (t_info t (con 0)) = false /\ v_zero (t_info t (con 0)) = false /\
  (forall p, adm false p -> feas (relaxed L 0) t p -> forall u, valid t u -> v_nonneg (t_info t u) = true -> v_red (t_info t u) = true -> 0 <= value (relaxed L 0) p u) /\
  relax 100 t (con 0) = UB /\ exists t', relax 100 (fst (tab_snap t)) (con 0) = Ok t'.
Proof.
  cbv zeta. destruct (facts_represents ex_tu 3 2 [-3; -2; -1; 0; 1] [(true, false, false); (true, false, false); (true, false, false); (false, false, false); (true, true, false)] false ex_tu_wf eq_refl eq_refl) as (R & D & U & Nc & Nv & K); [vm_compute; repeat split|].
  assert (Ub : relax 100 (tab_for_relax ex_tu false) (con 0) = UB) by (vm_compute; reflexivity).
  assert (Un : match relax 100 (fst (tab_snap (tab_for_relax ex_tu false))) (con 0) with Ok _ => True | _ => False end) by (vm_compute; exact I).
  set (t := tab_for_relax ex_tu false) in *. clearbody t. cbn [kinds_of map] in K. injection K as K1 K2 K3 K4 K5 K6 K7 K8 K9 K10 K11 K12 K13 K14 K15.
  split; [exact R|]. clear R. split; [exact D|]. clear D. rewrite Nc. split; [repeat constructor|]. change (con 0) with (-1) in *. split; [exact K7|]. split; [exact K8|]. split; [exact K9|]. split; [|split; [exact Ub|]].
  - intros p Ad (Lp & Fe) u V Nu Rd. assert (VV : forall x, -3 <= x < 2 -> valid t x) by (intros x Hx; unfold valid; rewrite Nc, Nv; exact Hx). unfold valid in V. rewrite Nc, Nv in V. rewrite Nv in Lp. cbn in V.
    assert (Us : u = -3 \/ u = -2 \/ u = -1 \/ u = 0 \/ u = 1) by (clear - V; lia). destruct Ad as (Hp & _).
    destruct p as [|h [|x [|y [|? ?]]]]; cbn in Lp; try discriminate Lp.
    pose proof (proj2 (Fe (-2) (VV (-2) ltac:(split; reflexivity || discriminate))) K4 K5) as F1.
    destruct Us as [->|[->|[->|[->| ->]]]]; try congruence; change (0 <= -1 * h + (0 * x + (1 * y + 0))) in F1; cbn [hd] in Hp; change (0 <= y); clear - Hp F1; lia.
  - destruct (relax 100 (fst (tab_snap t)) (-1)) as [t'| | |]; try contradiction. exists t'. reflexivity.
Qed.
(** ** the marks have to stay valid: x >= 1 and 2 x >= 1.  The second constraint is
    marked redundant, and still is after the first one has been relaxed to x >= 0. *)
Definition ex_tm : bmap := mkb 0 0 1 [] [[-1; 1]; [-1; 2]] [] false false false.
Example ex_tm_wf : wf ex_tm. Proof. repeat split; repeat constructor. Qed.
Theorem C31_relax_marks_refuted : let t := tab_for_relax ex_tm true in let L := b_ineq ex_tm in
  represents false L t /\ sample_ok None t /\ t_undo t = true /\ v_nonneg (t_info t (con 0)) = true /\ v_red (t_info t (con 0)) = false /\ v_zero (t_info t (con 0)) = false /\
  exists t', relax 100 t (con 0) = Ok t' /\ v_red (t_info t' (con 1)) = true /\ feas (relaxed L 0) t' [1; 0] /\ dot [-1; 2] [1; 0] < 0 /\ ~ represents false (relaxed L 0) t'.
Proof.
  cbv zeta. destruct (facts_represents ex_tm 2 1 [-2; -1; 0] [(true, true, false); (true, false, false); (true, true, false)] true ex_tm_wf eq_refl eq_refl) as (R & D & U & Nc & Nv & K); [vm_compute; repeat split|].
  assert (Un : match relax 100 (tab_for_relax ex_tm true) (con 0) with Ok t' => kinds_of t' [-2; -1; 0] = [(true, true, false); (true, false, false); (true, true, false)] /\ t_ncon t' = 2%nat /\ t_nvar t' = 1%nat | _ => False end) by (vm_compute; repeat split).
  set (t := tab_for_relax ex_tm true) in *. clearbody t. cbn [kinds_of map] in K. injection K as K1 K2 K3 K4 K5 K6 K7 K8 K9. change (con 0) with (-1) in *.
  split; [exact R|]. clear R. split; [exact D|]. clear D. split; [exact U|]. split; [exact K4|]. split; [exact K5|]. split; [exact K6|].
  destruct (relax 100 t (-1)) as [t'| | |]; try contradiction. destruct Un as (K' & Nc' & Nv'). cbn [kinds_of map] in K'. injection K' as J1 J2 J3 J4 J5 J6 J7 J8 J9. exists t'. split; [reflexivity|]. split; [exact J2|].
  assert (Fe : feas (relaxed (b_ineq ex_tm) 0) t' [1; 0]).
  { split; [rewrite Nv'; reflexivity|]. intros v V. unfold valid in V. rewrite Nc', Nv' in V. assert (Us : v = -2 \/ v = -1 \/ v = 0) by (clear - V; lia).
    destruct Us as [->|[->| ->]].
    - split; [rewrite J3; discriminate|rewrite J2; intros _; discriminate].
    - split; [rewrite J6; discriminate|intros _ _; vm_compute; discriminate].
    - split; [rewrite J9; discriminate|rewrite J8; intros _; discriminate]. }
  split; [exact Fe|]. split; [reflexivity|]. intros R'.
  assert (X : 0 <= value (relaxed (b_ineq ex_tm) 0) [1; 0] (-2)); [|apply X; reflexivity].
  apply (r_imp _ _ _ R' [1; 0]); [split; [reflexivity|discriminate]|exact Fe|unfold valid; rewrite Nc', Nv'; split; [discriminate|reflexivity]|exact J1].
Qed.

Print Assumptions C31_relax.
Print Assumptions C31_relax_refused.
Print Assumptions C31_relax_undo_refuted.
Print Assumptions C31_relax_marks_refuted.
