(** What remains after the removal of redundant constraints is needed. *)
From Coq Require Import ZArith List Bool Arith Lia.
From Verif Require Import SeqModel SeqSpec MatModel BMapModel BMapSpec BMapSem BMapLists BElimModel BElimSpec TabModel TabSpec TabBase TabStep TabClose TabDetect TabRestore TabBuild TabMap TabComplete TabComplete2 TabHold.
Import ListNotations.
Open Scope Z_scope.

Theorem redundancy_minimal fuel b t i : wf b -> b_empty b = false -> redundancy_tab fuel b = Ok t -> t_empty t = false -> (i < length (b_ineq b))%nat ->
  nth i (tab_kinds t (length (b_ineq b))) Other = Other ->
  exists p, 0 < hd 0 p /\ length p = (1 + total b)%nat /\ Forall (zero_on p) (b_eq b) /\
    (forall j, (j < length (b_ineq b))%nat -> j <> i ->
      match nth j (tab_kinds t (length (b_ineq b))) Other with Equality => zero_on p (nth j (b_ineq b) []) | Redundant => True | Other => nonneg_on p (nth j (b_ineq b) []) end) /\
    dot (nth i (b_ineq b) []) p < 0 /\ (b_rat b = false -> dot (nth i (b_ineq b) []) p <= - hd 0 p).
Proof.
  intros W Ne H Em Hi Ki. pose proof (labelled_redundancy fuel b t Ne H) as B. pose proof (redundancy_steps fuel b t W Ne H) as St. rewrite Em in St. destruct St as (R & Nq & Nv0 & _).
  unfold redundancy_tab in H. apply bind_ok in H. destruct H as (t1 & H1 & H). apply bind_ok in H. destruct H as (t2 & H2 & H). apply bind_ok in H. destruct H as (t3 & H3 & H4).
  pose proof (from_basic_map_ok fuel b W Ne) as T1. rewrite H1 in T1. cbn [wpn] in T1. destruct T1 as (Rt & Nv & Un & T1).
  set (int := negb (b_rat b)) in *. set (L := b_eq b ++ b_ineq b) in *. set (t1' := w_preserve t1 true) in *.
  assert (Ada : forall v, admissible (b_rat b) v <-> adm int v). { intros v. unfold admissible, adm, int. destruct (b_rat b); cbn; intuition congruence. }
  destruct (t_empty t1) eqn:E1.
  { assert (X2 : t2 = t1'). { destruct fuel; [discriminate|]. cbn [detect_implicit_equalities] in H2. change (t_empty t1') with (t_empty t1) in H2. rewrite E1 in H2. injection H2 as <-. reflexivity. }
    subst t2. apply restore_empty in H3. change (t_empty t1') with (t_empty t1) in H3. unfold detect_redundant in H4. change (t_empty (w_preserve t3 false)) with (t_empty t3) in H4. rewrite H3, E1 in H4. injection H4 as <-.
    change (t_empty (w_preserve t3 false)) with (t_empty t3) in Em. congruence. }
  destruct T1 as (Nq1 & R1 & D1 & M1 & Fe1).
  assert (T1' : twin t1 t1') by (constructor; reflexivity).
  assert (Ri : forall t', t_rat t' = b_rat b -> t_rat t' = false -> int = true) by (intros t' E F; unfold int; rewrite <- E, F; reflexivity).
  pose proof (detect_eq_ok false int L fuel t1' (tw_represents _ _ T1' _ _ R1) (tw_sample _ _ T1' _ D1) (tw_marks _ _ T1' (unmarked_ok _ M1)) (Ri t1' Rt)) as G2. rewrite H2 in G2. cbn [wp] in G2.
  destruct G2 as (R2 & K2 & D2 & M2).
  pose proof (restore_redundant_ok int L fuel t2 R2 D2 M2 ltac:(rewrite (k_undo _ _ _ _ K2); exact Un)) as G3. rewrite H3 in G3. cbn [wp] in G3. destruct G3 as (R3 & K3 & D3 & M3).
  set (t3' := w_preserve t3 false) in *. assert (T3 : twin t3 t3') by (constructor; reflexivity).
  assert (Rt3 : t_rat t3' = b_rat b) by (change (t_rat t3') with (t_rat t3); rewrite (k_rat _ _ _ _ K3), (k_rat _ _ _ _ K2); exact Rt).
  pose proof (redundant_complete int L fuel t3' (represents_weak int _ _ (tw_represents _ _ T3 _ _ R3)) (tw_sample _ _ T3 _ D3) (tw_marks _ _ T3 M3) (Ri t3' Rt3)) as G4. rewrite H4 in G4. cbn [wp] in G4.
  assert (Rt4 : t_rat t = b_rat b).
  { pose proof (detect_red_ok int L fuel t3' (represents_weak int _ _ (tw_represents _ _ T3 _ _ R3)) (tw_sample _ _ T3 _ D3) (tw_marks _ _ T3 M3) (Ri t3' Rt3)) as G5. rewrite H4 in G5. destruct G5 as (_ & K4 & _). rewrite (k_rat _ _ _ _ K4). exact Rt3. }
  clear - R Nq Nv0 Em Hi Ki B G4 Rt4.
  assert (Nc : t_ncon t = (length (b_eq b) + length (b_ineq b))%nat) by (rewrite <- (c_len _ _ (r_core _ _ _ R)); unfold L; apply app_length).
  assert (Vi : forall p j, value L p (con (t_neq t + j)) = dot (nth j (b_ineq b) []) p) by (intros p j; unfold L; rewrite value_con, Nq, app_nth2 by lia; f_equal; f_equal; lia).
  rewrite nth_kinds in Ki by exact Hi. destruct (is_equality t (t_neq t + i)) eqn:Ei; [discriminate|]. destruct (is_redundant t (t_neq t + i)) eqn:Rdi; [discriminate|]. clear Ki.
  destruct (G4 Em (t_neq t + i)%nat) as (p & Hp & Lp & Eqs & Ins & Neg & Ng1); [lia|apply (lb_nonneg _ _ B); lia|apply (lb_frozen _ _ B)|exact Ei|exact Rdi|]. rewrite Vi in Neg, Ng1.
  exists p. split; [exact Hp|]. split; [rewrite Lp, Nv0; reflexivity|]. split; [|split; [|split; [exact Neg|rewrite <- Rt4; exact Ng1]]].
  - apply Forall_forall. intros e He. destruct (In_nth _ _ [] He) as (d & Hd & <-). specialize (Eqs d ltac:(lia)). rewrite value_con in Eqs. unfold L in Eqs. rewrite app_nth1 in Eqs by exact Hd. apply Eqs.
    unfold is_equality. rewrite (lb_zero _ _ B d) by lia. reflexivity.
  - intros j Hj Nj. rewrite nth_kinds by exact Hj. destruct (is_equality t (t_neq t + j)) eqn:Ej.
    + unfold zero_on. rewrite <- Vi. apply Eqs; [lia|exact Ej].
    + destruct (is_redundant t (t_neq t + j)) eqn:Rj; [exact I|]. unfold nonneg_on. rewrite <- Vi. apply Ins; [lia|apply (lb_nonneg _ _ B); lia|exact Rj|lia].
Qed.
