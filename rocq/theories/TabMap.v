(** The tableau of a basic map, and what it says about the inequalities. *)
From Coq Require Import ZArith List Bool Arith Lia.
From Verif Require BElimProofs.
From Verif Require Import SeqModel SeqSpec SeqProofs MatModel BMapModel BMapSpec BMapSem BMapLists BMapGauss2 BElimModel BElimSpec BElimFM TabModel TabSpec TabBase TabStruct TabMark TabPivot TabStep TabSign TabKill TabAdd TabClose TabCut TabDetect TabRestore TabBuild.
Import ListNotations.
Open Scope Z_scope.

(** ** the new tableau *)
Lemma alloc_rep n rat : represents false [] (w_rat (tab_alloc n) rat).
Proof.
  set (t := w_rat (tab_alloc n) rat).
  assert (Nc : ncol t = n) by (unfold ncol, t; cbn; rewrite map_length, seq_length; reflexivity).
  assert (Ec : forall c, (c < n)%nat -> colv t c = Z.of_nat c).
  { intros c Hc. unfold colv, t. cbn [w_rat tab_alloc t_cv]. rewrite (nth_map_d Z.of_nat (seq 0 n) O) by (rewrite seq_length; exact Hc). rewrite seq_nth by exact Hc. reflexivity. }
  assert (Ii : forall v, 0 <= v < Z.of_nat n -> v_idx (t_info t v) = Some (Z.to_nat v)).
  { intros v Hv. cbn. rewrite (proj2 (Z.leb_le _ _)), (proj2 (Z.ltb_lt _ _)) by lia. reflexivity. }
  assert (Vv : forall v, valid t v <-> 0 <= v < Z.of_nat n) by (intros v; unfold valid; cbn; lia).
  assert (Ng : forall v, valid t v -> ~ gone t v). { intros v V (G & _). apply (proj1 (Vv v)) in V. rewrite Ii in G by exact V. discriminate. }
  constructor; [constructor| |].
  - constructor.
    + reflexivity.
    + intros i Hi. cbn in Hi. lia.
    + intros i Hi. cbn in Hi. lia.
    + intros c Hc. rewrite Nc in Hc. rewrite Ec by exact Hc. split; [apply Vv; lia|]. split; [|reflexivity]. rewrite Ii by lia. rewrite Nat2Z.id. reflexivity.
    + intros v i V E. apply (proj1 (Vv v)) in V. rewrite Ii in E by exact V. injection E as <-. change (v_row (t_info t v)) with false. cbn iota. rewrite Nc, Ec by lia. lia.
    + intros i Hi. cbn in Hi. lia.
  - constructor.
    + cbn. lia.
    + cbn. lia.
    + intros i Hi. cbn in Hi. lia.
    + intros c Hc. split; reflexivity.
    + intros v V E. apply (proj1 (Vv v)) in V. rewrite Ii in E by exact V. discriminate.
    + intros v V _. split; [reflexivity|]. intros E. discriminate.
  - reflexivity.
  - intros l [].
  - intros p Lp G i Hi. cbn in Hi. lia.
  - intros x z. exists 1, (x :: map z (seq 0 n)). split; [lia|]. split; [cbn; rewrite map_length, seq_length; reflexivity|]. split; [cbn [hd]; lia|]. split.
    + intros c Hc. rewrite Nc in Hc. rewrite Ec by exact Hc. rewrite value_var. cbn [nth plus]. rewrite (nth_map_d z (seq 0 n) O) by (rewrite seq_length; exact Hc). rewrite seq_nth by exact Hc. cbn [plus]. lia.
    + intros v V G. destruct (Ng v V G).
  - intros p _ _ v V E. discriminate.
  - intros p _ _ v V E. discriminate.
Qed.
Lemma alloc_quiet n rat : quiet (w_rat (tab_alloc n) rat).
Proof. intros u _. split; reflexivity. Qed.
Lemma alloc_feas n rat p : feas [] (w_rat (tab_alloc n) rat) p <-> length p = (1 + n)%nat.
Proof. split; [intros (H & _); exact H|]. intros H. split; [exact H|]. intros v _. split; intros E; discriminate. Qed.

(** ** the equalities *)
Definition dependent_eqs (n : nat) (L es : list (list Z)) : Prop :=
  exists i, (i < length es)%nat /\ dependent n (L ++ firstn i es) (nth i es []).
Lemma add_eqs_ok : forall es L t, represents false L t -> quiet t -> (forall e, List.In e es -> length e = (1 + t_nvar t)%nat) -> t_empty t = false ->
  wpn (dependent_eqs (t_nvar t) L es) (add_eqs t es) (fun t' => represents false (L ++ es) t' /\ quiet t' /\ t_nvar t' = t_nvar t /\ t_rat t' = t_rat t /\ t_undo t' = t_undo t /\ t_cone t' = t_cone t /\
    t_neq t' = (t_neq t + length es)%nat /\ t_empty t' = false /\ forall p, 0 < hd 0 p -> (feas (L ++ es) t' p <-> feas L t p /\ Forall (zero_on p) es)).
Proof.
  induction es as [|e es IH]; intros L t R Q W Em; cbn [add_eqs].
  { cbn [wpn]. rewrite app_nil_r. do 6 (split; [auto|]). split; [cbn [length]; lia|]. split; [exact Em|]. intros p _. split; [auto|tauto]. }
  pose proof (add_eq0_ok L t e R Q (W e (or_introl eq_refl))) as H. destruct (add_eq0 t e) as [t1| | |]; cbn [bind wpn] in H |- *; try contradiction; [| |exact I].
  2:{ exists O. cbn [firstn nth length]. rewrite app_nil_r. split; [lia|exact H]. }
  destruct H as (Ad & Q1 & Ne & Em1 & Fe). specialize (IH (L ++ [e]) t1 (ad_rep _ _ _ _ Ad) Q1). rewrite (ad_nvar _ _ _ _ Ad) in IH.
  specialize (IH (fun e' H => W e' (or_intror H)) ltac:(congruence)).
  destruct (add_eqs t1 es) as [t2| | |]; cbn [wpn] in IH |- *; try contradiction; [| |exact I].
  - destruct IH as (R2 & Q2 & X1 & X2 & X3 & X4 & X5 & X6 & F2). rewrite <- app_assoc in R2, F2. cbn [app] in R2, F2.
    split; [exact R2|]. split; [exact Q2|]. split; [congruence|]. split; [rewrite X2; apply Ad|]. split; [rewrite X3; apply Ad|]. split; [rewrite X4; apply Ad|].
    split; [rewrite X5, Ne; cbn [length]; lia|]. split; [exact X6|]. intros p Hp. rewrite (F2 p Hp), (Fe p Hp), Forall_cons_iff. unfold zero_on. tauto.
  - destruct IH as (i & Hi & Dp). exists (S i). cbn [firstn nth length]. rewrite <- app_assoc in Dp. split; [lia|exact Dp].
Qed.

(** ** the inequalities *)
Definition unmarked (t : tab) : Prop := forall u, valid t u -> v_marked (t_info t u) = false.
Record filled (L es : list (list Z)) (t t' : tab) : Prop := {
  fi_nvar : t_nvar t' = t_nvar t; fi_rat : t_rat t' = t_rat t; fi_undo : t_undo t' = t_undo t; fi_neq : t_neq t' = t_neq t;
  fi_empty : t_empty t' = true -> forall p, length p = (1 + t_nvar t)%nat -> 0 < hd 0 p -> feas L t p -> ~ Forall (nonneg_on p) es;
  fi_full : t_empty t' = false -> represents false (L ++ es) t' /\ sample_ok None t' /\ unmarked t' /\
    forall p, 0 < hd 0 p -> (feas (L ++ es) t' p <-> feas L t p /\ Forall (nonneg_on p) es) }.
Lemma adm_false p : adm false p <-> 0 < hd 0 p.
Proof. unfold adm. split; [intros (H & _); exact H|]. intros H. split; [exact H|discriminate]. Qed.
Lemma add_ineqs_ok fuel : forall es L t, represents false L t -> sample_ok None t -> unmarked t -> (forall e, List.In e es -> length e = (1 + t_nvar t)%nat) -> t_empty t = false -> t_cone t = false ->
  wp (add_ineqs fuel t es) (filled L es t).
Proof.
  induction es as [|e es IH]; intros L t R D M W Em Cn; cbn [add_ineqs].
  { cbn [wp]. constructor; try reflexivity; [congruence|]. intros _. rewrite app_nil_r. split; [exact R|]. split; [exact D|]. split; [exact M|]. intros p _. split; [auto|tauto]. }
  apply wp_bind. eapply wp_weak; [apply (add_ineq_ok false L t fuel e R D (W e (or_introl eq_refl)))|]. intros t1 G. unfold cone_line in G. rewrite Cn in G.
  pose proof (gr_nvar _ _ _ _ _ G) as Nv.
  assert (M1 : unmarked t1). { intros u Vu. destruct (v_marked (t_info t1 u)) eqn:Mk; [|reflexivity]. destruct (gr_marked _ _ _ _ _ G u Vu Mk) as (V0 & M0). rewrite M in M0 by exact V0. discriminate. }
  destruct (t_empty t1) eqn:Em1.
  - cbn [wp]. constructor; try apply G; [|congruence]. intros _ p Lp Hp Fe Fa. apply Forall_cons_iff in Fa. destruct Fa as (Ne & _).
    destruct (gr_empty _ _ _ _ _ G Em1) as [X|N]; [congruence|]. apply (N p); [apply adm_false; exact Hp|]. apply (gr_feas _ _ _ _ _ G); [apply adm_false; exact Hp|]. split; [exact Fe|exact Ne].
  - eapply wp_weak; [apply (IH (L ++ [e]) t1 (gr_rep _ _ _ _ _ G) (gr_sample _ _ _ _ _ G Em1) M1); [rewrite Nv; intros e' H; apply W; right; exact H|exact Em1|rewrite (gr_cone _ _ _ _ _ G); exact Cn]|].
    intros t2 F2. assert (Eq : forall p, 0 < hd 0 p -> (feas (L ++ [e]) t1 p <-> feas L t p /\ nonneg_on p e)) by (intros p Hp; apply (gr_feas _ _ _ _ _ G); apply adm_false; exact Hp).
    constructor.
    + rewrite (fi_nvar _ _ _ _ F2). exact Nv.
    + rewrite (fi_rat _ _ _ _ F2). apply G.
    + rewrite (fi_undo _ _ _ _ F2). apply G.
    + rewrite (fi_neq _ _ _ _ F2). apply G.
    + intros E p Lp Hp Fe Fa. apply Forall_cons_iff in Fa. destruct Fa as (Ne & Fa). apply (fi_empty _ _ _ _ F2 E p); [rewrite Nv; exact Lp|exact Hp|apply (Eq p Hp); split; assumption|exact Fa].
    + intros E. destruct (fi_full _ _ _ _ F2 E) as (R2 & D2 & M2 & Fe2). rewrite <- app_assoc in R2, Fe2. cbn [app] in R2, Fe2. split; [exact R2|]. split; [exact D2|]. split; [exact M2|].
      intros p Hp. rewrite (Fe2 p Hp), (Eq p Hp), Forall_cons_iff. tauto.
Qed.

(** ** isl_tab_restore_redundant does not change the emptiness *)
Lemma bind_ok {A B} (r : res A) (f : A -> res B) b : bind r f = Ok b -> exists a, r = Ok a /\ f a = Ok b.
Proof. destruct r; cbn; try discriminate. intros H. eexists. split; [reflexivity|exact H]. Qed.
Lemma push_empty t u : t_empty (push t u) = t_empty t.
Proof. unfold push. destruct (t_undo t); reflexivity. Qed.
Lemma push_var_empty t u v t' : push_var t u v = Ok t' -> t_empty t' = t_empty t.
Proof.
  unfold push_var. destruct (v_row (t_info t v)); intros H; apply bind_ok in H; destruct H as (i & _ & H); injection H as <-; apply push_empty.
Qed.
Lemma swap_empty t i j : t_empty (swap_rows t i j) = t_empty t. Proof. reflexivity. Qed.
Lemma mark_empty_keep t i t' b : mark_redundant t i = Ok (t', b) -> t_empty t' = t_empty t.
Proof.
  unfold mark_redundant. set (t1 := upd t (rowv t i) (vs_red true)). assert (E1 : t_empty t1 = t_empty t) by reflexivity. clearbody t1. generalize (rowv t i) as v. intros v.
  destruct (Nat.ltb i (t_red t1)); [discriminate|]. destruct (t_preserve t1 || t_undo t1 || (0 <=? v)).
  - intros H. apply bind_ok in H. destruct H as (t2 & H2 & H). assert (E2 : t_empty t2 = t_empty t1).
    { destruct ((0 <=? v) && negb (v_nonneg (t_info t1 v))); [apply push_var_empty in H2; rewrite H2; reflexivity|injection H2 as <-; reflexivity]. }
    apply bind_ok in H. destruct H as (t3 & H3 & H). injection H as <- <-. apply push_var_empty in H3. rewrite H3. cbn [w_red t_empty]. destruct (Nat.eqb i (t_red t2)); [|rewrite swap_empty]; congruence.
  - intros H. injection H as <- <-. cbn [w_rows w_rv t_empty upd w_info]. destruct (Nat.eqb i (nrow t1 - 1)); [|rewrite swap_empty]; congruence.
Qed.
Lemma sweep_empty : forall k i c t t', sweep k i c t = Ok t' -> t_empty t' = t_empty t.
Proof.
  induction k as [|k IH]; intros i c t t'; cbn [sweep]; [intros [= <-]; reflexivity|]. destruct (cf t i c =? 0); [apply IH|]. destruct (negb (v_frozen (t_info t (rowv t i))) && row_is_redundant t i); [|apply IH].
  intros H. apply bind_ok in H. destruct H as ((t1, b) & H1 & H). apply mark_empty_keep in H1. rewrite <- H1. apply (IH _ _ _ _ H).
Qed.
Lemma pivot_empty t i c t' : pivot t i c = Ok t' -> t_empty t' = t_empty t.
Proof. unfold pivot. destruct (t_inundo _); [intros [= <-]; reflexivity|]. intros H. apply sweep_empty in H. rewrite H. reflexivity. Qed.
Lemma restore_row_empty : forall fuel t v t' s, restore_row fuel t v = Ok (t', s) -> t_empty t' = t_empty t.
Proof.
  induction fuel as [|f IH]; intros t v t' s; cbn [restore_row]; [discriminate|]. intros H. apply bind_ok in H. destruct H as (i & _ & H).
  destruct (cst t i <? 0); [|injection H as <- _; reflexivity]. apply bind_ok in H. destruct H as ([(r, c)|] & _ & H); [|injection H as <- _; reflexivity].
  apply bind_ok in H. destruct H as (t1 & H1 & H). apply pivot_empty in H1. rewrite <- H1. destruct (v_row (t_info t1 v)); [apply (IH _ _ _ _ H)|injection H as <- _; reflexivity].
Qed.
Lemma restore_loop_empty : forall fuel t t', restore_redundant_loop fuel t = Ok t' -> t_empty t' = t_empty t.
Proof.
  induction fuel as [|f IH]; intros t t'; cbn [restore_redundant_loop]; [discriminate|]. destruct (t_red t) as [|n]; [intros [= <-]; reflexivity|].
  set (t1 := if 0 <=? rowv t n then upd t (rowv t n) (vs_nonneg false) else t). assert (E1 : t_empty t1 = t_empty t) by (unfold t1; destruct (0 <=? rowv t n); reflexivity). clearbody t1.
  intros H. apply bind_ok in H. destruct H as (t2 & H2 & H). apply IH in H. rewrite H, <- E1. unfold restore_last_redundant in H2. destruct (t_red t1); [discriminate|].
  apply bind_ok in H2. destruct H2 as ((t3, s) & H3 & H2). injection H2 as <-. apply restore_row_empty in H3. rewrite H3. reflexivity.
Qed.
Lemma restore_empty fuel t t' : restore_redundant fuel t = Ok t' -> t_empty t' = t_empty t.
Proof. unfold restore_redundant. destruct (t_undo t); [discriminate|]. apply restore_loop_empty. Qed.

(** ** isl_tab_from_basic_map *)
Definition tab_for (b : bmap) (t : tab) : Prop :=
  t_rat t = b_rat b /\ t_nvar t = total b /\ t_undo t = false /\
  if t_empty t then forall v, length v = (1 + total b)%nat -> 0 < hd 0 v -> ~ system (b_eq b) (b_ineq b) v
  else t_neq t = length (b_eq b) /\ represents false (b_eq b ++ b_ineq b) t /\ sample_ok None t /\ unmarked t /\
    forall v, 0 < hd 0 v -> (feas (b_eq b ++ b_ineq b) t v <-> length v = (1 + total b)%nat /\ system (b_eq b) (b_ineq b) v).
Theorem from_basic_map_ok fuel b : wf b -> b_empty b = false -> wpn (dependent_eqs (total b) [] (b_eq b)) (from_basic_map fuel b) (tab_for b).
Proof.
  intros (We & Wi & _) Ne. unfold from_basic_map. rewrite Ne. set (t0 := w_rat (tab_alloc (total b)) (b_rat b)).
  pose proof (add_eqs_ok (b_eq b) [] t0 (alloc_rep _ _) (alloc_quiet _ _)) as H. change (t_nvar t0) with (total b) in H.
  assert (We' : forall e, List.In e (b_eq b) -> length e = (1 + total b)%nat) by (intros e; apply (proj1 (Forall_forall _ _) We)). specialize (H We' eq_refl).
  destruct (add_eqs t0 (b_eq b)) as [t1| | |]; cbn [bind wpn] in H |- *; try contradiction; try exact H.
  destruct H as (R1 & Q1 & X1 & X2 & X3 & X4 & X5 & X6 & F1). cbn [app] in R1, F1.
  assert (Wi' : forall e, List.In e (b_ineq b) -> length e = (1 + t_nvar t1)%nat) by (rewrite X1; intros e; apply (proj1 (Forall_forall _ _) Wi)).
  assert (M1 : unmarked t1) by (intros u Vu; apply (Q1 u Vu)).
  apply wp_wpn. eapply wp_weak; [apply (add_ineqs_ok fuel (b_ineq b) (b_eq b) t1 R1 (quiet_sample _ _ (r_core _ _ _ R1) Q1) M1 Wi' X6 X4)|].
  assert (F1' : forall p, 0 < hd 0 p -> (feas (b_eq b) t1 p <-> length p = (1 + total b)%nat /\ Forall (zero_on p) (b_eq b))) by (intros p Hp; rewrite (F1 p Hp); unfold t0; rewrite alloc_feas; reflexivity).
  intros t2 F2. split; [rewrite (fi_rat _ _ _ _ F2); exact X2|]. split; [rewrite (fi_nvar _ _ _ _ F2); exact X1|]. split; [rewrite (fi_undo _ _ _ _ F2); exact X3|]. destruct (t_empty t2) eqn:E2.
  - intros v Lv Hv (S1 & S2). apply (fi_empty _ _ _ _ F2 E2 v); [rewrite X1; exact Lv|exact Hv|apply (F1' v Hv); split; assumption|exact S2].
  - destruct (fi_full _ _ _ _ F2 E2) as (R2 & D2 & M2 & Fe2). split; [rewrite (fi_neq _ _ _ _ F2), X5; reflexivity|]. split; [exact R2|]. split; [exact D2|]. split; [exact M2|].
    intros v Hv. rewrite (Fe2 v Hv), (F1' v Hv). unfold system. tauto.
Qed.

(** ** what the tableau says about the inequalities *)
Lemma represents_weak int L t : represents false L t -> represents int L t.
Proof. intros [H1 H2 H3]. constructor; auto. intros p (Hp & _). apply H3. apply adm_false. exact Hp. Qed.
Lemma unmarked_ok t : unmarked t -> marks_ok t.
Proof. intros H v V _ Mk. rewrite H in Mk by exact V. discriminate. Qed.
Lemma value_con L p c : value L p (con c) = dot (nth c L []) p.
Proof. unfold value, con. rewrite (proj2 (Z.ltb_lt _ _)) by lia. do 2 f_equal. lia. Qed.
Lemma valid_con t c : valid t (con c) <-> (c < t_ncon t)%nat.
Proof. unfold valid, con. lia. Qed.
Lemma neg_con t v : valid t v -> v < 0 -> exists c, v = con c /\ (c < t_ncon t)%nat.
Proof. intros V N. exists (Z.to_nat (- 1 - v)). unfold con, valid in *. lia. Qed.
(** a constraint that isl_tab_is_equality reports is zero at all points *)
Lemma is_equality_ok int L t c p : represents int L t -> (c < t_ncon t)%nat -> is_equality t c = true -> feas L t p -> value L p (con c) = 0.
Proof.
  intros R Hc H Fe. pose proof (r_core _ _ _ R) as C. pose proof (c_arr _ _ C) as A. pose proof (c_flg _ _ C) as F. assert (V : valid t (con c)) by (apply valid_con; exact Hc).
  unfold is_equality in H. destruct Fe as (Lp & Hf) eqn:Ef. destruct (v_zero (t_info t (con c))) eqn:Z0; [apply (Hf _ V); exact Z0|].
  destruct (v_red (t_info t (con c))) eqn:Rd; [discriminate|]. destruct (v_row (t_info t (con c))) eqn:Rw; cbn [negb] in H.
  - destruct (v_idx (t_info t (con c))) as [i|] eqn:Ix; [|discriminate]. destruct (at_row _ _ _ A V Ix Rw) as (Hi & Ei).
    unfold row_zero in H. apply andb_prop in H. destruct H as (H1 & H2). apply Z.eqb_eq in H1. destruct (first_live t i) eqn:Fl; [discriminate|].
    pose proof (row_const L t i p C Hi (first_live_none _ _ Fl) Lp (feas_zero_cols L t p Fe)) as X. rewrite Ei, H1 in X. pose proof (a_den _ A i Hi). nia.
  - exfalso. destruct (v_idx (t_info t (con c))) as [i|] eqn:Ix.
    + destruct (at_col _ _ _ A V Ix Rw) as (Hi & Ei). destruct (f_cols _ F i Hi) as (X & _). rewrite Ei, Z0, H in X. discriminate.
    + destruct (f_gone _ F _ V Ix) as (_ & X). rewrite Rw in X. destruct X as (X & _). congruence.
Qed.
(** a constraint that isl_tab_is_redundant reports carries the mark *)
Lemma is_redundant_red L t c : core L t -> (c < t_ncon t)%nat -> is_redundant t c = true -> v_red (t_info t (con c)) = true.
Proof.
  intros C Hc H. pose proof (c_arr _ _ C) as A. pose proof (c_flg _ _ C) as F. assert (V : valid t (con c)) by (apply valid_con; exact Hc).
  unfold is_redundant in H. destruct (v_zero (t_info t (con c))); [discriminate|]. destruct (v_red (t_info t (con c))) eqn:Rd; [reflexivity|]. apply andb_prop in H. destruct H as (Rw & H).
  destruct (v_idx (t_info t (con c))) as [i|] eqn:Ix.
  - destruct (at_row _ _ _ A V Ix Rw) as (Hi & Ei). pose proof (f_rows _ F i Hi) as X. rewrite Ei, Rd, H in X. exact X.
  - destruct (f_gone _ F _ V Ix) as (_ & X). rewrite Rw in X. congruence.
Qed.
Lemma nth_kinds t n i : (i < n)%nat -> nth i (tab_kinds t n) Other = if is_equality t (t_neq t + i) then Equality else if is_redundant t (t_neq t + i) then Redundant else Other.
Proof. intros H. unfold tab_kinds. rewrite (nth_map_d _ (seq 0 n) O) by (rewrite seq_length; exact H). rewrite seq_nth by exact H. reflexivity. Qed.
Theorem kinds_classified int eqs ineqs t : represents int (eqs ++ ineqs) t -> t_neq t = length eqs ->
  (forall p, adm int p -> (feas (eqs ++ ineqs) t p <-> length p = (1 + t_nvar t)%nat /\ system eqs ineqs p)) ->
  forall p, length p = (1 + t_nvar t)%nat -> adm int p -> (system eqs ineqs p <-> Forall (zero_on p) eqs /\ obeys (tab_kinds t (length ineqs)) ineqs p).
Proof.
  intros R Ne Fe p Lp Ad. pose proof (r_core _ _ _ R) as C. pose proof (c_flg _ _ C) as F. assert (Nc : t_ncon t = (length eqs + length ineqs)%nat) by (rewrite <- (c_len _ _ C), app_length; reflexivity).
  assert (Vi : forall i, value (eqs ++ ineqs) p (con (t_neq t + i)) = dot (nth i ineqs []) p) by (intros i; rewrite value_con, Ne, app_nth2 by lia; f_equal; f_equal; lia).
  split.
  - intros S. split; [apply S|]. intros i Hi. rewrite nth_kinds by exact Hi. destruct (is_equality t (t_neq t + i)) eqn:Eq.
    + unfold zero_on. rewrite <- Vi. apply (is_equality_ok int (eqs ++ ineqs) t); [exact R|lia|exact Eq|]. apply Fe; [exact Ad|]. auto.
    + destruct (is_redundant t (t_neq t + i)); [exact I|]. destruct S as (_ & S). apply (proj1 (Forall_forall _ _) S). apply nth_In. exact Hi.
  - intros (Ze & Ob). apply (Fe p Ad). split; [exact Lp|]. intros v V.
    assert (Zc : v < 0 -> (v_zero (t_info t v) = true -> value (eqs ++ ineqs) p v = 0) /\ (v_red (t_info t v) = false -> 0 <= value (eqs ++ ineqs) p v)).
    { intros Ng. destruct (neg_con t v V Ng) as (c & -> & Hc). destruct (Nat.lt_ge_cases c (length eqs)) as [Lt|Ge].
      - assert (X : value (eqs ++ ineqs) p (con c) = 0) by (rewrite value_con, app_nth1 by exact Lt; apply (proj1 (Forall_forall _ _) Ze); apply nth_In; exact Lt). rewrite X. split; [reflexivity|lia].
      - replace c with (t_neq t + (c - length eqs))%nat in * by lia. set (i := (c - length eqs)%nat) in *. assert (Hi : (i < length ineqs)%nat) by lia. rewrite Vi. specialize (Ob i Hi). rewrite nth_kinds in Ob by exact Hi.
        split.
        + intros Z0. assert (E : is_equality t (t_neq t + i) = true) by (unfold is_equality; rewrite Z0; reflexivity). rewrite E in Ob. exact Ob.
        + intros Rd. destruct (is_equality t (t_neq t + i)); [unfold zero_on in Ob; lia|]. destruct (is_redundant t (t_neq t + i)) eqn:Er; [|exact Ob].
          apply (is_redundant_red _ t _ C) in Er; [congruence|lia]. }
    destruct (Z.lt_ge_cases v 0) as [Ng|Ps].
    + destruct (Zc Ng) as (H1 & H2). split; auto.
    + destruct (f_var _ F v V Ps) as (H1 & H2). split; intros; [congruence|]. rewrite H2 in * by assumption. discriminate.
Qed.

(** ** isl_basic_map_remove_redundancies *)
Lemma redundancy_steps fuel b t : wf b -> b_empty b = false -> redundancy_tab fuel b = Ok t ->
  if t_empty t then forall v, length v = (1 + total b)%nat -> admissible (b_rat b) v -> ~ system (b_eq b) (b_ineq b) v
  else represents (negb (b_rat b)) (b_eq b ++ b_ineq b) t /\ t_neq t = length (b_eq b) /\ t_nvar t = total b /\
    forall p, adm (negb (b_rat b)) p -> (feas (b_eq b ++ b_ineq b) t p <-> length p = (1 + total b)%nat /\ system (b_eq b) (b_ineq b) p).
Proof.
  intros W Ne H. unfold redundancy_tab in H. apply bind_ok in H. destruct H as (t1 & H1 & H). apply bind_ok in H. destruct H as (t2 & H2 & H). apply bind_ok in H. destruct H as (t3 & H3 & H4).
  pose proof (from_basic_map_ok fuel b W Ne) as T1. rewrite H1 in T1. cbn [wpn] in T1. destruct T1 as (Rt & Nv & Un & T1).
  set (int := negb (b_rat b)) in *. set (L := b_eq b ++ b_ineq b) in *. set (t1' := w_preserve t1 true) in *.
  assert (Ada : forall v, admissible (b_rat b) v <-> adm int v). { intros v. unfold admissible, adm, int. destruct (b_rat b); cbn; intuition congruence. }
  destruct (t_empty t1) eqn:E1.
  { assert (X2 : t2 = t1'). { destruct fuel; [discriminate|]. cbn [detect_implicit_equalities] in H2. change (t_empty t1') with (t_empty t1) in H2. rewrite E1 in H2. injection H2 as <-. reflexivity. }
    subst t2. apply restore_empty in H3. change (t_empty t1') with (t_empty t1) in H3. unfold detect_redundant in H4. change (t_empty (w_preserve t3 false)) with (t_empty t3) in H4. rewrite H3, E1 in H4. injection H4 as <-.
    change (t_empty (w_preserve t3 false)) with (t_empty t3). rewrite H3, E1. intros v Lv (Hv & _). apply T1; assumption. }
  destruct T1 as (Nq & R1 & D1 & M1 & Fe1).
  assert (T1' : twin t1 t1') by (constructor; reflexivity).
  assert (Ri : forall t', t_rat t' = b_rat b -> t_rat t' = false -> int = true) by (intros t' E F; unfold int; rewrite <- E, F; reflexivity).
  pose proof (detect_eq_ok false int L fuel t1' (tw_represents _ _ T1' _ _ R1) (tw_sample _ _ T1' _ D1) (tw_marks _ _ T1' (unmarked_ok _ M1)) (Ri t1' Rt)) as G2. rewrite H2 in G2. cbn [wp] in G2.
  destruct G2 as (R2 & K2 & D2 & M2).
  pose proof (restore_redundant_ok int L fuel t2 R2 D2 M2 ltac:(rewrite (k_undo _ _ _ _ K2); exact Un)) as G3. rewrite H3 in G3. cbn [wp] in G3. destruct G3 as (R3 & K3 & D3 & M3).
  set (t3' := w_preserve t3 false) in *. assert (T3 : twin t3 t3') by (constructor; reflexivity).
  assert (Rt3 : t_rat t3' = b_rat b) by (change (t_rat t3') with (t_rat t3); rewrite (k_rat _ _ _ _ K3), (k_rat _ _ _ _ K2); exact Rt).
  pose proof (detect_red_ok int L fuel t3' (represents_weak int _ _ (tw_represents _ _ T3 _ _ R3)) (tw_sample _ _ T3 _ D3) (tw_marks _ _ T3 M3) (Ri t3' Rt3)) as G4. rewrite H4 in G4. cbn [wp] in G4.
  destruct G4 as (R4 & K4 & D4 & M4).
  assert (Fe : forall p, adm int p -> (feas L t p <-> length p = (1 + total b)%nat /\ system (b_eq b) (b_ineq b) p)).
  { intros p Ad. rewrite (k_feas _ _ _ _ K4 p Ad). rewrite (tw_feas _ _ T3). rewrite (k_feas _ _ _ _ K3 p Ad), (k_feas _ _ _ _ K2 p Ad), (tw_feas _ _ T1'). apply Fe1. apply Ad. }
  destruct (t_empty t) eqn:E4.
  - intros v Lv Av Sv. apply Ada in Av.
    assert (Fv : feas L t v) by (apply (Fe v Av); auto).
    destruct (k_empty _ _ _ _ K4 E4) as [E3|N]; [|exact (N v Av Fv)]. change (t_empty t3') with (t_empty t3) in E3.
    assert (Fv3 : feas L t3 v) by (apply (k_feas _ _ _ _ K4 v Av) in Fv; apply (tw_feas _ _ T3); exact Fv).
    destruct (k_empty _ _ _ _ K3 E3) as [E2|N]; [|exact (N v Av Fv3)]. apply (k_feas _ _ _ _ K3 v Av) in Fv3.
    destruct (k_empty _ _ _ _ K2 E2) as [E0|N]; [change (t_empty t1') with (t_empty t1) in E0; congruence|exact (N v Av Fv3)].
  - split; [exact R4|]. split; [rewrite (k_neq _ _ _ _ K4); change (t_neq t3') with (t_neq t3); rewrite (k_neq _ _ _ _ K3), (k_neq _ _ _ _ K2); exact Nq|].
    split; [rewrite (k_nvar _ _ _ _ K4); change (t_nvar t3') with (t_nvar t3); rewrite (k_nvar _ _ _ _ K3), (k_nvar _ _ _ _ K2); exact Nv|exact Fe].
Qed.
Theorem redundancy_classified fuel b t : wf b -> b_empty b = false -> redundancy_tab fuel b = Ok t ->
  classified b (t_empty t) (tab_kinds t (length (b_ineq b))).
Proof.
  intros W Ne H. pose proof (redundancy_steps fuel b t W Ne H) as X. intros v Lv Av. destruct (t_empty t); [apply X; assumption|].
  destruct X as (R & Nq & Nv & Fe). apply (kinds_classified (negb (b_rat b)) (b_eq b) (b_ineq b) t R Nq); [rewrite Nv; exact Fe|rewrite Nv; exact Lv|].
  unfold admissible in Av. unfold adm. destruct (b_rat b); cbn; intuition congruence.
Qed.
Lemma others_classified b : classified b false (map (fun _ => Other) (b_ineq b)).
Proof.
  intros v Lv Av. unfold system. split.
  - intros (S1 & S2). split; [exact S1|]. intros i Hi. replace (nth i (map (fun _ => Other) (b_ineq b)) Other) with Other; [apply (proj1 (Forall_forall _ _) S2); apply nth_In; exact Hi|].
    symmetry. destruct (nth_in_or_default i (map (fun _ => Other) (b_ineq b)) Other) as [X|X]; [|exact X]. apply in_map_iff in X. destruct X as (y & <- & _). reflexivity.
  - intros (S1 & Ob). split; [exact S1|]. apply Forall_forall. intros e He. destruct (In_nth _ _ [] He) as (i & Hi & <-). specialize (Ob i Hi).
    replace (nth i (map (fun _ => Other) (b_ineq b)) Other) with Other in Ob; [exact Ob|]. symmetry.
    destruct (nth_in_or_default i (map (fun _ => Other) (b_ineq b)) Other) as [X|X]; [|exact X]. apply in_map_iff in X. destruct X as (y & <- & _). reflexivity.
Qed.
Theorem tab_of_sound fuel : sound_tab (tab_of fuel).
Proof.
  intros b W Ne. unfold tab_of. destruct (redundancy_tab fuel b) as [t| | |] eqn:E; cbn [fst snd]; try apply others_classified. apply (redundancy_classified fuel b t W Ne E).
Qed.

(** ** summaries *)
Lemma rows_hold int L t p i : represents int L t -> feas L t p -> (i < nrow t)%nat ->
  0 < den t i /\ den t i * value L p (rowv t i) = dot (tl (nth i (t_rows t) [])) (hd 0 p :: map (value L p) (t_cv t)).
Proof.
  intros R Fe Hi. pose proof (r_core _ _ _ R) as C. split; [apply (a_den _ (c_arr _ _ C) i Hi)|]. pose proof (feas_cols _ _ _ (c_arr _ _ C) (c_flg _ _ C) Fe) as O.
  apply (c_rel _ _ C p (oc_len _ _ _ O) (oc_gone _ _ _ O) i Hi).
Qed.
Lemma pivot_keeps int L t i c : represents int L t -> (t_red t <= i < nrow t)%nat -> (t_dead t <= c < ncol t)%nat -> cf t i c <> 0 ->
  wp (pivot t i c) (fun t' => represents int L t' /\ forall p, 0 < hd 0 p -> (feas L t' p <-> feas L t p)).
Proof. intros R Hi Hc Nz. eapply wp_weak; [apply (pivot_ok int L t i c R Hi Hc Nz)|]. intros t' (R' & E & _). split; [exact R'|]. apply (e_feas _ _ _ E). Qed.
Lemma sample_feasible int L t : represents int L t -> sample_ok None t ->
  exists p, 0 < hd 0 p /\ feas L t p /\ forall i, (i < nrow t)%nat -> den t i * value L p (rowv t i) = hd 0 p * cst t i.
Proof. intros R D. destruct (sample_point int L t R D) as (k & p & K & E & Fe & H). exists p. rewrite E. auto. Qed.
Lemma add_ineq_keeps int L t fuel ineq : represents int L t -> sample_ok None t -> t_cone t = false -> t_empty t = false -> length ineq = (1 + t_nvar t)%nat ->
  wp (add_ineq fuel t ineq) (fun t' => represents int (L ++ [ineq]) t' /\
    (forall p, adm int p -> (feas (L ++ [ineq]) t' p <-> feas L t p /\ 0 <= dot ineq p)) /\
    if t_empty t' then forall p, adm int p -> feas L t p -> ~ 0 <= dot ineq p else sample_ok None t').
Proof.
  intros R D Cn Em Ll. eapply wp_weak; [apply (add_ineq_ok int L t fuel ineq R D Ll)|]. intros t' G. unfold cone_line in G. rewrite Cn in G.
  split; [apply G|]. split; [apply G|]. destruct (t_empty t') eqn:E; [|apply (gr_sample _ _ _ _ _ G E)]. intros p Ad Fe H. destruct (gr_empty _ _ _ _ _ G E) as [X|N]; [congruence|].
  apply (N p Ad). apply (gr_feas _ _ _ _ _ G p Ad). auto.
Qed.
Lemma add_eq_keeps L t e : represents false L t -> quiet t -> length e = (1 + t_nvar t)%nat ->
  match add_eq0 t e with
  | Ok t' => represents false (L ++ [e]) t' /\ quiet t' /\ forall p, 0 < hd 0 p -> (feas (L ++ [e]) t' p <-> feas L t p /\ dot e p = 0)
  | Null => dependent (t_nvar t) L e
  | UB => False
  | Div => True
  end.
Proof. intros R Q Le. pose proof (add_eq0_ok L t e R Q Le) as H. destruct (add_eq0 t e); cbn [wpn] in H; try exact H. destruct H as (Ad & Q' & _ & _ & Fe). split; [apply Ad|]. auto. Qed.
Lemma detect_eq_keeps int L fuel t : represents int L t -> sample_ok None t -> marks_ok t -> (t_rat t = false -> int = true) ->
  wp (detect_implicit_equalities fuel t) (fun t' => represents int L t' /\ sample_ok None t' /\ marks_ok t' /\ (forall p, adm int p -> (feas L t' p <-> feas L t p)) /\
    (t_empty t' = true -> t_empty t = true \/ forall p, adm int p -> ~ feas L t p)).
Proof.
  intros R D M Hr. eapply wp_weak; [apply (detect_eq_ok int int L fuel t R D M Hr)|]. intros t' (R' & K & D' & M'). split; [exact R'|]. split; [exact D'|]. split; [exact M'|]. split; [apply K|].
  intros E. destruct (k_empty _ _ _ _ K E) as [X|N]; [left; exact X|right]. intros p Ad Fe. apply (N p Ad). apply (k_feas _ _ _ _ K p Ad). exact Fe.
Qed.
Lemma detect_red_keeps int L fuel t : represents int L t -> sample_ok None t -> marks_ok t -> (t_rat t = false -> int = true) ->
  wp (detect_redundant fuel t) (fun t' => represents int L t' /\ sample_ok None t' /\ marks_ok t' /\ (forall p, adm int p -> (feas L t' p <-> feas L t p)) /\
    (t_empty t' = true -> t_empty t = true \/ forall p, adm int p -> ~ feas L t p)).
Proof.
  intros R D M Hr. eapply wp_weak; [apply (detect_red_ok int L fuel t R D M Hr)|]. intros t' (R' & K & D' & M'). split; [exact R'|]. split; [exact D'|]. split; [exact M'|]. split; [apply K|].
  intros E. destruct (k_empty _ _ _ _ K E) as [X|N]; [left; exact X|right]. intros p Ad Fe. apply (N p Ad). apply (k_feas _ _ _ _ K p Ad). exact Fe.
Qed.
Lemma restore_keeps L fuel t : represents false L t -> sample_ok None t -> marks_ok t -> t_undo t = false ->
  wp (restore_redundant fuel t) (fun t' => represents false L t' /\ sample_ok None t' /\ marks_ok t' /\ forall p, adm false p -> (feas L t' p <-> feas L t p)).
Proof. intros R D M U. eapply wp_weak; [apply (restore_redundant_ok false L fuel t R D M U)|]. intros t' (R' & K & D' & M'). split; [exact R'|]. split; [exact D'|]. split; [exact M'|apply K]. Qed.
Lemma sign_of_max_exact int L v fuel t : represents int L t -> live t v -> sample_ok None t ->
  wp (sign_of_max fuel t v) (fun '(t', s) => represents int L t' /\ sample_ok None t' /\ (forall p, 0 < hd 0 p -> (feas L t' p <-> feas L t p)) /\
    ((s = 1 /\ exists p, 0 < hd 0 p /\ feas L t p /\ 0 < value L p v) \/
     (s = 0 /\ (exists p, 0 < hd 0 p /\ feas L t p /\ value L p v = 0) /\ forall p, 0 < hd 0 p -> feas L t p -> value L p v <= 0) \/
     (s = -1 /\ forall p, 0 < hd 0 p -> feas L t p -> value L p v < 0))).
Proof.
  intros R Lv D. eapply wp_weak; [apply (sign_of_max_ok int L v fuel t R Lv D)|]. intros (t', s) (R' & E & D' & _ & S). pose proof (e_feas _ _ _ E) as Fe.
  split; [exact R'|]. split; [exact D'|]. split; [exact Fe|]. destruct S as [(-> & p & Hp & Fp & Ps)|(Hs & i & Lr & Es & M)].
  - left. split; [reflexivity|]. exists p. split; [exact Hp|]. split; [apply (Fe p Hp); exact Fp|exact Ps].
  - right. destruct (sample_point int L t' R' D') as (k & p & K & Hh & Fp & Hr). destruct Lr as (Hi & Ei). pose proof (a_den _ (c_arr _ _ (r_core _ _ _ R')) i (proj2 Hi)) as Dn.
    assert (Up : forall q, 0 < hd 0 q -> feas L t q -> den t' i * value L q v <= cst t' i * hd 0 q).
    { intros q Hq Fq. apply (at_max_le int L t' v i q R' (conj Hi Ei) M). apply (Fe q Hq). exact Fq. }
    destruct (Z.eq_dec s 0) as [->|N]; [left|right].
    + symmetry in Es. assert (C0 : cst t' i = 0) by (destruct (cst t' i); cbn in Es; congruence). split; [reflexivity|]. split.
      * exists p. split; [lia|]. split; [apply Fe; [lia|exact Fp]|]. specialize (Hr i (proj2 Hi)). rewrite Ei, C0 in Hr. nia.
      * intros q Hq Fq. specialize (Up q Hq Fq). rewrite C0 in Up. nia.
    + assert (C0 : cst t' i < 0) by (destruct (cst t' i); cbn in Es; lia). split; [rewrite Es; apply Z.sgn_neg; exact C0|]. intros q Hq Fq. specialize (Up q Hq Fq). nia.
Qed.
Lemma from_basic_map_keeps fuel b : wf b -> b_empty b = false ->
  match from_basic_map fuel b with
  | Ok t => if t_empty t then forall v, length v = (1 + total b)%nat -> 0 < hd 0 v -> ~ system (b_eq b) (b_ineq b) v
            else represents false (b_eq b ++ b_ineq b) t /\ sample_ok None t /\ marks_ok t /\
              forall v, 0 < hd 0 v -> (feas (b_eq b ++ b_ineq b) t v <-> length v = (1 + total b)%nat /\ system (b_eq b) (b_ineq b) v)
  | Null => exists i, (i < length (b_eq b))%nat /\ dependent (total b) (firstn i (b_eq b)) (nth i (b_eq b) [])
  | UB => False
  | Div => True
  end.
Proof.
  intros W Ne. pose proof (from_basic_map_ok fuel b W Ne) as H. destruct (from_basic_map fuel b) as [t| | |]; cbn [wpn] in H; try exact H.
  - destruct H as (_ & _ & _ & H). destruct (t_empty t); [exact H|]. destruct H as (_ & R & D & M & Fe). split; [exact R|]. split; [exact D|]. split; [apply unmarked_ok; exact M|exact Fe].
Qed.
Lemma from_echelon fuel b ps : wf b -> b_empty b = false -> echelon (b_eq b) ps -> from_basic_map fuel b <> Null.
Proof.
  intros W Ne (Lp & Dec & Piv) E. pose proof (from_basic_map_keeps fuel b W Ne) as H. rewrite E in H. destruct H as (i & Hi & Dp). rewrite <- Lp in Hi.
  destruct (Piv i Hi) as (P0 & Ps & _ & Oth). set (c := nth i ps O) in *. pose proof (proj1 (Forall_forall _ _) (proj1 W)) as We.
  assert (Li : length (nth i (b_eq b) []) = (1 + total b)%nat) by (apply We, nth_In; rewrite <- Lp; exact Hi).
  assert (Hc : (c < 1 + total b)%nat). { destruct (lt_dec c (1 + total b)) as [|N]; [assumption|]. rewrite nth_overflow in Ps by (rewrite Li; lia). lia. }
  specialize (Dp (zupd (repeat 0 (1 + total b)) c 1)). rewrite zupd_length, repeat_length in Dp.
  assert (Dt : forall e, length e = (1 + total b)%nat -> dot e (zupd (repeat 0 (1 + total b)) c 1) = nth c e 0).
  { intros e Le. rewrite dot_comm, dot_zupd by (rewrite ?repeat_length; lia). rewrite dot_repeat0, nth_repeat. lia. }
  rewrite Dt in Dp by exact Li. rewrite Dp in Ps; [lia|reflexivity| |].
  - destruct c as [|c']; [lia|]. reflexivity.
  - intros m Hm. destruct (In_nth _ _ [] Hm) as (j & Hj & <-). rewrite firstn_length in Hj. assert (Hji : (j < i)%nat) by lia.
    rewrite (BElimProofs.nth_firstn_eq (firstn i (b_eq b)) (b_eq b) [] j i); [|rewrite firstn_firstn, Nat.min_id; reflexivity|exact Hji].
    rewrite Dt; [apply Oth; lia|]. apply We, nth_In. lia.
Qed.
