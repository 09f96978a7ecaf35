(** Adding constraints consists of the primitive operations. *)
From Coq Require Import ZArith List Bool Arith Lia.
From Verif Require Import SeqModel SeqSpec MatModel TabModel TabSpec TabBase TabStruct TabMark TabPivot TabStep TabSign TabKill TabAdd TabMin TabClose TabCut TabBuild TabMap LpModel LpUndo UndoSpec UndoBase UndoTrail UndoRoll UndoProofs UndoReach.
Import ListNotations.
Open Scope Z_scope.

Section Ops.
Variables (L0 : list (list Z)) (t0 : tab).
Hypothesis R0 : represents false L0 t0.
Hypothesis D0 : sample_ok None t0.
Hypothesis Un0 : t_undo t0 = true.
Let reach := reach L0 t0.
(** the constraint that is being made to hold is in a row *)
Definition exrow (ex : option Z) (t : tab) : Prop := forall x, ex = Some x -> v_row (t_info t x) = true.
Lemma reach_undo ex L t : reach ex L t -> t_undo t = true.
Proof. intros Rc. apply (i_undo _ _ _ _ _ (reach_inv L0 t0 R0 D0 Un0 _ _ _ Rc)). Qed.
Lemma reach_sample ex L t : reach ex L t -> sample_ok ex t.
Proof. intros Rc. apply (i_samp _ _ _ _ _ (reach_inv L0 t0 R0 D0 Un0 _ _ _ Rc)). Qed.
Lemma feasx_cols ex L t p : arranged t -> flagged t -> exrow ex t -> feasx ex L t p -> ok_cols L t p.
Proof.
  intros A F Er (Lp & H). constructor; auto.
  - intros v V (I & R). destruct (f_gone _ F v V I) as (_ & X). rewrite R in X. apply (H v V). apply X.
  - intros c Hc Hd. destruct (a_col _ A c Hc) as (V & _). apply (H _ V). destruct (f_cols _ F c Hc) as (-> & _). apply Nat.ltb_lt. exact Hd.
  - intros c Hc N. destruct (a_col _ A c Hc) as (V & _ & Rc). apply (H _ V); [exact N|apply (f_cols _ F c Hc)|]. intros E. specialize (Er _ (eq_sym E)). congruence.
Qed.
Lemma mark_reach ex L t i t' b : reach ex L t -> represents false L t -> exrow ex t -> (t_red t <= i < nrow t)%nat -> row_is_redundant t i = true -> mark_redundant t i = Ok (t', b) ->
  reach ex L t' /\ represents false L t' /\ exrow ex t' /\ b = false /\ nrow t' = nrow t /\ t_red t' = S (t_red t) /\ t_inundo t' = t_inundo t.
Proof.
  intros Rc R Er Hi B Hm. pose proof (r_core _ _ _ R) as C. pose proof (c_arr _ _ C) as A. pose proof (c_flg _ _ C) as F. pose proof (reach_undo _ _ _ Rc) as Un.
  apply redundant_redrow in B; [|exact A|lia]. assert (Nn : rowv t i < 0 -> v_nonneg (t_info t (rowv t i)) = true) by (destruct B as (B & _); exact B).
  pose proof (mark_ok t i A F Hi) as M. rewrite Hm in M. cbn [wp] in M. destruct M as ((A' & F' & S' & R' & O' & N') & Hnr & Hrd).
  destruct (mark_log t i t' b A F Hi Un Nn Hm) as (-> & _). destruct (a_row _ A i) as (V & Ix & Rv); [lia|].
  assert (Cl : clean t t').
  { split; [exact A'|]. split; [exact F'|]. split; [exact S'|]. intros u Vu Hu. destruct (Z.eq_dec u (rowv t i)) as [->|Nu].
    - split; [exact B|]. split; [exact Rv|]. split; [congruence|]. rewrite (f_rows _ F) by lia. apply Nat.ltb_ge. apply Hi.
    - destruct (O' u Nu) as (O1 & O2 & _). destruct Hu as [(X1 & X2)|(X1 & X2)]; congruence. }
  pose proof (clean_represents false L t t' R Cl) as R1.
  assert (Er' : exrow ex t'). { intros x Hx. destruct (s_keep _ _ S' x) as (_ & _ & -> & _). apply Er, Hx. }
  split; [|split; [exact R1|]; split; [exact Er'|]; split; [reflexivity|]; split; [exact Hnr|]; split; [exact Hrd|apply S']].
  apply (r_mark L0 t0 ex L t i t' false Rc R Hi Nn Hm). intros p Hp Fe. pose proof (feasx_cols ex L t' p A' F' Er' Fe) as O. pose proof (clean_cols L t t' p A Cl O) as O1.
  apply (redrow_ge0 L t p (rowv t i) A (c_rel _ _ C) O1 Hp V Rv); [congruence|exact B].
Qed.
Lemma sweep_reach ex L c : forall k i t t', reach ex L t -> represents false L t -> exrow ex t -> (t_red t <= i)%nat -> (i + k = nrow t)%nat -> sweep k i c t = Ok t' ->
  reach ex L t' /\ represents false L t' /\ exrow ex t' /\ t_inundo t' = t_inundo t.
Proof.
  induction k as [|k IH]; intros i t t' Rc R Er Hr Hk; cbn [sweep]; [intros [= <-]; auto|].
  destruct (cf t i c =? 0); [apply IH; auto; lia|]. destruct (negb (v_frozen (t_info t (rowv t i))) && row_is_redundant t i) eqn:B; [|apply IH; auto; lia].
  apply andb_prop in B. destruct B as (_ & B). destruct (mark_redundant t i) as [[t1 b]| | |] eqn:E; cbn [bind]; try discriminate.
  destruct (mark_reach ex L t i t1 b Rc R Er ltac:(lia) B E) as (Rc1 & R1 & Er1 & -> & Nr & Rd & Iu). intros H. destruct (IH (S i) t1 t' Rc1 R1 Er1 ltac:(lia) ltac:(lia) H) as (X1 & X2 & X3 & X4). split; [exact X1|]. split; [exact X2|]. split; [exact X3|congruence].
Qed.
Lemma pivot_reach ex ex' L t i c t' : reach ex L t -> represents false L t -> (t_red t <= i < nrow t)%nat -> (t_dead t <= c < ncol t)%nat -> cf t i c <> 0 ->
  sample_ok ex' (pivot_step t i c) -> ex' = ex \/ ex' = None -> exrow ex' (pivot_step t i c) -> pivot t i c = Ok t' -> reach ex' L t' /\ represents false L t' /\ exrow ex' t' /\ t_inundo t' = t_inundo t.
Proof.
  intros Rc R Hi Hc Nz Ds Ex Er. pose proof (st_represents false L t i c R Hi Hc Nz) as R1. pose proof (r_pivot L0 t0 ex ex' L t i c Rc R Hi Hc Nz Ds Ex) as Rc1. unfold pivot. set (t1 := pivot_step t i c) in *.
  destruct (t_inundo t1) eqn:Iu; [intros [= <-]; auto|]. pose proof (f_red _ (c_flg _ _ (r_core _ _ _ R1))) as Fr. intros H.
  apply (sweep_reach ex' L c (nrow t1 - t_red t1) (t_red t1) t1 t' Rc1 R1 Er); auto; lia.
Qed.
Lemma up_reach L t v i r c t' : reach (Some v) L t -> represents false L t -> live_row t v i -> found t i true 1 (Some (r, c)) -> r <> i -> pivot t r c = Ok t' ->
  reach (Some v) L t' /\ represents false L t' /\ t_inundo t' = t_inundo t /\ v_row (t_info t' v) = true /\ exists i2, live_row t' v i2.
Proof.
  intros Rc R Lr Fo Nr Hp. pose proof (reach_sample _ _ _ Rc) as D. pose proof (up_step false L t v i r c (Some v) R Lr Fo D (or_intror eq_refl) Nr) as W. rewrite Hp in W. cbn [wp] in W. destruct W as (R2 & _ & _ & _ & Rw2 & Lr2).
  destruct Fo as (Hc & (Nz & Us) & H). cbn zeta in H. rewrite Z.mul_1_l in H. destruct H as [(E & _)|(Cr & Mn)]; [contradiction|].
  pose proof (c_arr _ _ (r_core _ _ _ R)) as A. pose proof (c_flg _ _ (r_core _ _ _ R)) as F. pose proof Cr as [Hr _ Nn Sg]. assert (Nzr : cf t r c <> 0) by lia.
  pose proof Lr as (Hi & Ei). assert (Nv : rowv t r <> v) by (intros E; apply Nr; rewrite <- Ei in E; apply (rowv_inj t); auto; lia).
  assert (Ds : sample_ok (Some v) (pivot_step t r c)).
  { apply (ratio_sample false L t r c (Some i) (Z.sgn (cf t i c)) (Some v) (Some v)); auto.
    - destruct (cf t i c); cbn; lia.
    - congruence.
    - intros Nu _. destruct Us as [Us|Us]; [exact Us|congruence].
    - intros j [= <-] Nx Nj. split; [apply D; assumption|]. destruct (cf t i c); cbn; lia. }
  destruct (live_row_info t v i A F Lr) as (V & Rw & _).
  destruct (pivot_reach (Some v) (Some v) L t r c t' Rc R Hr Hc Nzr Ds (or_introl eq_refl)) as (X1 & X2 & _ & X4); auto.
  intros x [= <-]. rewrite (ps_info t r c A) by lia. rewrite (proj2 (Z.eqb_neq v (rowv t r))) by congruence. destruct (v =? colv t c); [reflexivity|exact Rw].
Qed.
Lemma own_reach L t v i c t' : reach (Some v) L t -> represents false L t -> live_row t v i -> found t i true 1 (Some (i, c)) -> cst t i <= 0 -> pivot t i c = Ok t' ->
  reach None L t' /\ represents false L t' /\ t_inundo t' = t_inundo t /\ v_row (t_info t' v) = false.
Proof.
  intros Rc R Lr Fo Ci Hp. pose proof (reach_sample _ _ _ Rc) as D. pose proof (up_own false L t v i c R Lr Fo D Ci) as W. rewrite Hp in W. cbn [wp] in W. destruct W as (_ & _ & _ & _ & Rw2 & _).
  destruct Fo as (Hc & (Nz & Us) & H). cbn zeta in H. rewrite Z.mul_1_l in H. destruct H as [(_ & Nc)|([_ Q _ _] & _)]; [|congruence]. pose proof Lr as (Hi & Ei).
  assert (Ds : sample_ok None (pivot_step t i c)).
  { apply (own_sample false L t i c); auto; [rewrite Ei; exact D|]. intros Nu. destruct Us as [Us|Us]; [|congruence]. destruct (cf t i c); cbn in Us; lia. }
  destruct (pivot_reach (Some v) None L t i c t' Rc R Hi Hc Nz Ds (or_intror eq_refl)) as (X1 & X2 & _ & X4); auto. discriminate.
Qed.
Lemma restore_reach L v : forall fuel t i t' s, reach (Some v) L t -> represents false L t -> live_row t v i -> restore_row fuel t v = Ok (t', s) ->
  represents false L t' /\ t_inundo t' = t_inundo t /\ reach (Some v) L t' /\ v_row (t_info t' v) = true \/ represents false L t' /\ t_inundo t' = t_inundo t /\ reach None L t' /\ s = 1.
Proof.
  induction fuel as [|fuel IH]; intros t i t' s Rc R Lr; [discriminate|]. cbn [restore_row].
  pose proof (c_arr _ _ (r_core _ _ _ R)) as A. pose proof (c_flg _ _ (r_core _ _ _ R)) as F. destruct (live_row_info t v i A F Lr) as (V & Rw & Rd & _).
  rewrite (live_row_of t v i A Lr). cbn [bind]. destruct (Z.ltb_spec (cst t i) 0) as [Neg|Pos]; [|intros [= <- <-]; left; auto].
  destruct (find_pivot_ok t v true 1 i A F eq_refl Lr) as (o & -> & Fo). cbn [bind]. destruct o as [[r c]|]; [|intros [= <- <-]; left; auto].
  destruct (pivot t r c) as [t2| | |] eqn:Ep; cbn [bind]; try discriminate. destruct (Nat.eq_dec r i) as [->|Nr].
  - destruct (own_reach L t v i c t2 Rc R Lr Fo ltac:(lia) Ep) as (Rc2 & R2 & Iu & Rw2). rewrite Rw2. intros [= <- <-]. right. auto.
  - destruct (up_reach L t v i r c t2 Rc R Lr Fo Nr Ep) as (Rc2 & R2 & Iu & Rw2 & i2 & Lr2). rewrite Rw2. intros H. destruct (IH t2 i2 t' s Rc2 R2 Lr2 H) as [(X1 & X2 & X3)|(X1 & X2 & X3)]; [left|right]; rewrite <- Iu; auto.
Qed.
(** isl_tab_add_ineq *)
Lemma add_ineq_reach fuel L t ineq t' : reach None L t -> represents false L t -> length ineq = (1 + t_nvar t)%nat -> add_ineq fuel t ineq = Ok t' ->
  (exists ex, reach ex (L ++ [cone_line t ineq]) t') /\ (t_empty t' = false -> reach None (L ++ [cone_line t ineq]) t').
Proof.
  intros Rc R Ll. pose proof (reach_sample _ _ _ Rc) as D. pose proof (add_ineq_ok false L t fuel ineq R D Ll) as G. intros H. rewrite H in G. cbn [wp] in G.
  set (l := cone_line t ineq) in *. assert (Ll' : length l = (1 + t_nvar t)%nat) by (unfold l; rewrite cone_line_length; exact Ll).
  cut (exists ex, reach ex (L ++ [l]) t').
  { intros (ex & X). split; [exists ex; exact X|]. intros Ne. apply (r_settle L0 t0 ex); [exact X|]. apply (gr_sample _ _ _ _ _ G Ne). }
  pose proof (r_core _ _ _ R) as C. unfold add_ineq in H. fold l in H. destruct (add_row_new false L t l R Ll') as (t1 & Ea & Nr). rewrite Ea in H. cbn [bind] in H. rewrite (nr_con _ _ _ _ _ Nr) in H. set (w := con (t_ncon t)) in *.
  pose proof (r_add L0 t0 L t l t1 Rc R Ll' Ea) as Rc1. pose proof (nr_rep _ _ _ _ _ Nr) as R1. pose proof (r_core _ _ _ R1) as C1. pose proof (c_arr _ _ C1) as A1. pose proof (nr_live _ _ _ _ _ Nr) as Lv1. fold w in Lv1.
  pose proof (nr_new _ _ _ _ _ Nr) as Iw. fold w in Iw.
  assert (Vw : valid t1 w) by (apply (nr_valid _ _ _ _ _ _ Nr); right; reflexivity).
  assert (Rd1 : v_red (t_info t1 w) = false) by (rewrite Iw; reflexivity). assert (Ng : w < 0) by (unfold w, con; lia).
  destruct (push_var (upd t1 w (vs_nonneg true)) U_nonneg w) as [t3| | |] eqn:Ep; cbn [bind] in H; try discriminate.
  assert (Rc3 : reach (Some w) (L ++ [l]) t3) by (apply (r_nonneg L0 t0 (L ++ [l]) t1 w t3 Rc1 Vw Ng); [rewrite Iw; reflexivity|exact Rd1|exact Ep]).
  set (t2 := upd t1 w (vs_nonneg true)) in *. pose proof (sn_represents false (L ++ [l]) t1 w R1 Vw Ng Rd1) as R2. fold t2 in R2.
  pose proof (c_arr _ _ (r_core _ _ _ R2)) as A2. rewrite (push_var_eq t2 U_nonneg w A2) in Ep; [|exact Vw|unfold t2; rewrite upd_info, Z.eqb_refl, Iw; discriminate]. injection Ep as <-.
  pose proof (twin_push t2 (U_nonneg w)) as Tw. set (t3 := push t2 (U_nonneg w)) in *. pose proof (tw_represents _ _ Tw _ _ R2) as R3. pose proof (c_arr _ _ (r_core _ _ _ R3)) as A3.
  assert (Lv3 : live_row t3 w (nrow t)) by (apply (tw_live _ _ Tw); exact Lv1). rewrite (live_row_of _ _ _ A3 Lv3) in H. cbn [bind] in H.
  destruct (live_row_info _ _ _ A3 (c_flg _ _ (r_core _ _ _ R3)) Lv3) as (V3 & Rw3 & _).
  destruct (row_is_redundant t3 (nrow t)) eqn:Rr.
  { destruct (mark_redundant t3 (nrow t)) as [[t4 b]| | |] eqn:Em; cbn [bind] in H; try discriminate. injection H as <-. exists (Some w). apply (mark_reach (Some w) (L ++ [l]) t3 (nrow t) t4 b); auto; [intros x [= <-]; exact Rw3|apply Lv3]. }
  destruct (restore_row fuel t3 w) as [[t4 s]| | |] eqn:Es; cbn [bind] in H; try discriminate.
  pose proof (restore_row_ok false (L ++ [l]) w fuel t3 (nrow t) R3 Lv3 (reach_sample _ _ _ Rc3)) as W. rewrite Es in W. cbn [wp] in W. destruct W as (_ & E4 & Rd4 & _ & _ & Sam).
  assert (V4 : valid t4 w) by (apply (evolve_valid _ _ _ _ E4); exact V3).
  destruct (restore_reach (L ++ [l]) w fuel t3 (nrow t) t4 s Rc3 R3 Lv3 Es) as [(R4 & _ & Rc4 & Rw4)|(R4 & _ & Rc4 & ->)].
  - destruct (Z.ltb_spec s 0) as [Sn|Sp]; [injection H as <-; exists (Some w); apply r_empty; exact Rc4|]. rewrite Rw4 in H.
    destruct (live_row_at t4 w) as (i & Lv4); [apply R4|apply R4|exact V4|exact Rw4|exact Rd4|]. rewrite (live_row_of _ _ _ (c_arr _ _ (r_core _ _ _ R4)) Lv4) in H. cbn [bind] in H.
    destruct (row_is_redundant t4 i) eqn:Rr4; [|injection H as <-; exists (Some w); exact Rc4].
    destruct (mark_redundant t4 i) as [[t5 b]| | |] eqn:Em; cbn [bind] in H; try discriminate. injection H as <-. exists (Some w). apply (mark_reach (Some w) (L ++ [l]) t4 i t5 b); auto; [intros x [= <-]; exact Rw4|apply Lv4].
  - cbn [Z.ltb Z.compare] in H. destruct (v_row (t_info t4 w)) eqn:Rw4; [|injection H as <-; exists None; exact Rc4].
    destruct (live_row_at t4 w) as (i & Lv4); [apply R4|apply R4|exact V4|exact Rw4|exact Rd4|]. rewrite (live_row_of _ _ _ (c_arr _ _ (r_core _ _ _ R4)) Lv4) in H. cbn [bind] in H.
    destruct (row_is_redundant t4 i) eqn:Rr4; [|injection H as <-; exists None; exact Rc4].
    destruct (mark_redundant t4 i) as [[t5 b]| | |] eqn:Em; cbn [bind] in H; try discriminate. injection H as <-. exists None. apply (mark_reach None (L ++ [l]) t4 i t5 b); auto; [discriminate|apply Lv4].
Qed.
(** several inequalities *)
Lemma add_ineqs_reach fuel : forall ls L t t', reach None L t -> represents false L t -> (forall l, List.In l ls -> length l = (1 + t_nvar t)%nat) -> add_ineqs fuel t ls = Ok t' -> exists ex L', reach ex L' t'.
Proof.
  induction ls as [|l ls IH]; intros L t t' Rc R Ll; cbn [add_ineqs]; [intros [= <-]; eauto|]. destruct (add_ineq fuel t l) as [t1| | |] eqn:E; cbn [bind]; try discriminate.
  pose proof (add_ineq_ok false L t fuel l R (reach_sample _ _ _ Rc) (Ll l (or_introl eq_refl))) as G. rewrite E in G. cbn [wp] in G.
  destruct (add_ineq_reach fuel L t l t1 Rc R (Ll l (or_introl eq_refl)) E) as ((ex & X1) & X2). destruct (t_empty t1) eqn:Em; [intros [= <-]; eauto|].
  apply (IH (L ++ [cone_line t l]) t1); [apply X2; reflexivity|apply G|]. intros l' Hl'. rewrite (gr_nvar _ _ _ _ _ G). apply Ll. right. exact Hl'.
Qed.
End Ops.

Lemma nested_ok L0 t0 L t1 : represents false L0 t0 -> sample_ok None t0 -> t_undo t0 = true -> reach L0 t0 None L t1 -> represents false L t1 ->
  forall fuel ex2 L2 t2, reach L t1 ex2 L2 t2 -> exists t', rollback (S fuel) t2 (length (t_log t1)) = Ok t' /\ reach L0 t0 None L t'.
Proof.
  intros R0 D0 U0 Rc R1 fuel ex2 L2 t2 Rc2. pose proof (reach_sample L0 t0 R0 D0 U0 _ _ _ Rc) as D1. pose proof (reach_undo L0 t0 R0 D0 U0 _ _ _ Rc) as U1.
  destruct (rollback_ok L t1 R1 D1 U1 fuel ex2 L2 t2 Rc2) as (t' & E & R' & D' & Al & _ & Lg & U'). exists t'. split; [exact E|]. apply (r_back L0 t0 L t1); assumption.
Qed.
(** a snapshot only sets a flag *)
Lemma snap_twin t : same t (fst (tab_snap t)).
Proof. constructor; reflexivity. Qed.
Lemma add_ineqs_undone L t fuel ls t1 : represents false L t -> sample_ok None t -> (forall l, List.In l ls -> length l = (1 + t_nvar t)%nat) ->
  add_ineqs fuel (fst (tab_snap t)) ls = Ok t1 ->
  exists t', rollback 1 t1 (snd (tab_snap t)) = Ok t' /\ represents false L t' /\ sample_ok None t' /\ alike t t' /\ (forall p, feas L t' p <-> feas L t p) /\ t_log t' = t_log t.
Proof.
  intros R D Ll H. pose proof (snap_twin t) as Sm. set (s := fst (tab_snap t)) in *. pose proof (same_represents _ _ _ _ Sm R) as R0. pose proof (same_sample _ _ _ Sm D) as D0. assert (U0 : t_undo s = true) by reflexivity.
  destruct (add_ineqs_reach L s R0 D0 U0 fuel ls L s t1 (r_start L s) R0 Ll H) as (ex & L' & Rc). destruct (rollback_ok L s R0 D0 U0 0 ex L' t1 Rc) as (t' & E & R' & D' & Al & F & Lg & _).
  exists t'. split; [exact E|]. split; [exact R'|]. split; [exact D'|]. split; [apply (alike_trans t s t'); [apply alike_info; auto|exact Al]|]. split; [|exact Lg]. intros p. rewrite F. split; exact (fun x => x).
Qed.
