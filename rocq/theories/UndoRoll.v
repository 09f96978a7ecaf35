(** Rolling back. *)
From Coq Require Import ZArith List Bool Arith Lia.
From Verif Require Import SeqModel SeqSpec MatModel TabModel TabSpec TabBase TabStruct TabMark TabPivot TabStep TabSign TabKill TabAdd TabMin TabCut TabBuild TabMap LpModel LpUndo UndoSpec UndoBase UndoTrail.
Import ListNotations.
Open Scope Z_scope.

(** ** undoing the allocation of a constraint *)
Section Alloc.
Variables (L1 : list (list Z)) (l0 : list Z) (h t : tab).
Hypothesis R : represents false L1 h.
Hypothesis D : dropped h t.
Hypothesis A : arranged t.
Hypothesis Ll : length l0 = (1 + t_nvar t)%nat.
Hypothesis Re : related (L1 ++ [l0]) t.
Hypothesis Ind : independent (L1 ++ [l0]) t.
Let w := con (t_ncon h).
Let Ah : arranged h := c_arr _ _ (r_core _ _ _ R).
Let Fh : flagged h := c_flg _ _ (r_core _ _ _ R).
Let Len : length L1 = t_ncon h := c_len _ _ (r_core _ _ _ R).
Lemma da_valid v : valid t v <-> valid h v \/ v = w.
Proof. unfold valid, w, con. rewrite (d_nvar _ _ D), (d_ncon _ _ D). lia. Qed.
Lemma da_value p v : valid h v -> value (L1 ++ [l0]) p v = value L1 p v.
Proof. intros V. apply value_app. rewrite Len. unfold valid in V. lia. Qed.
Lemma da_w : v_nonneg (t_info t w) = false /\ v_zero (t_info t w) = false /\ v_red (t_info t w) = false.
Proof. pose proof (d_new _ _ D) as H. fold w in H. unfold flags in H. injection H as -> -> -> _. auto. Qed.
Lemma da_posed : posed t.
Proof.
  destruct da_w as (Nw & Zw & Rw). constructor.
  - rewrite (d_dead _ _ D), (d_ncol _ _ D). apply Fh.
  - rewrite (d_red _ _ D), (d_nrow _ _ D). pose proof (f_red _ Fh). lia.
  - intros i Hi. destruct (a_row _ A i Hi) as (Vi & Ix & Rwi). rewrite (d_red _ _ D). apply da_valid in Vi. destruct (Nat.ltb_spec i (t_red h)) as [Lt|Ge].
    + rewrite (d_rows _ _ D i Lt). assert (Hh : (i < nrow h)%nat) by (pose proof (f_red _ Fh); lia). destruct (fl_eq _ _ (d_flag _ _ D _ (proj1 (a_row _ Ah i Hh)))) as (_ & _ & -> & _). rewrite (f_rows _ Fh i Hh). apply Nat.ltb_lt. exact Lt.
    + destruct Vi as [Vh| ->]; [|exact Rw]. destruct (fl_eq _ _ (d_flag _ _ D _ Vh)) as (_ & _ & -> & _). destruct (v_red (t_info h (rowv t i))) eqn:Q; [|reflexivity]. exfalso. destruct (v_idx (t_info h (rowv t i))) as [k|] eqn:Ek; [|apply (d_gone _ _ D _ Vh) in Ek; congruence].
      destruct (v_row (t_info h (rowv t i))) eqn:Rk.
      * destruct (at_row _ _ _ Ah Vh Ek Rk) as (Hk & Er). rewrite <- Er, (f_rows _ Fh k Hk) in Q. apply Nat.ltb_lt in Q. pose proof (d_rows _ _ D k Q) as X. rewrite Er in X. apply (rowv_inj t) in X; [lia|exact A|rewrite (d_nrow _ _ D); lia|exact Hi].
      * destruct (at_col _ _ _ Ah Vh Ek Rk) as (Hk & Er). destruct (f_cols _ Fh k Hk) as (_ & X). rewrite Er in X. congruence.
  - intros c Hc. destruct (a_col _ A c Hc) as (Vi & Ix & Rwc). rewrite (d_dead _ _ D). apply da_valid in Vi. pose proof Hc as Hc'. rewrite (d_ncol _ _ D) in Hc'. destruct (Nat.ltb_spec c (t_dead h)) as [Lt|Ge].
    + rewrite (d_cols _ _ D c Lt). destruct (fl_eq _ _ (d_flag _ _ D _ (proj1 (a_col _ Ah c Hc')))) as (_ & -> & -> & _). destruct (f_cols _ Fh c Hc') as (-> & ->). split; [apply Nat.ltb_lt; exact Lt|reflexivity].
    + destruct Vi as [Vh| ->]; [|split; assumption]. destruct (fl_eq _ _ (d_flag _ _ D _ Vh)) as (_ & -> & -> & _). destruct (v_idx (t_info h (colv t c))) as [k|] eqn:Ek; [|apply (d_gone _ _ D _ Vh) in Ek; congruence]. split.
      * destruct (v_zero (t_info h (colv t c))) eqn:Q; [|reflexivity]. exfalso. pose proof (d_zrow _ _ D _ Vh (or_introl Q)) as Zr. rewrite Rwc in Zr. symmetry in Zr.
        destruct (at_col _ _ _ Ah Vh Ek Zr) as (Hk & Er). destruct (f_cols _ Fh k Hk) as (X & _). rewrite Er, Q in X. symmetry in X. apply Nat.ltb_lt in X. pose proof (d_cols _ _ D k X) as Y. rewrite Er in Y. apply (colv_inj t) in Y; [lia|exact A|rewrite (d_ncol _ _ D); exact Hk|exact Hc].
      * destruct (v_red (t_info h (colv t c))) eqn:Q; [|reflexivity]. exfalso. destruct (v_row (t_info h (colv t c))) eqn:Rk.
        -- destruct (at_row _ _ _ Ah Vh Ek Rk) as (Hk & Er). rewrite <- Er, (f_rows _ Fh k Hk) in Q. apply Nat.ltb_lt in Q. pose proof (d_rows _ _ D k Q) as X. rewrite Er in X. revert X. apply row_col; [exact A|rewrite (d_nrow _ _ D); lia|exact Hc].
        -- destruct (at_col _ _ _ Ah Vh Ek Rk) as (Hk & Er). destruct (f_cols _ Fh k Hk) as (_ & X). rewrite Er in X. congruence.
  - intros v Vv N. apply da_valid in Vv. destruct Vv as [Vh| ->]; [|exfalso; exact (d_idx _ _ D N)]. apply (d_gone _ _ D v Vh) in N. destruct (f_gone _ Fh v Vh N) as (Ng & X). split; [exact Ng|]. destruct (fl_eq _ _ (d_flag _ _ D _ Vh)) as (_ & -> & -> & _). rewrite (d_zrow _ _ D v Vh (or_intror N)). exact X.
Qed.
Lemma da_represents : represents false (L1 ++ [l0]) t.
Proof.
  destruct da_w as (Nw & Zw & Rw). constructor.
  - constructor; auto.
    + apply posed_flagged; [exact da_posed|]. intros v Vv P. apply da_valid in Vv. destruct Vv as [Vh| ->]; [|unfold w, con in P; lia]. destruct (fl_eq _ _ (d_flag _ _ D _ Vh)) as (-> & -> & -> & _). apply (f_var _ Fh); assumption.
    + rewrite app_length, Len, (d_ncon _ _ D). cbn [length]. lia.
    + intros x Hx. apply in_app_or in Hx. destruct Hx as [Hx|[<-|[]]]; [|exact Ll]. rewrite (d_nvar _ _ D). apply (c_wid _ _ (r_core _ _ _ R)). exact Hx.
  - intros p Lp Hz v Vv Zv. rewrite (d_nvar _ _ D) in Lp. apply da_valid in Vv. destruct Vv as [Vh| ->]; [|congruence]. rewrite da_value by exact Vh. destruct (fl_eq _ _ (d_flag _ _ D _ Vh)) as (_ & X & _). rewrite X in Zv.
    apply (r_zero _ _ _ R p Lp); auto. intros u Vu Zu Ru. rewrite <- da_value by exact Vu. apply Hz; [apply da_valid; auto| |].
    + destruct (fl_eq _ _ (d_flag _ _ D _ Vu)) as (_ & -> & _). exact Zu.
    + rewrite (d_zrow _ _ D u Vu (or_introl Zu)). exact Ru.
  - intros p Ad (Lp & Fe) v Vv Nn. rewrite (d_nvar _ _ D) in Lp. apply da_valid in Vv. destruct Vv as [Vh| ->]; [|congruence]. rewrite da_value by exact Vh. destruct (fl_eq _ _ (d_flag _ _ D _ Vh)) as (X & _). rewrite X in Nn.
    apply (r_imp _ _ _ R p Ad); auto. split; [exact Lp|]. intros u Vu. destruct (Fe u) as (F1 & F2); [apply da_valid; auto|]. rewrite da_value in F1, F2 by exact Vu. destruct (fl_eq _ _ (d_flag _ _ D _ Vu)) as (Y1 & Y2 & Y3 & _). rewrite Y1, Y2, Y3 in *. auto.
Qed.
(** a constraint in a column occurs in some live row *)
Lemma da_col c : (t_dead t <= c < ncol t)%nat -> colv t c = w -> exists r, (t_red t <= r < nrow t)%nat /\ cf t r c <> 0.
Proof.
  intros Hc Ec. destruct (find (fun r => negb (cf t r c =? 0)) (live_rows t)) as [r|] eqn:Fn.
  { apply find_some in Fn. destruct Fn as (Hr & Nz). apply in_live_rows in Hr. exists r. split; [lia|]. destruct (Z.eqb_spec (cf t r c) 0); [discriminate|assumption]. }
  exfalso. assert (Z0 : forall r, (t_red t <= r < nrow t)%nat -> cf t r c = 0).
  { intros r Hr. pose proof (find_none _ _ Fn r) as X. assert (Hr' : List.In r (live_rows t)) by (apply in_live_rows; lia). specialize (X Hr'). cbv beta in X. destruct (Z.eqb_spec (cf t r c) 0) as [E|]; [exact E|discriminate]. }
  destruct (Ind 0 (fun k => if Nat.eqb k c then 1 else 0)) as (k & p & K & Lp & Hh & Cv & G). rewrite Z.mul_0_r in Hh.
  pose proof da_posed as P.
  (* all other live variables are zero *)
  assert (Zr : forall r, (t_red t <= r < nrow t)%nat -> value (L1 ++ [l0]) p (rowv t r) = 0).
  { intros r Hr. pose proof (row_expand _ t p r A Re Lp G ltac:(lia)) as E. rewrite Hh in E. rewrite (dot_one _ _ c) in E.
    - rewrite nth_skipn2, Z0 in E by exact Hr. pose proof (a_den _ A r ltac:(lia)). nia.
    - intros j Nj. destruct (Nat.lt_ge_cases j (ncol t)) as [Hj|Hj]; [|apply nth_overflow; rewrite map_length; exact Hj]. rewrite nth_vals by exact Hj. rewrite Cv by exact Hj. rewrite (proj2 (Nat.eqb_neq j c)) by exact Nj. ring. }
  assert (Zh : forall v, valid h v -> v_red (t_info h v) = false -> value L1 p v = 0).
  { intros v Vv Rd. rewrite <- da_value by exact Vv. assert (Vt : valid t v) by (apply da_valid; auto). destruct (fl_eq _ _ (d_flag _ _ D _ Vv)) as (_ & _ & X & _). rewrite Rd in X.
    destruct (v_idx (t_info t v)) as [j|] eqn:Ij.
    - destruct (v_row (t_info t v)) eqn:Rj.
      + destruct (at_row _ _ _ A Vt Ij Rj) as (Hj & <-). apply Zr. split; [|exact Hj]. pose proof (p_rows _ P j Hj) as Y. rewrite X in Y. symmetry in Y. apply Nat.ltb_ge in Y. exact Y.
      + destruct (at_col _ _ _ A Vt Ij Rj) as (Hj & Ej). rewrite <- Ej, Cv by exact Hj. destruct (Nat.eqb_spec j c) as [->|]; [|ring]. exfalso. rewrite Ec in Ej. subst v. unfold valid, w, con in Vv. lia.
    - destruct (p_gone _ P v Vt Ij) as (_ & Y). destruct (v_row (t_info t v)) eqn:Rj; [congruence|]. apply G; [exact Vt|split; assumption]. }
  assert (Lh : length p = (1 + t_nvar h)%nat) by (rewrite Lp, (d_nvar _ _ D); reflexivity).
  assert (Gh : forall v, valid h v -> gone h v -> value L1 p v = 0).
  { intros v Vv (G1 & G2). destruct (f_gone _ Fh v Vv G1) as (_ & Y). rewrite G2 in Y. apply Zh; tauto. }
  assert (Zx : forall v, valid h v -> 0 <= v -> value L1 p v = 0).
  { intros v Vv Pv. destruct (v_red (t_info h v)) eqn:Rd; [|apply Zh; assumption]. destruct (v_idx (t_info h v)) as [j|] eqn:Ij; [|exfalso; destruct (f_gone _ Fh v Vv Ij) as (Ng & _); lia].
    destruct (v_row (t_info h v)) eqn:Rj.
    - destruct (at_row _ _ _ Ah Vv Ij Rj) as (Hj & Ej). pose proof (row_expand _ h p j Ah (c_rel _ _ (r_core _ _ _ R)) Lh Gh Hj) as E. rewrite Hh, Ej in E.
      assert (Zc : forall q, nth q (map (value L1 p) (t_cv h)) 0 = 0).
      { intros q. destruct (Nat.lt_ge_cases q (ncol h)) as [Hq|Hq]; [|apply nth_overflow; rewrite map_length; exact Hq]. rewrite nth_vals by exact Hq. apply Zh; [apply (a_col _ Ah q Hq)|apply (f_cols _ Fh q Hq)]. }
      rewrite (dot_one _ _ 0%nat) in E by (intros q _; apply Zc). rewrite Zc in E. pose proof (a_den _ Ah j Hj). nia.
    - destruct (at_col _ _ _ Ah Vv Ij Rj) as (Hj & Ej). destruct (f_cols _ Fh j Hj) as (_ & Y). rewrite Ej in Y. congruence. }
  assert (P0 : p = repeat 0 (length p)).
  { apply (nth_ext _ _ 0 0); [rewrite repeat_length; reflexivity|]. intros j Hj. rewrite nth_repeat. destruct j as [|j]; [destruct p; [reflexivity|exact Hh]|].
    specialize (Zx (Z.of_nat j)). rewrite value_var in Zx. apply Zx; [|lia]. unfold valid. lia. }
  pose proof (Cv c ltac:(lia)) as E. rewrite Ec, Nat.eqb_refl in E. rewrite P0 in E. unfold w in E. rewrite value_con, dot_zeros in E. lia.
Qed.
Hypothesis D0 : sample_ok None t.
Hypothesis Iu : t_inundo t = true.
(** bringing the constraint in a row *)
Lemma da_row : exists t1, (if v_row (t_info t w) then Ok t
               else do b <- max_unb t w ;;
                 if negb b then to_row t w 1
                 else do b <- min_unb t w ;;
                   if negb b then to_row t w (-1) else to_row t w 0) = Ok t1 /\
  alike t t1 /\ represents false (L1 ++ [l0]) t1 /\ sample_ok None t1 /\ t_inundo t1 = true /\ t_log t1 = t_log t /\ t_undo t1 = t_undo t /\ exists i, live_row t1 w i.
Proof.
  pose proof da_represents as Rt. destruct da_w as (Nw & Zw & Rw). pose proof da_posed as P.
  assert (Vw : valid t w) by (apply da_valid; auto). destruct (v_idx (t_info t w)) as [j|] eqn:Ij; [|exfalso; exact (d_idx _ _ D Ij)].
  destruct (v_row (t_info t w)) eqn:Rj.
  { exists t. split; [reflexivity|]. split; [apply alike_refl|]. split; [exact Rt|]. split; [exact D0|]. split; [exact Iu|]. split; [reflexivity|]. split; [reflexivity|].
    destruct (at_row _ _ _ A Vw Ij Rj) as (Hj & Ej). exists j. split; [|exact Ej]. split; [|exact Hj]. pose proof (p_rows _ P j Hj) as X. rewrite Ej, Rw in X. symmetry in X. apply Nat.ltb_ge in X. exact X. }
  destruct (at_col _ _ _ A Vw Ij Rj) as (Hj & Ej). assert (Hc : (t_dead t <= j < ncol t)%nat). { split; [|exact Hj]. destruct (p_cols _ P j Hj) as (X & _). rewrite Ej, Zw in X. symmetry in X. apply Nat.ltb_ge in X. exact X. }
  assert (Fin : forall r, (t_red t <= r < nrow t)%nat -> cf t r j <> 0 -> sample_ok None (pivot_step t r j) ->
    exists t1, pivot t r j = Ok t1 /\ alike t t1 /\ represents false (L1 ++ [l0]) t1 /\ sample_ok None t1 /\ t_inundo t1 = true /\ t_log t1 = t_log t /\ t_undo t1 = t_undo t /\ exists i, live_row t1 w i).
  { intros r Hr Nz Ds. exists (pivot_step t r j). split; [unfold pivot; change (t_inundo (pivot_step t r j)) with (t_inundo t); rewrite Iu; reflexivity|].
    split; [apply (alike_step (L1 ++ [l0])); auto|]. split; [apply st_represents; auto|]. split; [exact Ds|]. split; [exact Iu|]. split; [reflexivity|]. split; [reflexivity|].
    exists r. split; [rewrite ps_nrow; exact Hr|]. rewrite ps_rowv by lia. rewrite Nat.eqb_refl. exact Ej. }
  rewrite (max_unb_ok t w j A Hj Ej), (min_unb_ok t w j A Hj Ej). cbn [bind]. unfold to_row. rewrite Rj. rewrite (col_of_eq t j w A) by (auto; lia). cbn [bind Z.eqb].
  assert (Dir : forall dir, Z.abs dir = 1 -> (exists b, cand t None dir j b) -> exists t1, match pivot_row t None dir j with None => Null | Some r => pivot t r j end = Ok t1 /\ alike t t1 /\ represents false (L1 ++ [l0]) t1 /\ sample_ok None t1 /\ t_inundo t1 = true /\ t_log t1 = t_log t /\ t_undo t1 = t_undo t /\ exists i, live_row t1 w i).
  { intros dir Hd (b & Cb). pose proof (pivot_row_ok t None dir j Hd) as Q. destruct (pivot_row t None dir j) as [r|]; [|exfalso; exact (Q b Cb)].
    destruct Q as (Cr & Mn). pose proof Cr as [Hr _ Nn Sg]. apply Fin; [exact Hr|lia|]. apply (ratio_sample false (L1 ++ [l0]) t r j None dir None None); auto; try discriminate. rewrite Ej. congruence. }
  destruct (existsb (fun i => (cf t i j <? 0) && v_nonneg (t_info t (rowv t i))) (live_rows t)) eqn:B1; cbn [negb].
  { apply Dir; [reflexivity|]. apply existsb_exists in B1. destruct B1 as (b & Hb & Bb). apply in_live_rows in Hb. apply andb_prop in Bb. destruct Bb as (X1 & X2). apply Z.ltb_lt in X1. exists b. constructor; auto; [lia|discriminate|lia]. }
  destruct (existsb (fun i => (0 <? cf t i j) && v_nonneg (t_info t (rowv t i))) (live_rows t)) eqn:B2; cbn [negb].
  { apply Dir; [reflexivity|]. apply existsb_exists in B2. destruct B2 as (b & Hb & Bb). apply in_live_rows in Hb. apply andb_prop in Bb. destruct Bb as (X1 & X2). apply Z.ltb_lt in X1. exists b. constructor; auto; [lia|discriminate|lia]. }
  cbn [Z.eqb]. destruct (find (fun r => negb (cf t r j =? 0)) (live_rows t)) as [r|] eqn:Fn.
  2: { exfalso. destruct (da_col j Hc Ej) as (r & Hr & Nz). pose proof (find_none _ _ Fn r) as X. assert (Hr' : List.In r (live_rows t)) by (apply in_live_rows; lia). specialize (X Hr'). cbv beta in X. destruct (Z.eqb_spec (cf t r j) 0); [contradiction|discriminate]. }
  apply find_some in Fn. destruct Fn as (Hr & Nz). apply in_live_rows in Hr. assert (Nz' : cf t r j <> 0) by (destruct (Z.eqb_spec (cf t r j) 0); [discriminate|assumption]).
  apply Fin; [lia|exact Nz'|]. apply (st_sample false (L1 ++ [l0])); auto; try lia.
  - rewrite Ej. congruence.
  - intros q Hq Nq _ Nn. assert (Zq : cf t q j = 0).
    { assert (Iq : List.In q (live_rows t)) by (apply in_live_rows; lia).
      destruct (Z.lt_trichotomy (cf t q j) 0) as [X|[X|X]]; [exfalso|exact X|exfalso].
      - assert (Y : existsb (fun i => (cf t i j <? 0) && v_nonneg (t_info t (rowv t i))) (live_rows t) = true) by (apply existsb_exists; exists q; split; [exact Iq|]; rewrite Nn, andb_true_r; apply Z.ltb_lt; exact X). congruence.
      - assert (Y : existsb (fun i => (0 <? cf t i j) && v_nonneg (t_info t (rowv t i))) (live_rows t) = true) by (apply existsb_exists; exists q; split; [exact Iq|]; rewrite Nn, andb_true_r; apply Z.ltb_lt; exact X). congruence. }
    rewrite Zq. assert (0 <= cst t q) by (apply D0; auto; discriminate). destruct (cf t r j); cbn [Z.sgn]; nia.
Qed.
End Alloc.

Lemma undo_alloc L1 l0 h t fuel : represents false L1 h -> dropped h t -> arranged t -> length l0 = (1 + t_nvar t)%nat -> related (L1 ++ [l0]) t -> independent (L1 ++ [l0]) t -> sample_ok None t -> t_inundo t = true ->
  exists t', perform_undo fuel t (U_allocate (con (t_ncon h))) = Ok t' /\ arranged t' /\ related L1 t' /\ independent L1 t' /\ alike h t' /\ sample_ok None t' /\ t_inundo t' = true /\ t_log t' = t_log t /\ t_undo t' = t_undo t.
Proof.
  intros R D A Ll Re Ind D0 Iu. destruct (da_row L1 l0 h t R D A Ll Re Ind D0 Iu) as (t1 & E1 & Al & R1 & D1 & I1 & G1 & U1 & i & Hi & Ei).
  pose proof (dropped_alike _ _ _ D Al) as Dd. pose proof (c_arr _ _ (r_core _ _ _ R1)) as A1.
  assert (Ew : rowv t1 i = con (t_ncon t1 - 1)). { rewrite Ei, (d_ncon _ _ Dd). f_equal. lia. }
  cbn [perform_undo]. rewrite (proj2 (Z.leb_gt 0 (con (t_ncon h)))) by (unfold con; lia). rewrite E1. cbn [bind].
  destruct (a_row _ A1 i) as (Vi & Ix & Rw); [lia|]. rewrite Ei in Vi, Ix, Rw.
  assert (Ro : row_of t1 (con (t_ncon h)) = Ok i). { unfold row_of. rewrite Ix. rewrite (proj2 (Nat.ltb_lt _ _)) by lia. reflexivity. }
  rewrite Ro. cbn [bind]. rewrite (dr_row_ok t1 i Ew). eexists. split; [reflexivity|].
  pose proof (dr_core L1 l0 t1 i (r_core _ _ _ R1) Hi Ew) as C'. cbv zeta in C'.
  split; [apply C'|]. split; [apply C'|]. split; [apply C'|].
  destruct (dr_ncon1 t1 i) as (E2 & E3 & E4 & E5). pose proof (dr_cv1 t1 i) as Ecv. pose proof (dr_nrow t1 i) as Enr.
  pose proof (fun u => dr_flag L1 l0 t1 i (r_core _ _ _ R1) Hi flags u (fun x => eq_refl)) as Fl.
  pose proof (fun u => dr_flag L1 l0 t1 i (r_core _ _ _ R1) Hi v_row u (fun x => eq_refl)) as Fr.
  pose proof (fun k => dr_rowv L1 l0 t1 i (r_core _ _ _ R1) Hi Ew k) as Erv.
  assert (Bd : t_empty (if Nat.eqb i (nrow t1 - 1) then t1 else swap_rows t1 i (nrow t1 - 1)) = t_empty t1 /\ t_rat (if Nat.eqb i (nrow t1 - 1) then t1 else swap_rows t1 i (nrow t1 - 1)) = t_rat t1 /\
     t_inundo (if Nat.eqb i (nrow t1 - 1) then t1 else swap_rows t1 i (nrow t1 - 1)) = t_inundo t1 /\ t_log (if Nat.eqb i (nrow t1 - 1) then t1 else swap_rows t1 i (nrow t1 - 1)) = t_log t1 /\ t_undo (if Nat.eqb i (nrow t1 - 1) then t1 else swap_rows t1 i (nrow t1 - 1)) = t_undo t1).
  { destruct (Nat.eqb i (nrow t1 - 1)); repeat split; reflexivity. }
  destruct Bd as (B1 & B2 & B3 & B4 & B5).
  assert (Ng : forall u, v_idx (t_info (if Nat.eqb i (nrow t1 - 1) then t1 else swap_rows t1 i (nrow t1 - 1)) u) = None <-> v_idx (t_info t1 u) = None).
  { intros u. destruct (Nat.eqb_spec i (nrow t1 - 1)) as [E|N]; [reflexivity|]. apply swr_idx; [exact A1|exact (proj2 Hi)|clear - Hi; lia|exact N]. }
  split; [|split; [apply (dr_sample L1 l0); [apply R1|exact Hi|exact Ew|intros k Hk _ Nx Nn; apply D1; assumption]|]].
  2: { cbn [w_ncon w_rows w_rv t_inundo t_log t_undo]. rewrite B3, B4, B5. auto. }
  constructor.
  - cbn [w_ncon w_rows w_rv t_nvar]. rewrite E3. apply Dd.
  - cbn [w_ncon w_rows w_rv t_ncon]. rewrite (d_ncon _ _ Dd). cbn [Nat.sub]. apply Nat.sub_0_r.
  - rewrite Enr, (d_nrow _ _ Dd). cbn [Nat.sub]. apply Nat.sub_0_r.
  - unfold ncol. cbn [w_ncon w_rows w_rv t_cv]. rewrite Ecv. apply Dd.
  - cbn [w_ncon w_rows w_rv t_red]. rewrite E4. apply Dd.
  - cbn [w_ncon w_rows w_rv t_dead]. rewrite E5. apply Dd.
  - cbn [w_ncon w_rows w_rv t_empty]. rewrite B1. apply Dd.
  - cbn [w_ncon w_rows w_rv t_rat]. rewrite B2. apply Dd.
  - intros v Vv. cbn [w_ncon w_rows w_rv t_info]. rewrite Fl. apply Dd, Vv.
  - intros v Vv. cbn [w_ncon w_rows w_rv t_info]. rewrite Ng. apply Dd, Vv.
  - intros v Vv Hv. cbn [w_ncon w_rows w_rv t_info]. rewrite Fr. apply Dd; assumption.
  - intros j Hj. pose proof (d_red _ _ Dd) as Er. rewrite Erv by (clear - Hj Er Hi; lia). rewrite (proj2 (Nat.eqb_neq j i)) by (clear - Hj Er Hi; lia). apply Dd, Hj.
  - intros j Hj. unfold colv. cbn [w_ncon w_rows w_rv t_cv]. rewrite Ecv. apply Dd, Hj.
Qed.
