(** Undoing the redundancies found while a row is being minimized. *)
From Coq Require Import ZArith List Bool Arith Lia.
From Verif Require Import SeqModel SeqSpec SeqProofs MatModel BMapModel BMapLists BMapGauss2 BElimSpec BElimFM TabModel TabSpec TabBase TabStruct TabMark TabPivot TabStep TabSign TabMin TabKill TabAdd TabClose TabCut TabDetect TabRestore TabBuild LpModel.
Import ListNotations.
Open Scope Z_scope.

(** the undo records for the rows [.., k) that were marked redundant *)
Inductive stack (t : tab) (base : nat) : list undo_rec -> nat -> Prop :=
  | st_base : stack t base [] base
  | st_con k l v : v < 0 -> rowv t k = v -> v_nonneg (t_info t v) = true -> stack t base l k -> stack t base (U_redundant v :: l) (S k)
  | st_var k l v : 0 <= v -> rowv t k = v -> v_nonneg (t_info t v) = true -> stack t base l k -> stack t base (U_redundant v :: U_nonneg v :: l) (S k).
Lemma stack_ge t base l k : stack t base l k -> (base <= k)%nat.
Proof. induction 1; lia. Qed.
Lemma stack_ext t t' base l k : stack t base l k -> (forall j, (j < k)%nat -> rowv t' j = rowv t j) -> (forall v, v_nonneg (t_info t v) = true -> v_nonneg (t_info t' v) = true) -> stack t' base l k.
Proof.
  intros S. induction S as [|k l v X1 X2 X3 S IH|k l v X1 X2 X3 S IH]; intros R1 R2; [apply st_base|apply st_con|apply st_var]; auto; rewrite R1 by lia; assumption.
Qed.
Lemma stack_app t base base' l l' k : stack t base' l k -> stack t base l' base' -> stack t base (l ++ l') k.
Proof. intros S S'. induction S as [|k l v X1 X2 X3 S IH|k l v X1 X2 X3 S IH]; cbn [app]; [exact S'|apply st_con|apply st_var]; auto. Qed.

Lemma swap_rv t i j k : (k < nrow t)%nat -> (i < nrow t)%nat -> (j < nrow t)%nat -> rowv (swap_rows t i j) k = if Nat.eqb k j then rowv t i else if Nat.eqb k i then rowv t j else rowv t k.
Proof. intros Hk Hi Hj. unfold rowv, swap_rows. cbn [w_rows upd w_info t_rv w_rv]. apply nth_lsw; assumption. Qed.
Lemma swap_nn t i j u : v_nonneg (t_info (swap_rows t i j) u) = v_nonneg (t_info t u).
Proof.
  unfold swap_rows. cbn [w_rows upd w_info t_info w_rv]. repeat match goal with |- context [?a =? ?b] => destruct (Z.eqb_spec a b) end; subst; cbn [vs_idx v_nonneg]; congruence.
Qed.
Lemma push_var_log t u v t' : push_var t u v = Ok t' -> t_undo t = true -> arranged t -> valid t v -> t' = w_log t (u v :: t_log t).
Proof.
  intros H Un A V. unfold push_var in H. destruct (v_row (t_info t v)) eqn:R.
  - unfold row_of in H. destruct (v_idx (t_info t v)) as [i|] eqn:E; [|discriminate]. destruct (Nat.ltb i (nrow t)); [|discriminate]. cbn [bind] in H. injection H as <-.
    destruct (at_row _ _ _ A V E R) as (_ & ->). unfold push. rewrite Un. reflexivity.
  - unfold col_of in H. destruct (v_idx (t_info t v)) as [i|] eqn:E; [|discriminate]. destruct (Nat.ltb i (ncol t)); [|discriminate]. cbn [bind] in H. injection H as <-.
    destruct (at_col _ _ _ A V E R) as (_ & ->). unfold push. rewrite Un. reflexivity.
Qed.
(** what [mark_redundant] pushes *)
Lemma mark_log t i t' b : arranged t -> flagged t -> (t_red t <= i < nrow t)%nat -> t_undo t = true -> (rowv t i < 0 -> v_nonneg (t_info t (rowv t i)) = true) -> mark_redundant t i = Ok (t', b) ->
  b = false /\ exists l, t_log t' = l ++ t_log t /\ stack t' (t_red t) l (S (t_red t)) /\ (forall j, (j < t_red t)%nat -> rowv t' j = rowv t j).
Proof.
  intros A F Hi Un Nn H. pose proof (mark_ok t i A F Hi) as M. rewrite H in M. cbn [wp] in M. destruct M as ((A' & F' & S' & R' & O' & N') & Hnr & Hrd).
  set (v := rowv t i) in *. destruct (a_row _ A i) as (V & Ix & Rw); [lia|]. fold v in V, Ix, Rw.
  unfold mark_redundant in H. fold v in H. set (t1 := upd t v (vs_red true)) in *. change (t_red t1) with (t_red t) in H. rewrite (proj2 (Nat.ltb_ge i (t_red t))) in H by lia.
  change (t_undo t1) with (t_undo t) in H. rewrite Un in H. rewrite orb_true_r in H. cbn [orb] in H.
  assert (E1 : t_info t1 v = vs_red true (t_info t v)) by (cbn; rewrite Z.eqb_refl; reflexivity).
  assert (Nv : 0 <= v -> v_nonneg (t_info t v) = false).
  { intros P. destruct (v_nonneg (t_info t v)) eqn:E; [|reflexivity]. pose proof (proj2 (f_var _ F v V P) E) as X. unfold v in X. rewrite (f_rows _ F i) in X by lia. apply Nat.ltb_lt in X. lia. }
  set (c := (0 <=? v) && negb (v_nonneg (t_info t1 v))) in H.
  set (t2 := if c then w_log (upd t1 v (vs_nonneg true)) (U_nonneg v :: t_log t) else t1).
  assert (H2 : (if c then push_var (upd t1 v (vs_nonneg true)) U_nonneg v else Ok t1) = Ok t2).
  { unfold t2. destruct c; [|reflexivity]. destruct (push_var (upd t1 v (vs_nonneg true)) U_nonneg v) as [tp| | |] eqn:Ep; try discriminate.
    apply push_var_log in Ep; [rewrite Ep; reflexivity|exact Un| |exact V].
    apply (arranged_shape t); [|exact A]. eapply shape_trans; apply shape_upd; intros; split; reflexivity. }
  rewrite H2 in H. cbn [bind] in H.
  assert (Rd2 : t_red t2 = t_red t) by (unfold t2; destruct c; reflexivity). rewrite Rd2 in H.
  assert (Rv2 : t_rv t2 = t_rv t) by (unfold t2; destruct c; reflexivity).
  assert (Un2 : t_undo t2 = true) by (unfold t2; destruct c; exact Un).
  set (t3 := if Nat.eqb i (t_red t) then t2 else swap_rows t2 i (t_red t)) in *.
  assert (Un3 : t_undo t3 = true) by (unfold t3; destruct (Nat.eqb i (t_red t)); exact Un2).
  assert (Lg3 : t_log t3 = t_log t2) by (unfold t3; destruct (Nat.eqb i (t_red t)); reflexivity).
  unfold push_var in H. change (t_info (w_red t3 (S (t_red t3)))) with (t_info t3) in H.
  assert (Rw3 : v_row (t_info t3 v) = true /\ v_idx (t_info t3 v) = Some (t_red t)).
  { assert (X : t_info t2 v = t_info t2 v) by reflexivity. assert (R2 : v_row (t_info t2 v) = true /\ v_idx (t_info t2 v) = Some i).
    { unfold t2. destruct c; cbn [t_info w_log upd w_info]; rewrite ?Z.eqb_refl; [change (t_info t1 v) with (t_info t1 v)|]; rewrite E1; cbn [vs_nonneg vs_red v_row v_idx]; auto. }
    unfold t3. destruct (Nat.eqb_spec i (t_red t)) as [E|N]; [rewrite <- E; exact R2|].
    unfold swap_rows. cbn [w_rows upd w_info t_info w_rv rowv t_rv].
    assert (Nj : nth (t_red t) (lsw 0 (t_rv t2) i (t_red t)) 0 = v) by (rewrite Rv2, nth_lsw by (unfold nrow in Hi; lia); rewrite Nat.eqb_refl; reflexivity).
    unfold rowv. cbn [t_rv w_rv upd w_info]. rewrite Nj, Z.eqb_refl. destruct (v =? _) eqn:Q.
    - cbn [vs_idx v_row v_idx]. apply Z.eqb_eq in Q. rewrite <- Q. split; [exact (proj1 R2)|reflexivity].
    - cbn [vs_idx v_row v_idx]. split; [exact (proj1 R2)|reflexivity]. }
  rewrite (proj1 Rw3) in H. unfold row_of in H. change (t_info (w_red t3 (S (t_red t3)))) with (t_info t3) in H. rewrite (proj2 Rw3) in H.
  change (nrow (w_red t3 (S (t_red t3)))) with (nrow t3) in H. assert (Nr3 : nrow t3 = nrow t) by (unfold t3, nrow; destruct (Nat.eqb i (t_red t)); [|cbn [swap_rows w_rows upd w_info t_rv w_rv]; rewrite lsw_length]; rewrite Rv2; reflexivity).
  rewrite Nr3, (proj2 (Nat.ltb_lt (t_red t) (nrow t))) in H by lia. cbn [bind] in H.
  change (rowv (w_red t3 (S (t_red t3))) (t_red t)) with (rowv t3 (t_red t)) in H.
  assert (Rj : forall j, (j < nrow t)%nat -> rowv t3 j = if Nat.eqb j (t_red t) then v else if Nat.eqb j i then rowv t (t_red t) else rowv t j).
  { intros j Hj. unfold t3. destruct (Nat.eqb_spec i (t_red t)) as [E|N].
    - unfold rowv. rewrite Rv2. fold (rowv t j). unfold v. rewrite E. destruct (Nat.eqb_spec j (t_red t)) as [->|]; reflexivity.
    - assert (Nr2 : nrow t2 = nrow t) by (unfold nrow; rewrite Rv2; reflexivity). rewrite swap_rv by (rewrite Nr2; lia). unfold rowv. rewrite Rv2. reflexivity. }
  rewrite Rj in H by lia. rewrite Nat.eqb_refl in H. injection H as <- <-. split; [reflexivity|].
  unfold push. change (t_undo (w_red t3 (S (t_red t3)))) with (t_undo t3). rewrite Un3. cbn [t_log w_log w_red].
  assert (RR : forall j, rowv (w_log (w_red t3 (S (t_red t3))) (U_redundant v :: t_log t3)) j = rowv t3 j) by reflexivity.
  assert (II : forall u, t_info (w_log (w_red t3 (S (t_red t3))) (U_redundant v :: t_log t3)) u = t_info t3 u) by reflexivity.
  assert (N3 : v_nonneg (t_info t3 v) = true).
  { assert (N2 : v_nonneg (t_info t2 v) = true).
    { unfold t2, c. rewrite E1. cbn [vs_red v_nonneg]. destruct (Z.leb_spec 0 v) as [P|P].
      - rewrite (Nv P). cbn [negb andb t_info w_log upd w_info]. rewrite Z.eqb_refl. reflexivity.
      - cbn [andb]. rewrite E1. cbn [vs_red v_nonneg]. auto. }
    unfold t3. destruct (Nat.eqb i (t_red t)); [exact N2|]. rewrite swap_nn. exact N2. }
  destruct (Z_le_gt_dec 0 v) as [P|P].
  - exists [U_redundant v; U_nonneg v]. split; [rewrite Lg3; unfold t2, c; rewrite E1, (proj2 (Z.leb_le 0 v) P); cbn [vs_red v_nonneg]; rewrite (Nv P); reflexivity|]. split.
    + apply st_var; [exact P|rewrite RR, Rj by lia; rewrite Nat.eqb_refl; reflexivity|exact N3|apply st_base].
    + intros j Hj. rewrite RR, Rj by lia. rewrite (proj2 (Nat.eqb_neq j (t_red t))), (proj2 (Nat.eqb_neq j i)) by lia. reflexivity.
  - exists [U_redundant v]. split; [rewrite Lg3; unfold t2, c; rewrite (proj2 (Z.leb_gt 0 v)) by lia; reflexivity|]. split.
    + apply st_con; [lia|rewrite RR, Rj by lia; rewrite Nat.eqb_refl; reflexivity|exact N3|apply st_base].
    + intros j Hj. rewrite RR, Rj by lia. rewrite (proj2 (Nat.eqb_neq j (t_red t))), (proj2 (Nat.eqb_neq j i)) by lia. reflexivity.
Qed.
Lemma sweep_log : forall k i c t t', arranged t -> flagged t -> (t_red t <= i)%nat -> (i + k = nrow t)%nat -> t_undo t = true -> sweep k i c t = Ok t' ->
  exists l, t_log t' = l ++ t_log t /\ stack t' (t_red t) l (t_red t') /\ (forall j, (j < t_red t)%nat -> rowv t' j = rowv t j).
Proof.
  induction k as [|k IH]; intros i c t t' A F Hr Hk Un; cbn [sweep].
  { intros [= <-]. exists []. split; [reflexivity|]. split; [apply st_base|auto]. }
  destruct (cf t i c =? 0); [apply IH; auto; lia|]. destruct (negb (v_frozen (t_info t (rowv t i))) && row_is_redundant t i) eqn:B; [|apply IH; auto; lia].
  apply andb_prop in B. destruct B as (_ & B). apply redundant_redrow in B; [|assumption|lia].
  pose proof (mark_ok t i A F ltac:(lia)) as M. destruct (mark_redundant t i) as [[t1 b]| | |] eqn:E; cbn [bind]; try discriminate. cbn [wp] in M. destruct M as ((A1 & F1 & S1 & R1 & O1 & N1) & Hn & Hd).
  destruct (mark_log t i t1 b A F ltac:(lia) Un) as (-> & l & Lg & St & Rw); [|exact E|].
  { intros Ng. destruct B as (B & _). apply B. exact Ng. }
  intros H. assert (Un1 : t_undo t1 = true) by (rewrite (s_undo _ _ S1); exact Un).
  pose proof (sweep_ok k (S i) c t1 A1 F1 ltac:(lia) ltac:(lia)) as W. rewrite H in W. cbn [wp] in W. destruct W as (A2 & F2 & S2 & _).
  destruct (IH (S i) c t1 t') as (l2 & Lg2 & St2 & Rw2); auto; try lia. exists (l2 ++ l). split; [rewrite Lg2, Lg, app_assoc; reflexivity|]. split.
  - apply (stack_app _ _ (t_red t1)); [exact St2|]. rewrite Hd. apply (stack_ext t1); [exact St|intros j Hj; apply Rw2; lia|]. intros v Nv. apply (s_grow _ _ S2). exact Nv.
  - intros j Hj. rewrite Rw2 by lia. apply Rw. exact Hj.
Qed.
(** ... and a pivot *)
Lemma pivot_log L t i c t' base l : represents false L t -> (t_red t <= i < nrow t)%nat -> (t_dead t <= c < ncol t)%nat -> cf t i c <> 0 -> t_undo t = true -> t_inundo t = false -> pivot t i c = Ok t' ->
  stack t base l (t_red t) -> exists l', t_log t' = l' ++ t_log t /\ stack t' base (l' ++ l) (t_red t').
Proof.
  intros R Hi Hc Nz Un Iu H St. pose proof (pivot_ok false L t i c R Hi Hc Nz) as P. rewrite H in P. cbn [wp] in P. destruct P as (R2 & E2 & Cl).
  pose proof (st_arr false L t i c R Hi Hc Nz) as A1. pose proof (st_flagged false L t i c R Hi Hc Nz) as F1.
  unfold pivot in H. set (t1 := pivot_step t i c) in *. change (t_inundo t1) with (t_inundo t) in H. rewrite Iu in H.
  assert (Nr : nrow t1 = nrow t) by apply (ps_nrow t i c). change (t_red t1) with (t_red t) in *.
  assert (Fr := f_red _ F1). change (t_red t1) with (t_red t) in Fr.
  destruct (sweep_log (nrow t1 - t_red t) (t_red t) c t1 t' A1 F1 (le_n _) ltac:(lia) Un H) as (l' & Lg & S' & Rw).
  exists l'. split; [exact Lg|]. apply (stack_app _ _ (t_red t)); [exact S'|]. apply (stack_ext t); [exact St| |].
  - intros j Hj. change (t_red t1) with (t_red t) in Rw. rewrite Rw by exact Hj. unfold t1. rewrite (ps_rowv t i c) by lia. rewrite (proj2 (Nat.eqb_neq j i)) by lia. reflexivity.
  - intros v. apply (e_grow _ _ _ E2).
Qed.

(** ** undoing *)
(** tables with the same contents *)
Record same (t t' : tab) : Prop := {
  sm_rows : t_rows t' = t_rows t; sm_rv : t_rv t' = t_rv t; sm_cv : t_cv t' = t_cv t; sm_dead : t_dead t' = t_dead t; sm_red : t_red t' = t_red t;
  sm_info : forall u, t_info t' u = t_info t u; sm_nvar : t_nvar t' = t_nvar t; sm_ncon : t_ncon t' = t_ncon t }.
Lemma same_shape t t' : same t t' -> shape t t'.
Proof. intros [E1 E2 E3 E4 E5 E6 E7 E8]. constructor; auto. intros u. rewrite E6. auto. Qed.
Lemma same_valid t t' v : same t t' -> (valid t' v <-> valid t v).
Proof. intros E. unfold valid. rewrite (sm_nvar _ _ E), (sm_ncon _ _ E). reflexivity. Qed.
Lemma same_feas L t t' p : same t t' -> (feas L t' p <-> feas L t p).
Proof. intros E. unfold feas. rewrite (sm_nvar _ _ E). split; intros (Lp & H); (split; [exact Lp|]); intros v V; specialize (H v); rewrite (same_valid _ _ _ E), (sm_info _ _ E) in *; auto. Qed.
Lemma same_flagged t t' : same t t' -> flagged t -> flagged t'.
Proof.
  intros E [F1 F2 F3 F4 F5 F6]. pose proof (fun v => same_valid _ _ v E) as V. destruct E as [E1 E2 E3 E4 E5 E6 E7 E8].
  constructor; unfold nrow, ncol, rowv, colv in *; rewrite ?E2, ?E3, ?E4, ?E5; auto.
  - intros i Hi. rewrite E6. auto.
  - intros c Hc. rewrite E6. auto.
  - intros v Vv. rewrite E6. apply F5, V, Vv.
  - intros v Vv. rewrite E6. apply F6, V, Vv.
Qed.
Lemma same_core L t t' : same t t' -> core L t -> core L t'.
Proof.
  intros E C. pose proof (same_shape _ _ E) as Sh. constructor; [apply (arranged_shape _ _ Sh), C|apply (same_flagged _ _ E), C|rewrite (sm_ncon _ _ E); apply C|rewrite (sm_nvar _ _ E); apply C|apply (related_shape _ _ Sh), C|apply (independent_shape _ _ Sh), C].
Qed.
Lemma same_represents int L t t' : same t t' -> represents int L t -> represents int L t'.
Proof.
  intros E R. constructor; [apply (same_core _ _ _ E), R| |].
  - intros p Lp H v V Z0. rewrite (sm_nvar _ _ E) in Lp. apply (same_valid _ _ _ E) in V. rewrite (sm_info _ _ E) in Z0. apply (r_zero _ _ _ R p Lp); auto. intros u Vu Zu Ru. apply H; [apply (same_valid _ _ _ E); exact Vu| |]; rewrite (sm_info _ _ E); assumption.
  - intros p Ad Fe v V N0. apply (same_valid _ _ _ E) in V. rewrite (sm_info _ _ E) in N0. apply (same_feas _ _ _ _ E) in Fe. apply (r_imp _ _ _ R p Ad Fe v V N0).
Qed.
Lemma same_sample ex t t' : same t t' -> sample_ok ex t -> sample_ok ex t'.
Proof. intros E D i Hi. unfold nrow, rowv, cst, ent in *. rewrite (sm_rv _ _ E), (sm_red _ _ E) in *. rewrite (sm_rows _ _ E), (sm_info _ _ E). apply D. exact Hi. Qed.

(** the sample value of a row that is marked non-negative *)
Lemma implied_cst L t i : represents false L t -> sample_ok None t -> (i < nrow t)%nat -> v_nonneg (t_info t (rowv t i)) = true -> 0 <= cst t i.
Proof.
  intros R D Hi Nn. destruct (sample_point false L t R D) as (k & p & K & Hp & Fe & Rw). destruct (a_row _ (c_arr _ _ (r_core _ _ _ R)) i Hi) as (V & _).
  assert (0 <= value L p (rowv t i)) by (apply (r_imp _ _ _ R p); auto; split; [lia|discriminate]). specialize (Rw i Hi). pose proof (a_den _ (c_arr _ _ (r_core _ _ _ R)) i Hi). nia.
Qed.
(** what remains the same *)
Record undone (L : list (list Z)) (t t' : tab) : Prop := {
  un_rep : represents false L t'; un_sample : sample_ok None t'; un_cv : t_cv t' = t_cv t;
  un_same : t_nvar t' = t_nvar t /\ t_ncon t' = t_ncon t /\ t_dead t' = t_dead t /\ t_rat t' = t_rat t /\ t_empty t' = t_empty t /\ t_neq t' = t_neq t /\ t_cone t' = t_cone t /\ t_undo t' = t_undo t /\ t_preserve t' = t_preserve t /\ t_strict t' = t_strict t;
  un_idx : forall u, v_idx (t_info t' u) = v_idx (t_info t u) /\ v_row (t_info t' u) = v_row (t_info t u) /\ v_zero (t_info t' u) = v_zero (t_info t u) /\ v_marked (t_info t' u) = v_marked (t_info t u) /\
     v_frozen (t_info t' u) = v_frozen (t_info t u) /\ v_negated (t_info t' u) = v_negated (t_info t u);
  un_nonneg : forall u, u < 0 -> v_nonneg (t_info t' u) = v_nonneg (t_info t u);
  un_rows : t_rows t' = t_rows t; un_rv : t_rv t' = t_rv t;
  un_feas : forall p, 0 < hd 0 p -> (feas L t' p <-> feas L t p) }.
Lemma undone_refl L t : represents false L t -> sample_ok None t -> undone L t t.
Proof. intros R D. constructor; auto; try reflexivity; repeat split; reflexivity. Qed.
Lemma undone_trans L t t1 t2 : undone L t t1 -> undone L t1 t2 -> undone L t t2.
Proof.
  intros [R1 D1 C1 S1 I1 N1 W1 V1 F1] [R2 D2 C2 S2 I2 N2 W2 V2 F2]. constructor; auto; try congruence.
  - destruct S1 as (? & ? & ? & ? & ? & ? & ? & ? & ? & ?), S2 as (? & ? & ? & ? & ? & ? & ? & ? & ? & ?). repeat split; congruence.
  - intros u. destruct (I1 u) as (? & ? & ? & ? & ? & ?), (I2 u) as (? & ? & ? & ? & ? & ?). repeat split; congruence.
  - intros u Hu. rewrite N2, N1 by exact Hu. reflexivity.
  - intros p Hp. rewrite F2, F1 by exact Hp. reflexivity.
Qed.
Lemma restore_noop fuel t v i : row_of t v = Ok i -> 0 <= cst t i -> restore_row (S fuel) t v = Ok (t, Z.sgn (cst t i)).
Proof. intros E H. cbn [restore_row]. rewrite E. cbn [bind]. rewrite (proj2 (Z.ltb_ge _ _)) by exact H. reflexivity. Qed.
Lemma undo_red L fuel t n : represents false L t -> sample_ok None t -> t_red t = S n -> v_nonneg (t_info t (rowv t n)) = true ->
  let v := rowv t n in perform_undo (S fuel) t (U_redundant v) = Ok (w_red (upd t v (vs_red false)) n) /\
  (v < 0 -> undone L t (w_red (upd t v (vs_red false)) n)) /\
  (0 <= v -> undone L t (upd (w_red (upd t v (vs_red false)) n) v (vs_nonneg false))).
Proof.
  intros R D Hn Nn v. pose proof (r_core _ _ _ R) as C. pose proof (c_arr _ _ C) as A. pose proof (c_flg _ _ C) as F. pose proof (f_red _ F) as Fr.
  assert (Hi : (n < nrow t)%nat) by lia. destruct (a_row _ A n Hi) as (V & Ix & Rw). fold v in V, Ix, Rw.
  pose proof (implied_cst L t n R D Hi Nn) as Cp.
  set (t1 := w_red (upd t v (vs_red false)) n).
  split.
  { unfold perform_undo. rewrite Rw, Ix, Hn, Nat.eqb_refl. cbn [andb]. unfold restore_last_redundant. rewrite Hn. fold v. fold t1.
    assert (Ro : row_of t1 v = Ok n). { unfold row_of, t1. cbn [t_info w_red upd w_info]. rewrite Z.eqb_refl. cbn [vs_red v_idx]. rewrite Ix. change (nrow (w_red (upd t v (vs_red false)) n)) with (nrow t). rewrite (proj2 (Nat.ltb_lt _ _) Hi). reflexivity. }
    rewrite (restore_noop fuel t1 v n Ro) by exact Cp. reflexivity. }
  pose proof (um_represents false L t n R Hn) as Ru. pose proof (um_sample false L t n R Hn D) as Du. pose proof (fun p => um_feas false L t n R Hn p) as Fu. fold v in Ru, Du, Fu.
  cbv zeta in Ru, Du, Fu. split; intros Sg.
  - rewrite (proj2 (Z.leb_gt 0 v)) in Ru, Du, Fu by exact Sg. fold t1 in Ru, Du, Fu. constructor; try reflexivity; auto.
    + intros i Hi' _ N1. destruct (Z.eq_dec (rowv t1 i) v) as [E|E]; [|apply Du; auto; congruence].
      assert (i = n) as -> by (apply (rowv_inj t); auto; destruct Hi' as (_ & Hi'); exact Hi'). exact Cp.
    + repeat split; reflexivity.
    + intros u. cbn [t_info t1 w_red upd w_info]. destruct (Z.eqb_spec u v) as [->|]; repeat split; reflexivity.
    + intros u Hu. cbn [t_info t1 w_red upd w_info]. destruct (Z.eqb_spec u v) as [->|]; reflexivity.
    + intros p Hp. apply Fu. split; [exact Hp|discriminate].
  - rewrite (proj2 (Z.leb_le 0 v)) in Ru, Du, Fu by exact Sg. set (tu := w_red (upd (upd t v (vs_nonneg false)) v (vs_red false)) n) in *.
    assert (E : same tu (upd t1 v (vs_nonneg false))).
    { constructor; try reflexivity. intros u. unfold tu, t1. cbn [t_info w_red upd w_info]. rewrite ?Z.eqb_refl. destruct (Z.eqb_spec u v) as [->|]; reflexivity. }
    constructor; try reflexivity; auto.
    + apply (same_represents _ _ _ _ E Ru).
    + apply (same_sample _ _ _ E). intros i Hi' _ N1. destruct (Z.eq_dec (rowv tu i) v) as [E'|E']; [|apply Du; auto; congruence].
      rewrite E' in N1. unfold tu in N1. cbn [t_info w_red upd w_info] in N1. rewrite ?Z.eqb_refl in N1. discriminate.
    + repeat split; reflexivity.
    + intros u. unfold t1. cbn [t_info w_red upd w_info]. rewrite ?Z.eqb_refl. destruct (Z.eqb_spec u v) as [->|]; repeat split; reflexivity.
    + intros u Hu. unfold t1. cbn [t_info w_red upd w_info]. destruct (Z.eqb_spec u v) as [->|]; [lia|reflexivity].
    + intros p Hp. rewrite (same_feas _ _ _ _ E). apply Fu. split; [exact Hp|discriminate].
Qed.
Lemma rollback_loop_app fuel : forall l t l', rollback_loop fuel t (l ++ l') = do t <- rollback_loop fuel t l ;; rollback_loop fuel t l'.
Proof. induction l as [|u l IH]; intros t l'; [reflexivity|]. cbn [app rollback_loop]. destruct (perform_undo fuel t u); cbn [bind]; auto. Qed.
Lemma stack_undo L fuel base : forall l k t, stack t base l k -> t_red t = k -> represents false L t -> sample_ok None t ->
  exists t', rollback_loop (S fuel) t l = Ok t' /\ undone L t t' /\ t_red t' = base.
Proof.
  intros l k t St. remember t as t0 in St. assert (X : (forall j, (j < k)%nat -> rowv t j = rowv t0 j) /\ (forall j, (j < k)%nat -> v_nonneg (t_info t0 (rowv t0 j)) = true -> v_nonneg (t_info t (rowv t0 j)) = true)) by (subst t0; auto).
  clear Heqt0. revert t X. induction St as [|k l v Ng Ev Nn St IH|k l v Ng Ev Nn St IH]; intros t (X1 & X2) Hk R D.
  - exists t. split; [reflexivity|]. split; [apply undone_refl; assumption|exact Hk].
  - assert (Er : rowv t k = v) by (rewrite X1 by lia; exact Ev). assert (Nt : v_nonneg (t_info t (rowv t k)) = true). { rewrite Er, <- Ev. apply X2; [lia|]. rewrite Ev. exact Nn. }
    pose proof (undo_red L fuel t k R D Hk Nt) as U. cbv zeta in U. rewrite Er in U. destruct U as (U1 & U2 & _). cbn [rollback_loop]. rewrite U1. cbn [bind]. specialize (U2 Ng).
    set (t1 := w_red (upd t v (vs_red false)) k) in *.
    destruct (IH t1) as (t' & E & Ud & Rd); [|reflexivity|apply U2|apply U2|].
    + split; [intros j Hj; apply X1; lia|]. intros j Hj N1. pose proof (X2 j ltac:(lia) N1) as N2. unfold t1. cbn [t_info w_red upd w_info]. destruct (Z.eqb_spec (rowv t0 j) v) as [E|]; [|exact N2]. rewrite <- E. exact N2.
    + exists t'. split; [exact E|]. split; [eapply undone_trans; eassumption|exact Rd].
  - assert (Er : rowv t k = v) by (rewrite X1 by lia; exact Ev). assert (Nt : v_nonneg (t_info t (rowv t k)) = true). { rewrite Er, <- Ev. apply X2; [lia|]. rewrite Ev. exact Nn. }
    pose proof (undo_red L fuel t k R D Hk Nt) as U. cbv zeta in U. rewrite Er in U. destruct U as (U1 & _ & U2). cbn [rollback_loop]. rewrite U1. cbn [bind perform_undo]. specialize (U2 Ng).
    set (t1 := upd (w_red (upd t v (vs_red false)) k) v (vs_nonneg false)) in *.
    destruct (IH t1) as (t' & E & Ud & Rd); [|reflexivity|apply U2|apply U2|].
    + split; [intros j Hj; apply X1; lia|]. intros j Hj N1. pose proof (X2 j ltac:(lia) N1) as N2. unfold t1. cbn [t_info w_red upd w_info]. rewrite ?Z.eqb_refl. destruct (Z.eqb_spec (rowv t0 j) v) as [E|]; [|exact N2].
      exfalso. pose proof (c_arr _ _ (r_core _ _ _ R)) as A. pose proof (f_red _ (c_flg _ _ (r_core _ _ _ R))) as Fr. rewrite <- X1 in E by lia. rewrite <- Er in E. apply (rowv_inj t) in E; auto; lia.
    + exists t'. split; [exact E|]. split; [eapply undone_trans; eassumption|exact Rd].
Qed.
