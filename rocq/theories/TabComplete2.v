(** Every redundant constraint is detected. *)
From Coq Require Import ZArith List Bool Arith Lia.
From Verif Require Import SeqModel SeqSpec SeqProofs MatModel BMapModel BMapLists BMapGauss2 BElimSpec BElimFM TabModel TabSpec TabBase TabStruct TabMark TabPivot TabStep TabSign TabMin TabKill TabAdd TabClose TabCut TabDetect TabMap TabComplete.
Import ListNotations.
Open Scope Z_scope.

(** [p] satisfies all constraints that are not marked redundant, except possibly
    [v] *)
Definition others (L : list (list Z)) (t : tab) (v : Z) (p : list Z) : Prop :=
  length p = (1 + t_nvar t)%nat /\
  forall u, valid t u -> (v_zero (t_info t u) = true -> value L p u = 0) /\ (v_nonneg (t_info t u) = true -> v_red (t_info t u) = false -> u <> v -> 0 <= value L p u).
Definition needed (L : list (list Z)) (t : tab) (v : Z) : Prop :=
  exists p, 0 < hd 0 p /\ others L t v p /\ value L p v < 0 /\ (t_rat t = false -> value L p v <= - hd 0 p).
Lemma needed_keep L t t' v : flow t t' -> t_rat t' = t_rat t -> (forall u, v_zero (t_info t' u) = v_zero (t_info t u)) -> needed L t v -> needed L t' v.
Proof.
  intros S Rt Z0 (p & Hp & (Lp & O) & Ng & Ni). exists p. split; [exact Hp|]. split; [|split; [exact Ng|rewrite Rt; exact Ni]]. split; [rewrite (fl_nvar _ _ S); exact Lp|].
  intros u V. apply (flow_valid _ _ _ S) in V. destruct (O u V) as (O1 & O2). rewrite Z0. split; [exact O1|]. intros Nn Rd N. apply O2; [rewrite <- (fl_nonneg _ _ S u Rd); exact Nn|apply (fl_red _ _ S); exact Rd|exact N].
Qed.
Lemma needed_evolve L t t' v : evolve L t t' -> needed L t v -> needed L t' v.
Proof. intros E. apply needed_keep; [apply (evolve_flow L), E|apply E|]. intros u. apply (e_keep _ _ _ E u). Qed.
Lemma needed_swept L t t' v : swept t t' -> needed L t v -> needed L t' v.
Proof. intros E. apply needed_keep; [apply swept_flow, E|apply E|]. intros u. apply (s_keep _ _ E u). Qed.
Lemma needed_same L t t' v : same_but t t' -> needed L t v -> needed L t' v.
Proof.
  intros S (p & Hp & (Lp & O) & Ng & Ni). pose proof S as (E & _). exists p. split; [exact Hp|]. split; [|split; [exact Ng|rewrite E; exact Ni]]. split; [rewrite E; exact Lp|].
  intros u V. assert (V0 : valid t u) by (unfold valid in *; rewrite E in V; exact V). specialize (O u V0). rewrite (same_flag v_zero t t' u S), (same_flag v_nonneg t t' u S), (same_flag v_red t t' u S) by reflexivity. exact O.
Qed.

(** a point on a line from the sample value along a column *)
Lemma point_others int L t v c (d : Z) : represents int L t -> (d <> 0 -> (t_dead t <= c < ncol t)%nat) ->
  (d < 0 -> v_nonneg (t_info t (colv t c)) = false \/ colv t c = v) ->
  (forall i, (t_red t <= i < nrow t)%nat -> v_nonneg (t_info t (rowv t i)) = true -> rowv t i <> v -> 0 <= cst t i + cf t i c * d) ->
  exists p, 0 < hd 0 p /\ others L t v p /\ (forall i, (i < nrow t)%nat -> den t i * value L p (rowv t i) = hd 0 p * (cst t i + cf t i c * d)) /\
    ((c < ncol t)%nat -> value L p (colv t c) = hd 0 p * d).
Proof.
  intros R Hc Hd Hr. pose proof (r_core _ _ _ R) as C. pose proof (c_arr _ _ C) as A. pose proof (c_flg _ _ C) as F.
  destruct (c_ind _ _ C 1 (fun j => if Nat.eqb j c then d else 0)) as (k & p & K & Lp & Hh & Cv & G). rewrite Z.mul_1_r in Hh. rewrite <- Hh in *.
  exists p. split; [exact K|].
  assert (Rw : forall i, (i < nrow t)%nat -> den t i * value L p (rowv t i) = hd 0 p * (cst t i + cf t i c * d)).
  { intros i Hi. rewrite (row_expand L t p i A (c_rel _ _ C) Lp G Hi).
    assert (E : map (value L p) (t_cv t) = zupd (repeat 0 (ncol t)) c (hd 0 p * d)).
    { apply (nth_ext _ _ 0 0); [rewrite zupd_length, repeat_length, map_length; reflexivity|]. intros j Hj. rewrite map_length in Hj. rewrite nth_vals, Cv by exact Hj.
      rewrite nth_zupd, repeat_length. destruct (Nat.eqb_spec j c) as [->|]; [rewrite (proj2 (Nat.ltb_lt c (ncol t)) Hj); reflexivity|].
      cbn [andb]. rewrite nth_repeat. ring. }
    rewrite E. destruct (Nat.lt_ge_cases c (ncol t)) as [Hlt|Hge].
    - rewrite dot_upd by (rewrite repeat_length; exact Hlt). rewrite dot_comm, dot_repeat0, nth_repeat, nth_skipn2. ring.
    - rewrite zupd_oob by (rewrite repeat_length; exact Hge). rewrite dot_comm, dot_repeat0. destruct (Z.eq_dec d 0) as [->|N]; [ring|]. specialize (Hc N). lia. }
  split; [|split; [exact Rw|intros H; rewrite Cv, Nat.eqb_refl by exact H; reflexivity]].
  assert (Cz : forall j, (j < ncol t)%nat -> (j < t_dead t)%nat -> value L p (colv t j) = 0).
  { intros j Hj Hdj. rewrite Cv by exact Hj. destruct (Nat.eqb_spec j c) as [->|]; [|ring]. destruct (Z.eq_dec d 0) as [->|N]; [ring|]. specialize (Hc N). lia. }
  assert (Zc : forall v, valid t v -> v_zero (t_info t v) = true -> v_row (t_info t v) = false -> value L p v = 0).
  { intros u V Zv Rv. destruct (v_idx (t_info t u)) as [j|] eqn:E; [|apply G; [exact V|split; assumption]].
    destruct (at_col _ _ _ A V E Rv) as (Hj & Ej). rewrite <- Ej in *. apply Cz; [exact Hj|]. destruct (f_cols _ F j Hj) as (X0 & _). rewrite Zv in X0. symmetry in X0. apply Nat.ltb_lt in X0. exact X0. }
  split; [exact Lp|]. intros u V. split; [intros Zv; apply (r_zero _ _ _ R p Lp Zc u V Zv)|].
  intros Nn Rd Nv. destruct (v_row (t_info t u)) eqn:Rv.
  - destruct (live_row_at t u A F V Rv Rd) as (i & Hi & Ei). rewrite <- Ei in *. pose proof (a_den _ A i ltac:(lia)). specialize (Rw i ltac:(lia)). specialize (Hr i Hi Nn Nv). nia.
  - destruct (v_idx (t_info t u)) as [j|] eqn:E; [|rewrite G; [lia|exact V|split; assumption]].
    destruct (at_col _ _ _ A V E Rv) as (Hj & Ej). rewrite <- Ej in *. rewrite Cv by exact Hj. destruct (Nat.eqb_spec j c) as [->|]; [|lia].
    destruct (Z_lt_le_dec d 0) as [Neg|]; [destruct (Hd Neg); congruence|nia].
Qed.
(** the sample value violates [v] *)
Lemma needed_sample int L t v i : represents int L t -> live_row t v i -> sample_ok (Some v) t -> cst t i < 0 -> (t_rat t = false -> cst t i <= - den t i) -> needed L t v.
Proof.
  intros R (Hi & Ei) D Neg Ni. destruct (point_others int L t v 0%nat 0 R) as (p & Hp & O & Rw & _); try lia.
  - intros j Hj Nn N. assert (0 <= cst t j) by (apply D; [exact Hj|congruence|exact Nn]). lia.
  - specialize (Rw i ltac:(lia)). rewrite Ei in Rw. pose proof (a_den _ (c_arr _ _ (r_core _ _ _ R)) i ltac:(lia)). exists p. split; [exact Hp|]. split; [exact O|]. split; [nia|]. intros Rt. specialize (Ni Rt). nia.
Qed.
(** a direction in which nothing keeps [v] from decreasing *)
Lemma needed_ray int L t v i c : represents int L t -> live_row t v i -> sample_ok (Some v) t -> found t i true (-1) (Some (i, c)) -> needed L t v.
Proof.
  intros R Lr D (Hc & (Nz & Us) & H). cbn zeta in H. destruct H as [(_ & Nc)|([_ Q _ _] & _)]; [|congruence]. pose proof Lr as (Hi & Ei). pose proof (c_arr _ _ (r_core _ _ _ R)) as A. pose proof (a_den _ A i ltac:(lia)) as Dn.
  set (K := Z.abs (cst t i) + den t i). assert (HK : 0 < K) by (unfold K; lia). set (d := - Z.sgn (cf t i c) * K).
  assert (Dp : cf t i c * d = - (Z.abs (cf t i c) * K)) by (unfold d; destruct (cf t i c); cbn [Z.sgn Z.abs]; ring || lia).
  destruct (point_others int L t v c d R) as (p & Hp & O & Rw & _).
  - intros _. exact Hc.
  - intros Dd. left. destruct Us as [Us|Us]; [exfalso; unfold d in Dd; rewrite Us in Dd; lia|exact Us].
  - intros j Hj Nn N. assert (0 <= cst t j) by (apply D; [exact Hj|congruence|exact Nn]).
    assert (P : 0 <= -1 * Z.sgn (cf t i c) * cf t j c). { destruct (Z_lt_le_dec (-1 * Z.sgn (cf t i c) * cf t j c) 0) as [Neg|]; [|assumption]. exfalso. apply (Nc j). constructor; auto. congruence. }
    replace (cf t j c * d) with ((-1 * Z.sgn (cf t i c) * cf t j c) * K) by (unfold d; ring). nia.
  - specialize (Rw i ltac:(lia)). rewrite Ei, Dp in Rw. assert (X : cst t i + - (Z.abs (cf t i c) * K) <= - den t i) by (unfold K in *; nia).
    exists p. split; [exact Hp|]. split; [exact O|]. assert (Y : value L p v <= - hd 0 p) by nia. split; [lia|]. intros _. exact Y.
Qed.
(** a column that no row keeps from decreasing *)
Lemma needed_col int L t c : represents int L t -> (t_dead t <= c < ncol t)%nat -> sample_ok None t ->
  (forall i, (t_red t <= i < nrow t)%nat -> v_nonneg (t_info t (rowv t i)) = true -> cf t i c <= 0) -> needed L t (colv t c).
Proof.
  intros R Hc D H. destruct (point_others int L t (colv t c) c (-1) R) as (p & Hp & O & _ & Cv).
  - intros _. exact Hc.
  - intros _. right. reflexivity.
  - intros i Hi Nn _. specialize (H i Hi Nn). assert (0 <= cst t i) by (apply D; [exact Hi|discriminate|exact Nn]). lia.
  - specialize (Cv ltac:(lia)). exists p. split; [exact Hp|]. split; [exact O|]. rewrite Cv. split; lia.
Qed.
Lemma unb_false t c : existsb (fun i => (0 <? cf t i c) && v_nonneg (t_info t (rowv t i))) (live_rows t) = false ->
  forall i, (t_red t <= i < nrow t)%nat -> v_nonneg (t_info t (rowv t i)) = true -> cf t i c <= 0.
Proof.
  intros B i Hi Nn. destruct (Z_lt_le_dec 0 (cf t i c)) as [P|]; [|assumption]. exfalso. apply not_true_iff_false in B. apply B. apply existsb_exists. exists i. split; [apply in_live_rows; lia|]. rewrite Nn, (proj2 (Z.ltb_lt _ _) P). reflexivity.
Qed.

(** ** sign_of_min *)
Lemma sign_of_min_loop_neg int L v : forall fuel t i last, t_rat t = true -> represents int L t -> live_row t v i -> sample_ok (Some v) t -> came_from int L t last ->
  wp (sign_of_min_loop fuel t v last) (fun '(t2, s) => s < 0 -> needed L t2 v).
Proof.
  induction fuel as [|fuel IH]; intros t i last Rt R Lr D La; [exact I|]. cbn [sign_of_min_loop].
  pose proof (c_arr _ _ (r_core _ _ _ R)) as A. pose proof (c_flg _ _ (r_core _ _ _ R)) as F. destruct (live_row_info t v i A F Lr) as (V & Rw & Rd & _).
  rewrite (live_row_of t v i A Lr). cbn [bind]. destruct (Z.ltb_spec (cst t i) 0) as [Neg|Ge].
  - eapply wp_weak; [apply (neg_one_ok int L v fuel t i last R Lr D La Neg)|]. intros [t2 s] (R2 & E2 & D2 & ->) _. apply (needed_evolve L t t2 v E2). apply (needed_sample int L t v i R Lr D Neg). congruence.
  - assert (D0 : sample_ok None t) by (eapply sample_row; eassumption).
    destruct (find_pivot_ok t v true (-1) i A F eq_refl Lr) as (o & -> & Fo). cbn [bind]. destruct o as [[r c]|].
    + destruct (Nat.eqb_spec r i) as [->|Nr].
      * cbn [wp]. intros _. apply (needed_ray int L t v i c R Lr D Fo).
      * apply wp_bind. eapply wp_weak; [apply (down_step int L t v i r c None R Lr Fo D0 (or_introl eq_refl) Nr)|]. intros t2 (Cm & D2 & Rw2 & Lr2).
        pose proof (cm_rep _ _ _ _ _ _ Cm) as R2. pose proof (cm_ev _ _ _ _ _ _ Cm) as E2. destruct (v_red (t_info t2 v)) eqn:Rd2.
        -- cbn [wp]. lia.
        -- destruct (Lr2 eq_refl) as (i2 & Lr3). apply (IH t2 i2 (Some (colv t c, r, c))); [rewrite (e_rat _ _ _ E2); exact Rt|exact R2|exact Lr3|exact D2|exists t; auto].
    + cbn [wp]. intros X. destruct (cst t i); cbn in X; lia.
Qed.
Lemma sign_of_min_neg int L v fuel t : t_rat t = true -> represents int L t -> live t v -> sample_ok None t ->
  wp (sign_of_min fuel t v) (fun '(t2, s) => s < 0 -> needed L t2 v).
Proof.
  intros Rt R Lv D. pose proof (c_arr _ _ (r_core _ _ _ R)) as A. pose proof (c_flg _ _ (r_core _ _ _ R)) as F. unfold sign_of_min. destruct Lv as [(i & Lr)|(c & Lc)].
  - destruct (live_row_info t v i A F Lr) as (V & Rw & Rd & _). unfold min_unb. rewrite Rw. cbn [bind]. rewrite Rd.
    apply (sign_of_min_loop_neg int L v fuel t i None Rt R Lr (sample_weak _ _ D) D).
  - pose proof Lc as (Hc & Ec). rewrite (min_unb_ok t v c A) by (auto; lia). cbn [bind].
    destruct (existsb (fun i => (0 <? cf t i c) && v_nonneg (t_info t (rowv t i))) (live_rows t)) eqn:B; cbn [negb].
    + destruct (a_col _ A c) as (_ & _ & Rw); [lia|]. rewrite Ec in Rw. rewrite Rw. rewrite (col_of_eq t c v A) by (auto; lia). cbn [bind].
      destruct (down_col int L t v c R Lc D (unb_cases t v c Lc B)) as (r & -> & W). cbn zeta. apply wp_bind. eapply wp_weak; [exact W|]. intros t2 (Cm & D2 & Rw2 & Lr2).
      pose proof (cm_rep _ _ _ _ _ _ Cm) as R2. pose proof (cm_ev _ _ _ _ _ _ Cm) as E2. pose proof (e_rat _ _ _ E2) as Rt2. rewrite Rt in Rt2. destruct (v_red (t_info t2 v)) eqn:Rd2.
      * cbn [wp]. lia.
      * destruct (Lr2 eq_refl) as (i2 & Lr3). rewrite (live_row_of t2 v i2) by (auto; apply R2). cbn [bind].
        assert (La : came_from int L t2 (Some (colv t c, r, c))) by (exists t; auto).
        destruct (Z.ltb_spec (cst t2 i2) 0) as [Neg|Ge].
        -- eapply wp_weak; [apply (neg_one_ok int L v fuel t2 i2 (Some (colv t c, r, c)) R2 Lr3 D2 La Neg)|]. intros [t3 s] (R3 & E3 & D3 & ->) _.
           apply (needed_evolve L t2 t3 v E3). apply (needed_sample int L t2 v i2 R2 Lr3 D2 Neg). congruence.
        -- apply (sign_of_min_loop_neg int L v fuel t2 i2 (Some (colv t c, r, c)) Rt2 R2 Lr3 D2 La).
    + cbn [wp]. intros _. rewrite <- Ec. apply (needed_col int L t c R Hc D). apply unb_false. exact B.
Qed.

(** ** isl_tab_min_at_most_neg_one *)
Lemma neg_one_row t i : 0 < den t i -> row_at_most_neg_one t i = true -> cst t i < 0 /\ cst t i <= - den t i.
Proof. unfold row_at_most_neg_one. intros Dn H. apply andb_prop in H. destruct H as (H1 & H2). apply Z.ltb_lt in H1. apply Z.leb_le in H2. lia. Qed.
Lemma neg_one_row_false t i : 0 < den t i -> row_at_most_neg_one t i = false -> - den t i < cst t i.
Proof. unfold row_at_most_neg_one. intros Dn H. apply andb_false_iff in H. destruct H as [H|H]; [apply Z.ltb_ge in H; lia|apply Z.leb_gt in H; lia]. Qed.
(** what pivots do to the flags, even on a tableau that means nothing *)
Record light (t t' : tab) : Prop := {
  li_nvar : t_nvar t' = t_nvar t; li_ncon : t_ncon t' = t_ncon t; li_rat : t_rat t' = t_rat t;
  li_zero : forall u, v_zero (t_info t' u) = v_zero (t_info t u);
  li_red : forall u, v_red (t_info t' u) = false -> v_red (t_info t u) = false;
  li_nonneg : forall u, v_red (t_info t' u) = false -> v_nonneg (t_info t' u) = v_nonneg (t_info t u) }.
Lemma light_refl t : light t t. Proof. constructor; auto. Qed.
Lemma light_trans t t1 t2 : light t t1 -> light t1 t2 -> light t t2.
Proof.
  intros A B. constructor.
  - rewrite (li_nvar _ _ B). apply A.
  - rewrite (li_ncon _ _ B). apply A.
  - rewrite (li_rat _ _ B). apply A.
  - intros u. rewrite (li_zero _ _ B). apply A.
  - intros u H. apply (li_red _ _ A), (li_red _ _ B), H.
  - intros u H. rewrite (li_nonneg _ _ B u H). apply A. apply B. exact H.
Qed.
Lemma needed_light L t t' v : light t t' -> needed L t v -> needed L t' v.
Proof.
  intros S (p & Hp & (Lp & O) & Ng & Ni). exists p. split; [exact Hp|]. split; [|split; [exact Ng|rewrite (li_rat _ _ S); exact Ni]]. split; [rewrite (li_nvar _ _ S); exact Lp|].
  intros u V. unfold valid in V. rewrite (li_nvar _ _ S), (li_ncon _ _ S) in V. destruct (O u V) as (O1 & O2). rewrite (li_zero _ _ S). split; [exact O1|]. intros Nn Rd N. apply O2; [rewrite <- (li_nonneg _ _ S u Rd); exact Nn|apply (li_red _ _ S); exact Rd|exact N].
Qed.
Lemma light_upd t v f : (forall x, v_zero (f x) = v_zero x) -> (forall x, v_red (f x) = false -> v_red x = false) -> (forall x, v_red (f x) = false -> v_nonneg (f x) = v_nonneg x) -> light t (upd t v f).
Proof. intros H1 H2 H3. constructor; try reflexivity; intros u; cbn; destruct (Z.eqb_spec u v) as [->|]; auto. Qed.
Lemma light_rows t x : light t (w_rows t x). Proof. constructor; auto. Qed.
Lemma light_rv t x : light t (w_rv t x). Proof. constructor; auto. Qed.
Lemma light_cv t x : light t (w_cv t x). Proof. constructor; auto. Qed.
Lemma light_log t x : light t (w_log t x). Proof. constructor; auto. Qed.
Lemma light_nred t x : light t (w_red t x). Proof. constructor; auto. Qed.
Lemma light_swap t i j : light t (swap_rows t i j).
Proof.
  unfold swap_rows. cbv zeta. eapply light_trans; [|apply light_rows]. eapply light_trans; [|apply light_upd; intros; auto]. eapply light_trans; [|apply light_upd; intros; auto]. apply light_rv.
Qed.
Lemma light_push t u v t' : push_var t u v = Ok t' -> light t t'.
Proof.
  unfold push_var. destruct (v_row (t_info t v)); intros H; apply bind_ok in H; destruct H as (i & _ & H); injection H as <-; [destruct (push_w t (u (rowv t i))) as (l & ->)|destruct (push_w t (u (colv t i))) as (l & ->)]; apply light_log.
Qed.
Lemma light_mark t i t' b : mark_redundant t i = Ok (t', b) -> light t t'.
Proof.
  unfold mark_redundant. cbv zeta. set (t1 := upd t (rowv t i) (vs_red true)). assert (E1 : light t t1) by (apply light_upd; intros; auto; discriminate).
  destruct (Nat.ltb i (t_red t1)); [discriminate|]. destruct (t_preserve t1 || t_undo t1 || (0 <=? rowv t i)).
  - intros H. apply bind_ok in H. destruct H as (t2 & H2 & H). apply bind_ok in H. destruct H as (t3 & H3 & H). injection H as <- _.
    apply light_push in H3. eapply light_trans; [|exact H3]. eapply light_trans; [|apply light_nred]. assert (E2 : light t t2).
    { destruct ((0 <=? rowv t i) && negb (v_nonneg (t_info t1 (rowv t i)))); [|injection H2 as <-; exact E1]. apply light_push in H2. eapply light_trans; [|exact H2].
      constructor; try reflexivity; intros u; cbn; destruct (Z.eqb_spec u (rowv t i)) as [->|]; rewrite ?Z.eqb_refl; cbn; auto; discriminate. }
    destruct (Nat.eqb i (t_red t2)); [exact E2|]. eapply light_trans; [exact E2|apply light_swap].
  - intros H. injection H as <- _. set (last := (nrow t1 - 1)%nat). eapply light_trans; [|apply light_rows]. eapply light_trans; [|apply light_rv]. eapply light_trans; [|apply light_upd; intros; auto].
    destruct (Nat.eqb i last); [exact E1|]. eapply light_trans; [exact E1|apply light_swap].
Qed.
Lemma light_sweep c : forall k i t t', sweep k i c t = Ok t' -> light t t'.
Proof.
  induction k as [|k IH]; intros i t t' H; cbn [sweep] in H; [injection H as <-; apply light_refl|]. destruct (cf t i c =? 0); [apply (IH _ _ _ H)|]. destruct (negb (v_frozen (t_info t (rowv t i))) && row_is_redundant t i); [|apply (IH _ _ _ H)].
  apply bind_ok in H. destruct H as ((t1, b) & H1 & H). eapply light_trans; [apply (light_mark _ _ _ _ H1)|apply (IH _ _ _ H)].
Qed.
Lemma light_pivot t i c t' : pivot t i c = Ok t' -> light t t'.
Proof.
  unfold pivot. cbv zeta. assert (E : light t (pivot_step t i c)).
  { unfold pivot_step. cbv zeta. eapply light_trans; [|apply light_upd; intros; auto]. eapply light_trans; [|apply light_upd; intros; auto]. eapply light_trans; [|apply light_cv]. eapply light_trans; [|apply light_rv]. apply light_rows. }
  destruct (t_inundo (pivot_step t i c)); intros H; [injection H as <-; exact E|]. eapply light_trans; [exact E|apply (light_sweep _ _ _ _ _ H)].
Qed.
Lemma light_restore v : forall fuel t t' s, restore_row fuel t v = Ok (t', s) -> light t t'.
Proof.
  induction fuel as [|f IH]; intros t t' s H; cbn [restore_row] in H; [discriminate|]. apply bind_ok in H. destruct H as (i & _ & H). destruct (cst t i <? 0); [|injection H as <- _; apply light_refl].
  apply bind_ok in H. destruct H as (o & _ & H). destruct o as [[r c]|]; [|injection H as <- _; apply light_refl]. apply bind_ok in H. destruct H as (t1 & H1 & H). apply light_pivot in H1. eapply light_trans; [exact H1|].
  destruct (v_row (t_info t1 v)); [apply (IH _ _ _ H)|injection H as <- _; apply light_refl].
Qed.
Lemma min_neg_one_loop_neg int L v : forall fuel t i t', represents int L t -> live_row t v i -> sample_ok (Some v) t -> v_nonneg (t_info t v) = true ->
  min_neg_one_loop fuel t v = Ok (t', true) -> needed L t' v.
Proof.
  induction fuel as [|fuel IH]; intros t i t' R Lr D Nn; [discriminate|]. cbn [min_neg_one_loop].
  pose proof (c_arr _ _ (r_core _ _ _ R)) as A. pose proof (c_flg _ _ (r_core _ _ _ R)) as F. destruct (live_row_info t v i A F Lr) as (V & Rw & Rd & _).
  rewrite (live_row_of t v i A Lr). cbn [bind]. rewrite Nn. destruct (find_pivot_ok t v true (-1) i A F eq_refl Lr) as (o & -> & Fo). cbn [bind]. destruct o as [[r c]|]; [|discriminate].
  destruct (Nat.eqb_spec r i) as [->|Nr].
  - intros H. apply bind_ok in H. destruct H as ((t2, s) & H2 & H). injection H as <-. apply light_restore in H2. apply (needed_light L t t2 v H2). apply (needed_ray int L t v i c R Lr D Fo).
  - cbn zeta. intros H. apply bind_ok in H. destruct H as (t2 & H2 & H).
    destruct (wp_ok _ _ t2 (down_step int L t v i r c (Some v) R Lr Fo D (or_intror eq_refl) Nr) H2) as (Cm & D2 & Rw2 & Lr2). clear H2.
    pose proof (cm_rep _ _ _ _ _ _ Cm) as R2. pose proof (cm_ev _ _ _ _ _ _ Cm) as E2. destruct (v_red (t_info t2 v)) eqn:Rd2; [discriminate|].
    destruct (Lr2 eq_refl) as (i2 & Lr3). rewrite (live_row_of t2 v i2) in H by (auto; apply R2). cbn [bind] in H. pose proof (evolve_nonneg _ _ _ _ E2 Rd2) as Nv. rewrite Nn in Nv. rewrite Nv in H.
    assert (Hi2 : (i2 < nrow t2)%nat) by apply Lr3. pose proof (a_den _ (c_arr _ _ (r_core _ _ _ R2)) i2 Hi2) as Dn2.
    destruct (row_at_most_neg_one t2 i2) eqn:B; [|apply (IH t2 i2 t' R2 Lr3 D2 Nv H)].
    destruct (neg_one_row t2 i2 Dn2 B) as (N1 & N2). pose proof (needed_sample int L t2 v i2 R2 Lr3 D2 N1 (fun _ => N2)) as Nd.
    apply bind_ok in H. destruct H as (t3 & H3 & H). apply bind_ok in H. destruct H as ((t4, s) & H4 & H). injection H as <-. apply light_restore in H4. apply (needed_light L t3 t4 v H4).
    apply (needed_light L t2 t3 v); [|exact Nd]. destruct (negb (v_red (t_info t2 (colv t c))) && match v_idx (t_info t2 (colv t c)) with Some i => Nat.eqb i r | None => false end); [apply (light_pivot _ _ _ _ H3)|injection H3 as <-; apply light_refl].
Qed.
Lemma min_at_most_neg_one_neg int L v fuel t : represents int L t -> live t v -> sample_ok None t -> v_nonneg (t_info t v) = true ->
  forall t', min_at_most_neg_one fuel t v = Ok (t', true) -> needed L t' v.
Proof.
  intros R Lv D Nn t'. pose proof (c_arr _ _ (r_core _ _ _ R)) as A. pose proof (c_flg _ _ (r_core _ _ _ R)) as F. unfold min_at_most_neg_one.
  destruct Lv as [(i & Lr)|(c & Lc)].
  - destruct (live_row_info t v i A F Lr) as (V & Rw & Rd & _). unfold min_unb. rewrite Rw. cbn [bind]. rewrite Rd.
    apply (min_neg_one_loop_neg int L v fuel t i t' R Lr (sample_weak _ _ D) Nn).
  - pose proof Lc as (Hc & Ec). rewrite (min_unb_ok t v c A) by (auto; lia). cbn [bind].
    destruct (existsb (fun i => (0 <? cf t i c) && v_nonneg (t_info t (rowv t i))) (live_rows t)) eqn:B; cbn [negb].
    + destruct (a_col _ A c) as (_ & _ & Rw); [lia|]. rewrite Ec in Rw. rewrite Rw. rewrite (col_of_eq t c v A) by (auto; lia). cbn [bind].
      destruct (down_col int L t v c R Lc D (unb_cases t v c Lc B)) as (r & -> & W). cbn zeta. intros H. apply bind_ok in H. destruct H as (t2 & H2 & H). destruct (wp_ok _ _ t2 W H2) as (Cm & D2 & Rw2 & Lr2). clear H2 W.
      pose proof (cm_rep _ _ _ _ _ _ Cm) as R2. pose proof (cm_ev _ _ _ _ _ _ Cm) as E2. destruct (v_red (t_info t2 v)) eqn:Rd2; [discriminate|].
      destruct (Lr2 eq_refl) as (i2 & Lr3). rewrite (live_row_of t2 v i2) in H by (auto; apply R2). cbn [bind] in H.
      pose proof (evolve_nonneg _ _ _ _ E2 Rd2) as Nv. rewrite Nn in Nv. rewrite Nv in H. assert (Hi2 : (i2 < nrow t2)%nat) by apply Lr3. pose proof (a_den _ (c_arr _ _ (r_core _ _ _ R2)) i2 Hi2) as Dn2.
      destruct (row_at_most_neg_one t2 i2) eqn:B1; [|apply (min_neg_one_loop_neg int L v fuel t2 i2 t' R2 Lr3 D2 Nv H)].
      apply bind_ok in H. destruct H as (t3 & H3 & H). injection H as <-. destruct (neg_one_row t2 i2 Dn2 B1) as (N1 & N2). apply (needed_light L t2 t3 v); [|apply (needed_sample int L t2 v i2 R2 Lr3 D2 N1 (fun _ => N2))].
      unfold pivot_back in H3. destruct (negb (v_red (t_info t2 (colv t c))) && match v_idx (t_info t2 (colv t c)) with Some i => Nat.eqb i r | None => false end); [apply (light_pivot _ _ _ _ H3)|]. apply bind_ok in H3. destruct H3 as ((t4, s) & H4 & H3). injection H3 as <-. apply (light_restore _ _ _ _ _ H4).
    + intros [= <-]. rewrite <- Ec. apply (needed_col int L t c R Hc D). apply unb_false. exact B.
Qed.
Lemma con_not_redundant int L v fuel t : represents int L t -> live t v -> sample_ok None t -> v_nonneg (t_info t v) = true ->
  forall t', con_is_redundant fuel t v = Ok (t', false) -> needed L t' v.
Proof.
  intros R Lv D Nn t'. unfold con_is_redundant. destruct (t_rat t) eqn:Rt; intros H; apply bind_ok in H; destruct H as ((t2, s) & H2 & H); injection H as <- E.
  - apply (wp_ok _ _ (t2, s) (sign_of_min_neg int L v fuel t Rt R Lv D) H2). apply Z.leb_gt. exact E.
  - apply negb_false_iff in E. subst s. apply (min_at_most_neg_one_neg int L v fuel t R Lv D Nn t2 H2).
Qed.

(** ** detect_redundant *)
Lemma open_same t t' u : same_but t t' -> open t' u -> open t u.
Proof.
  intros Sm O. pose proof Sm as (E & _). unfold open in *. rewrite (same_flag v_nonneg t t' u Sm), (same_flag v_frozen t t' u Sm), (same_flag v_red t t' u Sm), (same_flag v_zero t t' u Sm) in O by reflexivity.
  destruct O as (Vu & O). split; [unfold valid in *; rewrite E in Vu; exact Vu|exact O].
Qed.
Definition lean (L : list (list Z)) (t : tab) : Prop := t_empty t = false -> forall u, open t u -> needed L t u.
Lemma con_red_ok int L v f t : represents int L t -> live t v -> sample_ok None t -> v_nonneg (t_info t v) = true -> (t_rat t = false -> int = true) ->
  wp (con_is_redundant f t v) (fun '(t2, b) => represents int L t2 /\ evolve L t t2 /\ sample_ok (Some v) t2 /\ (b = false -> sample_ok None t2) /\
     (b = true -> v_red (t_info t2 v) = true \/ exists i, live_row t2 v i /\ forall p, adm int p -> ok_cols L t2 p -> 0 <= value L p v)).
Proof.
  intros R Lv D Nn Hr.
   unfold con_is_redundant. destruct (t_rat t) eqn:Rt; apply wp_bind.
    - eapply wp_weak; [apply (sign_of_min_ok int L v f t R Lv D)|]. intros [t2 s] (R2 & E2 & D2 & H2). cbn [wp]. split; [exact R2|]. split; [exact E2|]. split; [apply sample_weak, D2|]. split; [auto|].
      intros E. apply Z.leb_le in E. destruct (H2 E) as [X|(i & Lr & Mn & C0)]; [left; exact X|right]. exists i. split; [exact Lr|]. intros p (Hp & _) O. pose proof (r_core _ _ _ R2) as C2. pose proof (c_arr _ _ C2) as A2.
      destruct Lr as (Hi & Ei). pose proof (row_lower L t2 p i A2 (c_rel _ _ C2) O (proj2 Hi) Mn) as Lo. rewrite Ei in Lo. pose proof (a_den _ A2 i (proj2 Hi)) as Dn. clear - C0 Hp Lo Dn. nia.
    - pose proof (Hr eq_refl) as Ei. eapply wp_weak; [apply (min_at_most_neg_one_ok int L v f t R Lv D Nn)|]. intros [t2 b] (R2 & E2 & D2 & D2' & H2). cbn [wp]. split; [exact R2|]. split; [exact E2|]. split; [exact D2'|].
      split; [intros B; apply D2; destruct b; [reflexivity|discriminate]|]. intros B. assert (b = false) by (destruct b; [discriminate|reflexivity]). destruct (H2 H) as [X|(i & Lr & Mn & C0)]; [left; exact X|right]. exists i. split; [exact Lr|].
      intros p (Hp & H1) O. specialize (H1 Ei). pose proof (r_core _ _ _ R2) as C2. pose proof (c_arr _ _ C2) as A2. destruct Lr as (Hi & Er). pose proof (row_lower L t2 p i A2 (c_rel _ _ C2) O (proj2 Hi) Mn) as Lo. rewrite Er, H1 in Lo. pose proof (a_den _ A2 i (proj2 Hi)) as Dn.
      clear - C0 Lo Dn. nia.
Qed.
Lemma col_present t c : arranged t -> flagged t -> (t_dead t <= c < ncol t)%nat -> present t (colv t c).
Proof.
  intros A F Hc. destruct (a_col _ A c) as (V & _ & Rw); [lia|]. split; [exact V|]. destruct (f_cols _ F c (proj2 Hc)) as (Z0 & Rd). split; [exact Rd|]. right. rewrite Z0. apply Nat.ltb_ge. apply Hc.
Qed.
Lemma wp_intro {A} (r : res A) (P Q : A -> Prop) : wp r P -> (forall a, r = Ok a -> P a -> Q a) -> wp r Q.
Proof. destruct r; cbn; auto. Qed.
Lemma detect_red_loop_lean int L : forall fuel t n, represents int L t -> sample_ok None t -> marks_ok t -> (t_rat t = false -> int = true) -> inv (needed L) t n ->
  wp (detect_red_loop fuel t n) (lean L).
Proof.
  induction fuel as [|f IH]; intros t n R D M Hr In; [exact I|]. cbn [detect_red_loop].
  assert (Done : n = 0%nat \/ select_marked t = None -> wp (Ok t) (lean L)).
  { intros X _ u O. apply (inv_done _ t n); auto; apply R. }
  destruct n as [|n]; [apply Done; left; reflexivity|]. destruct (select_marked t) as [v|] eqn:Sel; [|apply Done; right; reflexivity]. clear Done.
  destruct (select_ok int L t v R Sel) as (V & Ng & Mk & Lv). pose proof (M v V Ng Mk) as Nn.
  destruct (inv_select (needed L) L int t v n R (fun u t' Sm => needed_same L t t' u Sm) Sel In) as (Cn & Iv).
  set (t1 := upd t v (vs_marked false)) in *.
  pose proof (sm_represents int L t v false R) as R1. pose proof (sm_sample t v false None D) as D1. pose proof (sm_step int L t v) as S1. pose proof (step_marks _ _ _ _ S1 M) as M1. fold t1 in R1, D1, S1, M1.
  assert (V1 : valid t1 v) by exact V.
  assert (Nn1 : v_nonneg (t_info t1 v) = true) by (apply (p_nonneg _ _ _ _ S1 v V Nn)).
  apply wp_bind.
  eapply wp_intro; [apply (con_red_ok int L v f t1 R1 Lv D1 Nn1); rewrite (p_rat _ _ _ _ S1); exact Hr|]. intros [t2 b] Eq (R2 & E2 & D2 & Db & H2).
  pose proof (con_not_redundant int L v f t1 R1 Lv D1 Nn1 t2) as Nr. rewrite Eq in Nr. clear Eq.
  pose proof (evolve_flow L t1 t2 E2) as F2.
  pose proof (evolve_step int L t1 t2 E2) as P2. pose proof (step_marks _ _ _ _ P2 M1) as M2. pose proof (p_nonneg _ _ _ _ P2 v V1 Nn1) as Nn2.
  assert (P12 : step int L t t2) by (eapply step_trans; eassumption).
  assert (Cn2 : (cnt t2 <= n)%nat) by (pose proof (flow_cnt _ _ F2) as Fc; clear - Fc Cn; lia).
  assert (Iv2 : forall u, open t2 u -> u = v \/ v_marked (t_info t2 u) = true \/ needed L t2 u).
  { intros u O. rewrite (fl_marked _ _ F2). destruct (Iv u (open_flow _ _ _ F2 O)) as [K|[K|K]]; [left; exact K|right; left; exact K|right; right]. apply (needed_evolve L t1 t2 u E2 K). }
  apply wp_bind.
  assert (MK : wp (if b && negb (v_red (t_info t2 v)) then do i <- row_of t2 v ;; do (t, _) <- mark_redundant t2 i ;; Ok t else Ok t2)
    (fun t3 => represents int L t3 /\ step int L t2 t3 /\ sample_ok None t3 /\ inv (needed L) t3 n)).
  { destruct b; cbn [andb].
    - destruct (v_red (t_info t2 v)) eqn:Rd; cbn [negb].
      + cbn [wp]. split; [exact R2|]. split; [apply step_refl|]. split; [apply (sample_nored None t2 v); [apply R2|exact D2|exact Rd]|].
        split; [exact Cn2|]. intros u O. destruct (Iv2 u O) as [->|K]; [exfalso; destruct O as (_ & _ & _ & _ & X & _); congruence|exact K].
      + destruct (H2 eq_refl) as [X|(i & Lr & J)]; [congruence|]. rewrite (live_row_of t2 v i) by (try exact Lr; apply R2). cbn [bind]. apply wp_bind.
        eapply wp_weak; [apply (wp_and _ _ _ (mark_step int L t2 v i R2 Lr Nn2 J) (mark_ok t2 i (c_arr _ _ (r_core _ _ _ R2)) (c_flg _ _ (r_core _ _ _ R2)) (proj1 Lr)))|].
        intros [t3 b3] ((R3 & P3 & D3 & Rd3) & ((_ & _ & Sw & _) & _)). cbn [wp]. split; [exact R3|]. split; [exact P3|]. split; [apply (sample_nored None t3 v); [apply R3|apply D3, D2|exact Rd3]|].
        pose proof (swept_flow _ _ Sw) as F3. split; [pose proof (flow_cnt _ _ F3) as Fc; clear - Fc Cn2; lia|]. intros u O. destruct (Iv2 u (open_flow _ _ _ F3 O)) as [->|[K|K]].
        * exfalso. destruct O as (_ & _ & _ & _ & X & _). congruence.
        * left. rewrite (fl_marked _ _ F3). exact K.
        * right. apply (needed_swept L t2 t3 u Sw K).
    - cbn [wp]. split; [exact R2|]. split; [apply step_refl|]. split; [apply Db; reflexivity|]. split; [exact Cn2|]. intros u O. destruct (Iv2 u O) as [->|K]; [right; apply Nr; reflexivity|exact K]. }
  eapply wp_weak; [exact MK|]. clear MK Iv Iv2 Nr. intros t3 (R3 & P3 & D3 & (Cn3 & Iv3)). pose proof (step_marks _ _ _ _ P3 M2) as M3.
  set (l := map _ _). destruct (clear_marks_ok int int L l t3 n R3) as (R4 & P4 & D4). pose proof (clear_marks_same l t3 n) as Sm. pose proof (fun u => clear_marks_out u l t3 n) as Ou.
  assert (Pr : forall u m, List.In (u, m) l -> exists c, (t_dead t3 <= c < ncol t3)%nat /\ colv t3 c = u /\ m = col_min_unb t3 c).
  { intros u m Hu. apply in_map_iff in Hu. destruct Hu as (c & E & Hc). injection E as E1 E2'. apply in_live_cols in Hc. exists c. split; [clear - Hc; lia|]. auto. }
  pose proof (clear_marks_cnt l t3 n) as Cc. destruct (clear_marks t3 l n) as [t4 n4]. cbn [fst snd] in *.
  apply IH; [exact R4|apply D4, D3|apply (step_marks _ _ _ _ P4 M3)|rewrite (p_rat _ _ _ _ P4), (p_rat _ _ _ _ P3), (p_rat _ _ _ _ P12); exact Hr|]. split.
  - apply Cc; [|exact Cn3]. intros u m Hu. destruct (Pr u m Hu) as (c & Hc & <- & _). apply (col_present t3 c); [apply R3|apply R3|exact Hc].
  - intros u O. pose proof (open_same _ _ _ Sm O) as O3. destruct (Iv3 u O3) as [K|K]; [|right; apply (needed_same L t3 t4 u Sm K)]. destruct (Ou u K) as [K'|K']; [left; exact K'|right]. apply (needed_same L t3 t4 u Sm).
    destruct (Pr u true K') as (c & Hc & <- & Em). apply (needed_col int L t3 c R3 Hc D3). apply unb_false. symmetry in Em. apply negb_true_iff in Em. exact Em.
Qed.
Theorem detect_red_lean int L fuel t : represents int L t -> sample_ok None t -> marks_ok t -> (t_rat t = false -> int = true) -> wp (detect_redundant fuel t) (lean L).
Proof.
  intros R D M Hr. unfold detect_redundant. pose proof (c_arr _ _ (r_core _ _ _ R)) as A. pose proof (c_flg _ _ (r_core _ _ _ R)) as F.
  destruct (t_empty t) eqn:Em; [cbn [wp]; intros X; congruence|]. destruct (Nat.eqb_spec (t_red t) (nrow t)) as [Ed|_].
  { cbn [wp]. intros _ u O. destruct (present_live t u A F (open_present t u O)) as [(i & (Hi & _))|(c & (Hc & <-))]; [lia|]. apply (needed_col int L t c R Hc D). intros i Hi. lia. }
  set (l := _ ++ _). destruct (set_marks_ok int int L l t 0%nat R M) as (R1 & K1 & M1 & D1).
  { intros v Hv. unfold l in Hv. apply in_app_or in Hv. destruct Hv as [Hv|Hv]; apply in_map_iff in Hv; destruct Hv as (i & E & _); cbv zeta in E; injection E as E1 E2; rewrite E1 in E2; apply andb_true_iff in E2; destruct E2 as (E2 & E3); [exact E3|apply andb_true_iff in E2; apply E2]. }
  assert (Co : forall u, present t u -> List.In u (map fst l)).
  { intros u P. unfold l. rewrite map_app, !map_map. cbn [fst]. apply in_or_app. destruct (present_live t u A F P) as [(i & (Hi & <-))|(c & (Hc & <-))]; [left|right]; apply in_map_iff; eexists; (split; [reflexivity|]); [apply in_live_rows|apply in_live_cols]; lia. }
  pose proof (set_marks_cnt l t Co) as Cn. pose proof (set_marks_same l t 0) as Sm. pose proof (fun u => set_marks_out u l t 0) as Ou.
  destruct (set_marks t l 0) as [t1 n]. cbn [fst snd] in *. apply (detect_red_loop_lean int L fuel t1 n R1 (D1 None D) M1).
  - rewrite (k_rat _ _ _ _ K1). exact Hr.
  - split; [exact Cn|]. intros u O. pose proof (open_same _ _ _ Sm O) as O3.
    destruct (Ou u (or_intror (Co u (open_present t u O3)))) as [K|K]; [left; exact K|right]. apply (needed_same L t t1 u Sm).
    pose proof O3 as (_ & _ & Nn & Fz & _). unfold l in K. apply in_app_or in K. destruct K as [K|K]; apply in_map_iff in K; destruct K as (i & E & Hi); cbv zeta in E; injection E as E1 E2; rewrite E1, Nn, Fz in E2; cbn [negb andb] in E2; [discriminate|].
    apply in_live_cols in Hi. rewrite <- E1. apply (needed_col int L t i R); [lia|exact D|]. apply unb_false. apply negb_false_iff in E2. apply negb_true_iff in E2. exact E2.
Qed.

(** ** in terms of what isl_tab_is_equality and isl_tab_is_redundant report *)
Lemma reported t c : (c < t_ncon t)%nat -> v_nonneg (t_info t (con c)) = true -> v_frozen (t_info t (con c)) = false -> is_equality t c = false -> is_redundant t c = false ->
  open t (con c) /\ eq_row t (con c) = false.
Proof.
  intros Hc Nn Fz. unfold is_equality, is_redundant, eq_row. destruct (v_zero (t_info t (con c))) eqn:Z0; [discriminate|]. destruct (v_red (t_info t (con c))) eqn:Rd; [discriminate|]. intros E _. split.
  - split; [apply valid_con; exact Hc|]. split; [unfold con; lia|]. auto.
  - destruct (v_row (t_info t (con c))); [|reflexivity]. cbn [negb] in E. cbn [andb]. exact E.
Qed.
Lemma equalities_complete int L fuel t : represents int L t -> sample_ok None t -> marks_ok t -> (t_rat t = false -> int = true) ->
  wp (detect_implicit_equalities fuel t) (fun t' => t_empty t' = false -> forall c, (c < t_ncon t')%nat ->
    v_nonneg (t_info t' (con c)) = true -> v_frozen (t_info t' (con c)) = false -> is_equality t' c = false -> is_redundant t' c = false ->
    exists p, 0 < hd 0 p /\ feas L t' p /\ 0 < value L p (con c)).
Proof.
  intros R D M Hr. eapply wp_weak; [apply (detect_eq_complete int int L fuel t R D M Hr)|]. intros t' Cm Em c Hc Nn Fz Eq Rd. destruct (reported t' c Hc Nn Fz Eq Rd) as (O & E). apply (Cm Em _ O E).
Qed.
Lemma others_cols int L t v p : represents int L t -> others L t v p -> forall c, (c < t_ncon t)%nat -> is_equality t c = true -> value L p (con c) = 0.
Proof.
  intros R (Lp & H) c Hc E. pose proof (r_core _ _ _ R) as C. pose proof (c_arr _ _ C) as A. pose proof (c_flg _ _ C) as F. assert (V : valid t (con c)) by (apply valid_con; exact Hc).
  unfold is_equality in E. destruct (v_zero (t_info t (con c))) eqn:Z0; [apply (H _ V); exact Z0|].
  destruct (v_red (t_info t (con c))) eqn:Rd; [discriminate|]. destruct (v_row (t_info t (con c))) eqn:Rw; cbn [negb] in E.
  - destruct (v_idx (t_info t (con c))) as [i|] eqn:Ix; [|discriminate]. destruct (at_row _ _ _ A V Ix Rw) as (Hi & Ei).
    unfold row_zero in E. apply andb_prop in E. destruct E as (H1 & H2). apply Z.eqb_eq in H1. destruct (first_live t i) eqn:Fl; [discriminate|].
    pose proof (row_const L t i p C Hi (first_live_none _ _ Fl) Lp) as X. rewrite Ei, H1 in X. pose proof (a_den _ A i Hi). enough (den t i * value L p (con c) = 0 * hd 0 p) by nia. apply X.
    intros u Vu Zu _. apply (H u Vu). exact Zu.
  - exfalso. destruct (v_idx (t_info t (con c))) as [i|] eqn:Ix.
    + destruct (at_col _ _ _ A V Ix Rw) as (Hi & Ei). destruct (f_cols _ F i Hi) as (X & _). rewrite Ei, Z0, E in X. discriminate.
    + destruct (f_gone _ F _ V Ix) as (_ & X). rewrite Rw in X. destruct X as (X & _). congruence.
Qed.
Lemma redundant_complete int L fuel t : represents int L t -> sample_ok None t -> marks_ok t -> (t_rat t = false -> int = true) ->
  wp (detect_redundant fuel t) (fun t' => t_empty t' = false -> forall c, (c < t_ncon t')%nat ->
    v_nonneg (t_info t' (con c)) = true -> v_frozen (t_info t' (con c)) = false -> is_equality t' c = false -> is_redundant t' c = false ->
    exists p, 0 < hd 0 p /\ length p = (1 + t_nvar t')%nat /\
      (forall d, (d < t_ncon t')%nat -> is_equality t' d = true -> value L p (con d) = 0) /\
      (forall d, (d < t_ncon t')%nat -> v_nonneg (t_info t' (con d)) = true -> is_redundant t' d = false -> d <> c -> 0 <= value L p (con d)) /\
      value L p (con c) < 0 /\ (t_rat t' = false -> value L p (con c) <= - hd 0 p)).
Proof.
  intros R D M Hr. eapply wp_weak; [apply (wp_and _ _ _ (detect_red_ok int L fuel t R D M Hr) (detect_red_lean int L fuel t R D M Hr))|]. intros t' ((R' & _) & Ln) Em c Hc Nn Fz Eq Rd. destruct (reported t' c Hc Nn Fz Eq Rd) as (O & _).
  destruct (Ln Em _ O) as (p & Hp & Ot & Neg & Ni). exists p. split; [exact Hp|]. split; [apply Ot|]. split; [exact (others_cols int L t' (con c) p R' Ot)|]. split; [|split; assumption].
  intros d Hd Nd Rdd N. destruct Ot as (_ & Ot). destruct (Ot (con d)) as (O1 & O2); [apply valid_con; exact Hd|]. unfold is_redundant in Rdd.
  destruct (v_zero (t_info t' (con d))) eqn:Z0; [rewrite (O1 eq_refl); lia|]. destruct (v_red (t_info t' (con d))) eqn:Rx; [discriminate|]. apply O2; [exact Nd|reflexivity|unfold con; lia].
Qed.
