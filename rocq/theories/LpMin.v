(** The minimum computed by isl_tab_min. *)
From Coq Require Import ZArith List Bool Arith Lia.
From Verif Require Import SeqModel SeqSpec SeqProofs MatModel BMapModel BMapLists BMapGauss2 BElimSpec BElimFM TabModel TabSpec TabBase TabStruct TabMark TabPivot TabStep TabSign TabMin TabKill TabAdd TabClose TabCut TabDetect TabRestore TabBuild LpModel LpSpec LpUndo.
Import ListNotations.
Open Scope Z_scope.

(** ** linear combinations *)
Lemma plus_len : forall p m r, length p = length r -> length (plus_times p m r) = length p.
Proof. induction p as [|x p IH]; intros m [|y r] E; try discriminate; [reflexivity|]. cbn in *. rewrite IH; lia. Qed.
Lemma plus_nth : forall p m r i, length p = length r -> nth i (plus_times p m r) 0 = nth i p 0 + m * nth i r 0.
Proof. induction p as [|x p IH]; intros m [|y r] i E; try discriminate; [destruct i; cbn; ring|]. cbn in E. destruct i; [reflexivity|]. cbn [plus_times nth]. apply IH. lia. Qed.
Lemma plus_hd p m r : length p = length r -> hd 0 (plus_times p m r) = hd 0 p + m * hd 0 r.
Proof. intros E. destruct p, r; try discriminate; cbn; ring. Qed.
Lemma plus_dot : forall l p m r, length p = length r -> dot l (plus_times p m r) = dot l p + m * dot l r.
Proof. induction l as [|a l IH]; intros p m r E; [cbn; ring|]. destruct p as [|x p], r as [|y r]; try discriminate; [cbn; ring|]. cbn in E. cbn [plus_times dot]. rewrite IH by lia. ring. Qed.
Lemma plus_value L p m r v : length p = length r -> value L (plus_times p m r) v = value L p v + m * value L r v.
Proof. intros E. unfold value. destruct (v <? 0); [apply plus_dot; exact E|apply plus_nth; exact E]. Qed.
Lemma feas_plus L t p m r : feas L t p -> feas L t r -> 0 <= m -> feas L t (plus_times p m r).
Proof.
  intros (Lp & Fp) (Lr & Fr) Hm. split; [rewrite plus_len; lia|]. intros v V. destruct (Fp v V) as (P1 & P2), (Fr v V) as (Q1 & Q2). rewrite plus_value by lia. split.
  - intros Zv. rewrite P1, Q1 by exact Zv. ring.
  - intros Nv Rv. specialize (P2 Nv Rv). specialize (Q2 Nv Rv). nia.
Qed.

(** ** the loop *)
Record run (L : list (list Z)) (w : Z) (base : nat) (l0 : list undo_rec) (t : tab) (i : nat) (l : list undo_rec) : Prop := {
  rn_rep : represents false L t; rn_live : live_row t w i; rn_sample : sample_ok None t; rn_neg : w < 0; rn_free : v_nonneg (t_info t w) = false;
  rn_undo : t_undo t = true; rn_inundo : t_inundo t = false; rn_log : t_log t = l ++ l0; rn_stack : stack t base l (t_red t) }.
Lemma min_loop_ok L w base l0 : forall fuel t i l, run L w base l0 t i l ->
  wp (min_loop fuel t w) (fun '(t2, unb) => exists i2 l2, run L w base l0 t2 i2 l2 /\ evolve L t t2 /\
    if unb then exists c, found t2 i2 true (-1) (Some (i2, c)) else at_min t2 i2).
Proof.
  induction fuel as [|fuel IH]; intros t i l Rn; [exact I|]. cbn [min_loop]. destruct Rn as [R Lr D Ng Fr Un Iu Lg St]. pose proof (c_arr _ _ (r_core _ _ _ R)) as A. pose proof (c_flg _ _ (r_core _ _ _ R)) as F.
  destruct (find_pivot_ok t w true (-1) i A F eq_refl Lr) as (o & -> & Fo). cbn [bind]. destruct o as [[r c]|].
  2: { exists i, l. split; [constructor; assumption|]. split; [apply evolve_refl|]. apply (found_min t i true Fo). }
  rewrite (live_row_of t w i A Lr). cbn [bind]. destruct (Nat.eqb_spec r i) as [->|Nr].
  { exists i, l. split; [constructor; assumption|]. split; [apply evolve_refl|]. exists c. exact Fo. }
  pose proof (down_step false L t w i r c None R Lr Fo D (or_introl eq_refl) Nr) as Ds. destruct (pivot t r c) as [t2| | |] eqn:Ep; try contradiction; [|exact I].
  cbn [wp bind] in *. destruct Ds as (Cm & D2 & Rw2 & Lv2). destruct (cm_clean _ _ _ _ _ _ Cm) as (A2 & F2 & Sw & X).
  destruct (live_row_info t w i A F Lr) as (V & _ & Rd & _).
  assert (Fr1 : v_nonneg (t_info (pivot_step t r c) w) = false /\ v_red (t_info (pivot_step t r c) w) = false).
  { destruct Cm as [_ Hr Hc Hq _ _ _]. rewrite (st_flag false L t r c R Hr Hc v_nonneg), (st_flag false L t r c R Hr Hc v_red) by reflexivity. auto. }
  assert (V1 : valid (pivot_step t r c) w) by exact V.
  assert (Rd2 : v_red (t_info t2 w) = false). { destruct (v_red (t_info t2 w)) eqn:E; [|reflexivity]. destruct (X w V1) as ((Y & _) & _); [left; split; [apply Fr1|exact E]|]. rewrite (Y Ng) in Fr1. destruct Fr1; discriminate. }
  assert (Fr2 : v_nonneg (t_info t2 w) = false). { rewrite (proj2 (proj2 (s_grow _ _ Sw w)) Rd2). apply Fr1. }
  destruct (Lv2 Rd2) as (i2 & Lr2). assert (D2' : sample_ok None t2) by (apply (sample_free None t2 w D2 Fr2)).
  destruct (pivot_log L t r c t2 base l R (cm_r _ _ _ _ _ _ Cm) (cm_c _ _ _ _ _ _ Cm) (cm_q _ _ _ _ _ _ Cm) Un Iu Ep St) as (l' & Lg2 & St2).
  pose proof (cm_ev _ _ _ _ _ _ Cm) as Ev.
  assert (Rn2 : run L w base l0 t2 i2 (l' ++ l)).
  { constructor; auto; [apply Cm|rewrite (e_undo _ _ _ Ev); exact Un|rewrite (e_inundo _ _ _ Ev); exact Iu|rewrite Lg2, Lg, app_assoc; reflexivity]. }
  eapply wp_weak; [apply (IH t2 i2 _ Rn2)|]. intros [t3 unb] (i3 & l3 & Rn3 & Ev3 & H). exists i3, l3. split; [exact Rn3|]. split; [eapply evolve_trans; eassumption|exact H].
Qed.
(** the direction that shows that the expression is unbounded *)
Lemma down_ray L t w i c : represents false L t -> live_row t w i -> v_nonneg (t_info t w) = false -> found t i true (-1) (Some (i, c)) ->
  exists r, hd 0 r = 0 /\ feas L t r /\ value L r w < 0.
Proof.
  intros R (Hi & Ei) Fr (Hc & (Nz & Us) & H). cbn zeta in H. destruct H as [(_ & Nc)|([_ Q _ _] & _)]; [|congruence].
  pose proof (r_core _ _ _ R) as C. pose proof (c_arr _ _ C) as A. pose proof (c_flg _ _ C) as F. set (d := -1 * Z.sgn (cf t i c)) in *.
  destruct (c_ind _ _ C 0 (fun j => if Nat.eqb j c then d else 0)) as (k & p & K & Lp & Hh & Cv & G). exists p. split; [lia|].
  assert (Rw : forall j, (j < nrow t)%nat -> den t j * value L p (rowv t j) = k * (cf t j c * d)).
  { intros j Hj. rewrite (row_expand L t p j A (c_rel _ _ C) Lp G Hj). rewrite Hh.
    assert (E : map (value L p) (t_cv t) = zupd (repeat 0 (ncol t)) c (k * d)).
    { apply (nth_ext _ _ 0 0); [rewrite zupd_length, repeat_length, map_length; reflexivity|]. intros j' Hj'. rewrite map_length in Hj'. rewrite nth_vals, Cv by exact Hj'.
      rewrite nth_zupd, repeat_length. destruct (Nat.eqb_spec j' c) as [->|]; [rewrite (proj2 (Nat.ltb_lt c (ncol t)) Hj'); reflexivity|].
      cbn [andb]. rewrite nth_repeat. ring. }
    rewrite E. rewrite dot_upd by (rewrite repeat_length; lia). rewrite dot_comm, dot_repeat0, nth_repeat, nth_skipn2. ring. }
  assert (Zc : forall v, valid t v -> v_zero (t_info t v) = true -> v_row (t_info t v) = false -> value L p v = 0).
  { intros v V Zv Rv. destruct (v_idx (t_info t v)) as [j|] eqn:E; [|apply G; [exact V|split; assumption]].
    destruct (at_col _ _ _ A V E Rv) as (Hj & Ej). rewrite <- Ej in *. rewrite Cv by exact Hj. destruct (f_cols _ F j Hj) as (X0 & _). rewrite Zv in X0. symmetry in X0. apply Nat.ltb_lt in X0.
    rewrite (proj2 (Nat.eqb_neq j c)) by lia. ring. }
  split.
  - split; [exact Lp|]. intros v V. split; [intros Zv; apply (r_zero _ _ _ R p Lp Zc v V Zv)|]. intros Nn Rd. destruct (v_row (t_info t v)) eqn:Rv.
    + destruct (live_row_at t v A F V Rv Rd) as (j & Hj & Ej). rewrite <- Ej in *. pose proof (a_den _ A j ltac:(lia)). specialize (Rw j ltac:(lia)).
      assert (j <> i) by (intros ->; congruence).
      assert (0 <= d * cf t j c). { destruct (Z_lt_le_dec (d * cf t j c) 0) as [Neg|]; [|assumption]. exfalso. apply (Nc j). constructor; auto. congruence. }
      assert (0 <= k * (cf t j c * d)) by (replace (cf t j c * d) with (d * cf t j c) by ring; nia). nia.
    + destruct (v_idx (t_info t v)) as [j|] eqn:E; [|rewrite G; [lia|exact V|split; assumption]].
      destruct (at_col _ _ _ A V E Rv) as (Hj & Ej). rewrite <- Ej in *. rewrite Cv by exact Hj. destruct (Nat.eqb_spec j c) as [->|]; [|lia].
      destruct Us as [Us|Us]; [|congruence]. unfold d. rewrite Us. lia.
  - rewrite <- Ei. specialize (Rw i ltac:(lia)). pose proof (a_den _ A i ltac:(lia)). assert (cf t i c * d < 0) by (unfold d; destruct (cf t i c); cbn; lia). nia.
Qed.

(** ** undoing with a modified row *)
Fixpoint unred (t : tab) (l : list undo_rec) : tab :=
  match l with
  | [] => t
  | U_redundant v :: l => unred (w_red (upd t v (vs_red false)) (t_red t - 1)) l
  | U_nonneg v :: l => unred (upd t v (vs_nonneg false)) l
  | _ :: l => unred t l
  end.
Lemma unred_rows X : forall l t, unred (w_rows t X) l = w_rows (unred t l) X.
Proof. induction l as [|u l IH]; intros t; [reflexivity|]. destruct u; cbn [unred]; try apply IH; rewrite <- IH; reflexivity. Qed.
Lemma unred_inundo b : forall l t, unred (w_inundo t b) l = w_inundo (unred t l) b.
Proof. induction l as [|u l IH]; intros t; [reflexivity|]. destruct u; cbn [unred]; try apply IH; rewrite <- IH; reflexivity. Qed.
Lemma unred_idx : forall l t u, v_idx (t_info (unred t l) u) = v_idx (t_info t u) /\ v_row (t_info (unred t l) u) = v_row (t_info t u).
Proof.
  induction l as [|x l IH]; intros t u; [split; reflexivity|]. destruct x; cbn [unred]; try apply IH; destruct (IH _ u : _) || idtac.
  - destruct (IH (upd t v (vs_nonneg false)) u) as (-> & ->). cbn [t_info upd w_info]. destruct (Z.eqb_spec u v) as [->|]; split; reflexivity.
  - destruct (IH (w_red (upd t v (vs_red false)) (t_red t - 1)) u) as (-> & ->). cbn [t_info w_red upd w_info]. destruct (Z.eqb_spec u v) as [->|]; split; reflexivity.
Qed.
Lemma unred_keep : forall l t, t_rows (unred t l) = t_rows t /\ t_rv (unred t l) = t_rv t /\ t_ncon (unred t l) = t_ncon t /\ t_log (unred t l) = t_log t.
Proof. induction l as [|x l IH]; intros t; [repeat split|]. destruct x; cbn [unred]; try apply IH; match goal with |- context [unred ?y l] => destruct (IH y) as (-> & -> & -> & ->); repeat split; reflexivity end. Qed.
Definition undoable (t : tab) (k : nat) : Prop := forall j, (j < k)%nat -> v_row (t_info t (rowv t j)) = true /\ v_idx (t_info t (rowv t j)) = Some j /\ (j < nrow t)%nat.
Lemma undoable_less t k t' k' : undoable t k -> (k' <= k)%nat -> t_rv t' = t_rv t -> (forall u, v_row (t_info t' u) = v_row (t_info t u) /\ v_idx (t_info t' u) = v_idx (t_info t u)) -> undoable t' k'.
Proof. intros U H E1 E2 j Hj. unfold nrow, rowv. rewrite E1. destruct (E2 (nth j (t_rv t) 0)) as (-> & ->). apply U. lia. Qed.
Lemma stack_run fuel base : forall t0 l k, stack t0 base l k -> forall t, t_red t = k -> t_rv t = t_rv t0 -> undoable t k -> (forall j, (base <= j < k)%nat -> 0 <= cst t j) -> rollback_loop (S fuel) t l = Ok (unred t l).
Proof.
  intros t0 l k St. induction St as [|k l v Ng Ev Nn St IH|k l v Ng Ev Nn St IH]; intros t Hk Erv U Cp; [reflexivity| |].
  - pose proof (stack_ge _ _ _ _ St) as Bk. assert (Er : rowv t k = v) by (unfold rowv; rewrite Erv; exact Ev). destruct (U k ltac:(lia)) as (U1 & U2 & U3). rewrite Er in U1, U2.
    assert (E : perform_undo (S fuel) t (U_redundant v) = Ok (w_red (upd t v (vs_red false)) k)).
    { unfold perform_undo. rewrite U1, U2, Hk, Nat.eqb_refl. cbn [andb]. unfold restore_last_redundant. rewrite Hk, Er.
      rewrite (restore_noop fuel _ v k); [reflexivity| |apply (Cp k); lia]. unfold row_of. cbn [t_info w_red upd w_info]. rewrite Z.eqb_refl. cbn [vs_red v_idx]. rewrite U2. change (nrow (w_red (upd t v (vs_red false)) k)) with (nrow t). rewrite (proj2 (Nat.ltb_lt _ _) U3). reflexivity. }
    cbn [rollback_loop]. rewrite E. cbn [bind unred]. rewrite Hk. replace (S k - 1)%nat with k by lia. apply IH; auto.
    + apply (undoable_less t (S k)); auto. intros u. cbn [t_info w_red upd w_info]. destruct (Z.eqb_spec u v) as [->|]; split; reflexivity.
    + intros j Hj. apply (Cp j). lia.
  - pose proof (stack_ge _ _ _ _ St) as Bk. assert (Er : rowv t k = v) by (unfold rowv; rewrite Erv; exact Ev). destruct (U k ltac:(lia)) as (U1 & U2 & U3). rewrite Er in U1, U2.
    assert (E : perform_undo (S fuel) t (U_redundant v) = Ok (w_red (upd t v (vs_red false)) k)).
    { unfold perform_undo. rewrite U1, U2, Hk, Nat.eqb_refl. cbn [andb]. unfold restore_last_redundant. rewrite Hk, Er.
      rewrite (restore_noop fuel _ v k); [reflexivity| |apply (Cp k); lia]. unfold row_of. cbn [t_info w_red upd w_info]. rewrite Z.eqb_refl. cbn [vs_red v_idx]. rewrite U2. change (nrow (w_red (upd t v (vs_red false)) k)) with (nrow t). rewrite (proj2 (Nat.ltb_lt _ _) U3). reflexivity. }
    cbn [rollback_loop]. rewrite E. cbn [bind perform_undo unred]. rewrite Hk. replace (S k - 1)%nat with k by lia. apply IH; auto.
    + apply (undoable_less t (S k)); auto. intros u. cbn [t_info w_red upd w_info]. rewrite Z.eqb_refl. destruct (Z.eqb_spec u v) as [->|]; split; reflexivity.
    + intros j Hj. apply (Cp j). lia.
Qed.
(** the contents of a row that is dropped do not matter *)
Lemma drop_any t i r : (i < nrow t)%nat -> length (t_rows t) = nrow t -> drop_row (w_rows t (lset (t_rows t) i r)) i = drop_row t i.
Proof.
  intros Hi Hl. unfold drop_row. change (rowv (w_rows t (lset (t_rows t) i r)) i) with (rowv t i). change (t_ncon (w_rows t (lset (t_rows t) i r))) with (t_ncon t). destruct (negb (rowv t i =? con (t_ncon t - 1))); [reflexivity|].
  change (nrow (w_rows t (lset (t_rows t) i r))) with (nrow t). destruct (Nat.eqb_spec i (nrow t - 1)) as [E|N]; f_equal.
  - unfold w_ncon, w_rows, w_rv. cbn. f_equal. apply (nth_ext _ _ [] []); [rewrite !removelast_length, lset_length; reflexivity|]. intros j Hj. rewrite removelast_length, lset_length in Hj. rewrite !nth_removelast by (rewrite ?lset_length; lia). rewrite nth_lset by lia. rewrite (proj2 (Nat.eqb_neq j i)) by lia. reflexivity.
  - set (X := lset (t_rows t) i r). set (n := (nrow t - 1)%nat) in *.
    change (swap_rows (w_rows t X) i n) with (w_rows (swap_rows t i n) (lsw [] X i n)). cbn [w_rows t_rows t_rv t_ncon].
    assert (E : removelast (lsw [] X i n) = removelast (t_rows (swap_rows t i n))).
    { change (t_rows (swap_rows t i n)) with (lsw [] (t_rows t) i n). subst X n. apply (nth_ext _ _ [] []); [rewrite !removelast_length, !lsw_length, lset_length; reflexivity|]. intros j Hj. rewrite removelast_length, lsw_length, lset_length in Hj. rewrite !nth_removelast by (rewrite ?lsw_length, ?lset_length; lia). rewrite !nth_lsw by (rewrite ?lset_length; lia).
      rewrite (proj2 (Nat.eqb_neq j (nrow t - 1))) by lia. rewrite !nth_lset by lia. rewrite (proj2 (Nat.eqb_neq (nrow t - 1) i)) by lia. destruct (Nat.eqb_spec j i) as [->|Nj]; reflexivity. }
    unfold w_rv, w_ncon, w_rows. cbn [t_rows t_rv t_ncon t_cv t_dead t_red t_info t_nvar t_neq t_rat t_empty t_undo t_inundo t_preserve t_strict t_cone t_log]. rewrite E. reflexivity.
Qed.

(** ** isl_tab_min *)
Lemma firstn_len_app {A} (a b : list A) : firstn (length a) (a ++ b) = a.
Proof. induction a as [|x a IH]; [reflexivity|]. cbn. rewrite IH. reflexivity. Qed.
Lemma skipn_len_app {A} (a b : list A) : skipn (length a) (a ++ b) = b.
Proof. induction a as [|x a IH]; [reflexivity|]. exact IH. Qed.
Lemma stack_nonneg t base l k : stack t base l k -> forall j, (base <= j < k)%nat -> v_nonneg (t_info t (rowv t j)) = true.
Proof.
  induction 1 as [|k l v X1 X2 X3 S IH|k l v X1 X2 X3 S IH]; intros j Hj; [lia| |]; (destruct (Nat.eq_dec j k) as [->|]; [rewrite X2; exact X3|apply IH; lia]).
Qed.
(** the point at which all columns are zero *)
Definition at_sample (L : list (list Z)) (t : tab) (p : list Z) : Prop :=
  length p = (1 + t_nvar t)%nat /\ (forall c, (c < ncol t)%nat -> value L p (colv t c) = 0) /\ (forall v, valid t v -> gone t v -> value L p v = 0).
Definition min_spec (L : list (list Z)) (t t' : tab) (f : list Z) (denom : Z) (exact : bool) (o : lp) : Prop :=
  let S := fun p => 0 < hd 0 p /\ feas L t p in
  match o with
  | Lp_empty => False
  | Lp_unbounded => exists r, length r = (1 + t_nvar t)%nat /\ hd 0 r = 0 /\ dot f r < 0 /\ forall p m, S p -> 0 <= m -> S (plus_times p m r)
  | Lp_ok n d => exists n0 d0, minimum S f denom n0 d0 /\ (forall p, at_sample L t' p -> n0 * (denom * hd 0 p) = d0 * dot f p) /\
      if exact then n = n0 /\ d = d0 else d = 1 /\ rounded_up n0 d0 n
  end.
Lemma at_sample_row L t p i : core L t -> at_sample L t p -> (i < nrow t)%nat -> den t i * value L p (rowv t i) = cst t i * hd 0 p.
Proof.
  intros C (Lp & Cv & G) Hi. rewrite (row_expand L t p i (c_arr _ _ C) (c_rel _ _ C) Lp G Hi).
  assert (E : map (value L p) (t_cv t) = repeat 0 (ncol t)).
  { apply (nth_ext _ _ 0 0); [rewrite repeat_length, map_length; reflexivity|]. intros j Hj. rewrite map_length in Hj. rewrite nth_vals, Cv, nth_repeat by exact Hj. reflexivity. }
  rewrite E, dot_comm, dot_repeat0. ring.
Qed.
Lemma cdiv_up a d : 0 < d -> rounded_up a d (cdiv_q a d).
Proof. intros H. unfold rounded_up, cdiv_q. pose proof (Z.div_mod (- a) d ltac:(lia)). pose proof (Z.mod_pos_bound (- a) d H). nia. Qed.
Lemma tab_min_ok L fuel t f denom exact : represents false L t -> sample_ok None t -> t_empty t = false -> t_inundo t = false -> length f = (1 + t_nvar t)%nat -> 0 < denom ->
  wp (tab_min fuel t f denom exact) (fun '(t', o) =>
    represents false L t' /\ sample_ok None t' /\ (forall p, 0 < hd 0 p -> (feas L t' p <-> feas L t p)) /\
    (t_nvar t' = t_nvar t /\ t_ncon t' = t_ncon t /\ t_empty t' = false /\ t_rat t' = t_rat t /\ t_inundo t' = false) /\ min_spec L t t' f denom exact o).
Proof.
  intros R D Em Iu Lf Hd. unfold tab_min. rewrite Em. unfold tab_snap. set (t0 := w_undo t true).
  assert (T0 : twin t t0) by (constructor; reflexivity). pose proof (tw_represents _ _ T0 _ _ R) as R0. pose proof (tw_sample _ _ T0 _ D) as D0.
  destruct (add_row_ok L t0 f (r_core _ _ _ R0) Lf) as (row & Ea & _). destruct (add_row_new false L t0 f R0 Lf) as (t1 & Ea' & N1). rewrite Ea'. rewrite Ea' in Ea. injection Ea as Et1. cbn [bind].
  set (w := con (t_ncon t)). rewrite (nr_con _ _ _ _ _ N1). change (con (t_ncon t0)) with w.
  assert (Nw : w < 0) by (unfold w, con; lia).
  assert (Run1 : run (L ++ [f]) w (t_red t) (U_allocate w :: t_log t) t1 (nrow t) []).
  { constructor; try exact Nw.
    - apply N1. - apply N1. - apply (nr_sample _ _ _ _ _ N1). exact D0.
    - change w with (con (t_ncon t0)). rewrite (nr_new _ _ _ _ _ N1). reflexivity.
    - rewrite (nr_undo _ _ _ _ _ N1). reflexivity.
    - rewrite Et1. exact Iu.
    - rewrite Et1. reflexivity.
    - rewrite Et1. constructor. }
  destruct fuel as [|fuel]; [exact I|]. apply wp_bind. eapply wp_weak; [apply (min_loop_ok _ _ _ _ (S fuel) t1 _ _ Run1)|]. intros [t2 unb] (i & l & Rn & Ev & Fin).
  destruct Rn as [R2 Lr2 D2 _ Fr2 Un2 Iu2 Lg2 St2]. pose proof (r_core _ _ _ R2) as C2. pose proof (c_arr _ _ C2) as A2. pose proof (c_flg _ _ C2) as F2.
  rewrite (live_row_of t2 w i A2 Lr2). cbn [bind]. destruct Lr2 as (Hi & Ei). set (r := nth i (t_rows t2) []). set (r' := zupd r 0 (nth 0 r 0 * denom)). set (t3 := w_rows t2 (lset (t_rows t2) i r')).
  assert (Lrows : length (t_rows t2) = nrow t2) by apply (a_len _ A2).
  assert (Wr : (2 <= length r)%nat) by (unfold r; rewrite (a_wid _ A2) by lia; lia).
  assert (Ed : den t3 i = den t2 i * denom). { unfold den, ent, t3. cbn [w_rows t_rows]. rewrite nth_lset by lia. rewrite Nat.eqb_refl. unfold r'. rewrite nth_zupd, Nat.eqb_refl, (proj2 (Nat.ltb_lt _ _)) by lia. reflexivity. }
  assert (Ec : cst t3 i = cst t2 i). { unfold cst, ent, t3. cbn [w_rows t_rows]. rewrite nth_lset by lia. rewrite Nat.eqb_refl. unfold r'. rewrite nth_zupd. reflexivity. }
  rewrite Ed, Ec. pose proof (a_den _ A2 i ltac:(lia)) as Dp. assert (Hi2 : (i < nrow t2)%nat) by apply Hi.
  (* undoing *)
  unfold rollback. change (t_log t3) with (t_log t2). rewrite Lg2.
  assert (Ek : (length (l ++ U_allocate w :: t_log t) - length (t_log t))%nat = (length (l ++ [U_allocate w]))%nat) by (rewrite !app_length; cbn [length]; lia).
  rewrite Ek. replace (l ++ U_allocate w :: t_log t) with ((l ++ [U_allocate w]) ++ t_log t) by (rewrite <- app_assoc; reflexivity).
  rewrite firstn_len_app, skipn_len_app.
  destruct (stack_undo (L ++ [f]) fuel (t_red t) l (t_red t2) t2 St2 eq_refl R2 D2) as (u & Eu & Un & Eb).
  assert (Ub : undoable t2 (t_red t2)). { intros j Hj. destruct (a_row _ A2 j ltac:(lia)) as (_ & X1 & X2). split; [exact X2|]. split; [exact X1|lia]. }
  assert (Cp : forall j, (t_red t <= j < t_red t2)%nat -> 0 <= cst t2 j).
  { intros j Hj. apply (implied_cst (L ++ [f]) t2 j R2 D2); [lia|]. apply (stack_nonneg _ _ _ _ St2 j Hj). }
  assert (Eu2 : u = unred t2 l). { rewrite (stack_run fuel (t_red t) t2 l (t_red t2) St2 t2 eq_refl eq_refl Ub Cp) in Eu. congruence. }
  assert (Eu3 : rollback_loop (S fuel) (w_inundo t3 true) l = Ok (w_inundo (w_rows u (lset (t_rows t2) i r')) true)).
  { rewrite (stack_run fuel (t_red t) t2 l (t_red t2) St2 (w_inundo t3 true) eq_refl eq_refl).
    - rewrite unred_inundo. unfold t3. rewrite unred_rows, <- Eu2. reflexivity.
    - exact Ub.
    - intros j Hj. unfold cst, ent, t3. cbn [w_inundo w_rows t_rows]. rewrite nth_lset by lia. rewrite (proj2 (Nat.eqb_neq j i)) by lia. apply (Cp j Hj). }
  rewrite rollback_loop_app, Eu3. cbn [bind rollback_loop perform_undo]. rewrite (proj2 (Z.leb_gt 0 w)) by exact Nw.
  set (u3 := w_inundo (w_rows u (lset (t_rows t2) i r')) true).
  clear Ub Cp. destruct Un as [Ru Du Ucv (Unv & Unc & Udd & Urt & Uem & Uneq & Ucn & Uun & Upr & Ust) Ux Unn Urs Urv Ufe].
  pose proof (r_core _ _ _ Ru) as Cu. pose proof (c_arr _ _ Cu) as Au.
  destruct (a_row _ A2 i Hi2) as (Vi & Ii & Ri). rewrite Ei in Vi, Ii, Ri.
  assert (Ro : v_row (t_info u3 w) = true /\ row_of u3 w = Ok i).
  { change (t_info u3 w) with (t_info u w). unfold row_of. change (t_info u3 w) with (t_info u w). destruct (Ux w) as (-> & -> & _). rewrite Ii. change (nrow u3) with (length (t_rv u)). rewrite Urv. fold (nrow t2). rewrite (proj2 (Nat.ltb_lt i (nrow t2)) Hi2). auto. }
  destruct Ro as (-> & Ro2). cbn [bind]. rewrite Ro2. cbn [bind].
  assert (Nu : nrow u = nrow t2) by (unfold nrow; rewrite Urv; reflexivity).
  assert (Ed3 : drop_row u3 i = drop_row (w_inundo u true) i).
  { unfold u3. rewrite <- Urs. change (w_inundo (w_rows u (lset (t_rows u) i r')) true) with (w_rows (w_inundo u true) (lset (t_rows (w_inundo u true)) i r')). apply drop_any; [rewrite <- Nu in Hi; exact (proj2 Hi)|]. change (length (t_rows u) = nrow u). rewrite Urs, Nu. exact Lrows. }
  rewrite Ed3. set (u' := w_inundo u true). assert (Tu : twin u u') by (constructor; reflexivity).
  pose proof (tw_represents _ _ Tu _ _ Ru) as Ru'. pose proof (tw_sample _ _ Tu _ Du) as Du'.
  assert (Ew : rowv u' i = con (t_ncon u' - 1)). { change (nth i (t_rv u) 0 = con (t_ncon u - 1)). rewrite Urv. fold (rowv t2 i). rewrite Ei, Unc, (e_ncon _ _ _ Ev), (nr_ncon _ _ _ _ _ N1). unfold w. f_equal. change (t_ncon t0) with (t_ncon t). clear. lia. }
  assert (Hi' : (t_red u' <= i < nrow u')%nat). { change (t_red u' ) with (t_red u). change (nrow u') with (nrow u). rewrite Eb, Nu. pose proof (stack_ge _ _ _ _ St2) as Sg. revert Sg Hi. clear. lia. }
  destruct (drop_represents false L f u' i (r_core _ _ _ Ru') Hi' Ew (r_zero _ _ _ Ru') (r_imp _ _ _ Ru')) as (t4 & E4 & R4 & Fe4 & Sm4 & Vd4 & Fl4 & Nc4 & Nv4 & Rt4 & Un4 & Cn4 & Em4 & Nq4).
  { right. rewrite Ew. replace (con (t_ncon u' - 1)) with w by (rewrite <- Ew; change (rowv u' i) with (nth i (t_rv u) 0); rewrite Urv; symmetry; exact Ei). change (v_nonneg (t_info u w) = false). rewrite Unn by exact Nw. exact Fr2. }
  rewrite E4. cbn [bind]. set (t5 := w_log (w_inundo t4 false) (t_log t)). assert (T5 : twin t4 t5) by (constructor; reflexivity).
  assert (Feq : forall p, 0 < hd 0 p -> (feas L t5 p <-> feas L t p)).
  { intros p Hp. rewrite (tw_feas _ _ T5), Fe4, (tw_feas _ _ Tu), (Ufe p Hp), (e_feas _ _ _ Ev p Hp), (nr_feas _ _ _ _ _ N1). apply (tw_feas _ _ T0). }
  assert (Fw : forall p, 0 < hd 0 p -> (feas (L ++ [f]) t2 p <-> feas L t p)).
  { intros p Hp. rewrite (e_feas _ _ _ Ev p Hp), (nr_feas _ _ _ _ _ N1). apply (tw_feas _ _ T0). }
  assert (Vw : forall p, value (L ++ [f]) p w = dot f p).
  { intros p. unfold value, w, con. rewrite (proj2 (Z.ltb_lt _ _)) by (clear; lia). replace (Z.to_nat (-1 - (-1 - Z.of_nat (t_ncon t)))) with (length L) by (rewrite (c_len _ _ (r_core _ _ _ R)); clear; lia). rewrite app_nth2 by (clear; lia). rewrite Nat.sub_diag. reflexivity. }
  cbn [wp]. split; [apply (tw_represents _ _ T5), R4|]. split; [apply (tw_sample _ _ T5), Sm4; intros k Hk Nk Nx Nn; apply Du'; assumption|]. split; [exact Feq|]. split.
  { change (t_nvar t5) with (t_nvar t4). change (t_ncon t5) with (t_ncon t4). change (t_empty t5) with (t_empty t4). change (t_rat t5) with (t_rat t4). rewrite Nv4, Nc4, Em4, Rt4. change (t_nvar u') with (t_nvar u). change (t_empty u') with (t_empty u). change (t_rat u') with (t_rat u).
    rewrite Unv, Uem, Urt, (e_nvar _ _ _ Ev), (e_empty _ _ _ Ev), (e_rat _ _ _ Ev), (nr_nvar _ _ _ _ _ N1), (nr_empty _ _ _ _ _ N1), (nr_rat _ _ _ _ _ N1). split; [reflexivity|]. split; [apply (c_len _ _ (r_core _ _ _ R))|]. auto. }
  clear Urt Uem Ucn Uun Upr Ust Rt4 Em4 Un4 Cn4 Uneq Nq4 Em Iu Un2 Iu2.
  unfold min_spec. destruct unb.
  - destruct Fin as (c & Fo). destruct (down_ray (L ++ [f]) t2 w i c R2 (conj Hi Ei) Fr2 Fo) as (ry & Hh & Fe & Dn). exists ry.
    assert (Lr : length ry = (1 + t_nvar t)%nat). { rewrite (proj1 Fe), (e_nvar _ _ _ Ev), (nr_nvar _ _ _ _ _ N1). reflexivity. }
    split; [exact Lr|]. split; [exact Hh|]. split; [rewrite <- Vw; exact Dn|]. intros p m (Hp & Fp) Hm. assert (Lp : length p = length ry) by (rewrite (proj1 Fp); symmetry; exact Lr).
    assert (Hs : 0 < hd 0 (plus_times p m ry)) by (rewrite plus_hd by exact Lp; rewrite Hh; lia). split; [exact Hs|]. apply (Fw _ Hs). apply feas_plus; [apply Fw; assumption|exact Fe|exact Hm].
  - assert (Lo : forall p, 0 < hd 0 p -> feas L t p -> cst t2 i * hd 0 p <= den t2 i * dot f p).
    { intros p Hp Fp. rewrite <- (Vw p). apply (at_min_ge false (L ++ [f]) t2 w i p R2 (conj Hi Ei) Fin). apply Fw; assumption. }
    assert (Mn : minimum (fun p => 0 < hd 0 p /\ feas L t p) f denom (cst t2 i) (den t2 i * denom)).
    { split; [nia|]. split; [intros p (Hp & Fp); specialize (Lo p Hp Fp); nia|]. destruct (sample_point false _ t2 R2 D2) as (k & p & K & Hh & Fe & Rw). exists p. split; [split; [lia|apply Fw; [lia|exact Fe]]|].
      specialize (Rw i ltac:(lia)). rewrite Ei, Vw in Rw. rewrite Hh. nia. }
    assert (At : forall p, at_sample L t5 p -> cst t2 i * (denom * hd 0 p) = den t2 i * denom * dot f p).
    { intros p (Lp & Cv & Gn). assert (Tv : t_cv t5 = t_cv t2). { change (t_cv t5) with (t_cv t4). rewrite <- Ucv. change (t_cv u) with (t_cv u'). revert E4. clear. unfold drop_row. destruct (negb _); [discriminate|]. intros [= <-]. destruct (Nat.eqb i (nrow u' - 1)); reflexivity. }
      assert (Sp : at_sample (L ++ [f]) t2 p).
      { split; [|split].
        - rewrite Lp. change (t_nvar t5) with (t_nvar t4). rewrite Nv4. change (t_nvar u') with (t_nvar u). rewrite Unv. reflexivity.
        - intros c Hc. pose proof (Cv c) as Hv. unfold ncol, colv in Hv. rewrite Tv in Hv. specialize (Hv Hc). fold (colv t2 c) in Hv.
          rewrite (value_app L f); [exact Hv|]. pose proof (a_col _ (c_arr _ _ (r_core _ _ _ R4)) c) as Vc. change (t_cv t5) with (t_cv t4) in Tv. unfold ncol, colv in Vc. rewrite Tv in Vc. destruct (Vc Hc) as (Vc' & _). fold (colv t2 c) in Vc'. unfold valid in Vc'. rewrite Nc4 in Vc'. lia.
        - intros v V Gv. pose proof (dr_gone_w L f u' i (r_core _ _ _ Ru') Hi' Ew p) as X. pose proof (dr_row_ok u' i Ew) as Y. cbv zeta in X, Y. rewrite E4 in Y. assert (Oi : forall a b : tab, Ok a = Ok b -> a = b) by congruence. apply Oi in Y. rewrite <- Y in X. apply X.
          + exact Gn.
          + unfold valid in *. change (t_nvar u') with (t_nvar u). change (t_ncon u') with (t_ncon u). rewrite Unv, Unc. exact V.
          + destruct Gv as (G1 & G2). destruct (Ux v) as (X1 & X2 & _). split; [change (v_idx (t_info u v) = None); rewrite X1; exact G1|change (v_row (t_info u v) = false); rewrite X2; exact G2]. }
      pose proof (at_sample_row _ t2 p i C2 Sp ltac:(lia)) as Rw. rewrite Ei, Vw in Rw. nia. }
    destruct exact; exists (cst t2 i), (den t2 i * denom); (split; [exact Mn|]); (split; [exact At|]); [auto|]. split; [reflexivity|]. apply cdiv_up. nia.
Qed.
