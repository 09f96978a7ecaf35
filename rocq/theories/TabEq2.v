(** isl_tab_add_valid_eq and isl_tab_add_eq. *)
From Coq Require Import ZArith List Bool Arith Lia.
From Verif Require Import SeqModel SeqSpec SeqProofs MatModel BMapModel BMapLists BMapGauss2 BElimSpec BElimFM TabModel TabSpec TabBase TabStruct TabMark TabPivot TabStep TabSign TabMin TabKill TabAdd TabClose TabCut TabBuild TabMap LpModel TabEqModel TabEq.
Import ListNotations.
Open Scope Z_scope.

(** moving the new constraint to a column and removing the column *)
Lemma eq_tail int L w fuel t : represents int L t -> valid t w -> w = con (t_ncon t - 1) -> v_red (t_info t w) = false -> v_zero (t_info t w) = false ->
  sample_ok None t -> (forall i, live_row t w i -> 0 <= cst t i /\ exists c, (t_dead t <= c < ncol t)%nat /\ cf t i c <> 0) -> reaches L w t ->
  wp (bind (to_col fuel (upd t w (vs_nonneg true)) w) (fun t => let t := upd t w (vs_nonneg false) in bind (col_of t w) (fun c => bind (kill_col t c) (fun '(t, _) => Ok t)))) (fun t' =>
    represents int L t' /\ sample_ok None t' /\ t_nvar t' = t_nvar t /\ t_ncon t' = t_ncon t /\ t_empty t' = t_empty t /\ t_undo t' = t_undo t /\ t_rat t' = t_rat t /\ t_cone t' = t_cone t /\
    forall p, 0 < hd 0 p -> (feas L t' p <-> feas L t p /\ value L p w = 0)).
Proof.
  intros R V Ew Rd Zw D Ne Re. assert (Ng : w < 0) by (rewrite Ew; unfold con; lia).
  pose proof (sn_represents int L t w R V Ng Rd) as R1. pose proof (fun p => sn_feas L t w V Rd p) as Fe1. cbv zeta in Fe1.
  pose proof (sn_sample_ex t w D) as D1. pose proof (sn_info t w w) as I1. rewrite Z.eqb_refl in I1. set (t1 := upd t w (vs_nonneg true)) in *.
  apply wp_bind. eapply wp_weak; [apply (to_col_ok int L w fuel t1 R1 V Ew)|].
  - rewrite I1. reflexivity.
  - rewrite I1. exact Rd.
  - rewrite I1. exact Zw.
  - destruct (live_of t w (c_arr _ _ (r_core _ _ _ R)) (c_flg _ _ (r_core _ _ _ R)) V Rd Zw) as [(i & Lr)|(c & Lc)].
    + apply (sample_row int L t1 w i R1 Lr D1). apply (Ne i Lr).
    + intros i Hi _ Nn. apply D1; [exact Hi| |exact Nn]. intros [= E]. destruct (a_row _ (c_arr _ _ (r_core _ _ _ R)) i (proj2 Hi)) as (_ & _ & X). destruct Lc as (Hc & Ec). destruct (a_col _ (c_arr _ _ (r_core _ _ _ R)) c (proj2 Hc)) as (_ & _ & Y).
      change (rowv t1 i) with (rowv t i) in E. congruence.
  - destruct Re as (p & Hp & Fe & Vp). exists p. split; [exact Hp|]. split; [|exact Vp]. apply Fe1. split; [exact Fe|lia].
  - intros i Lr. apply (Ne i Lr).
  - intros t2 (R2 & E2 & D2 & Rw2 & c & Lc). eapply wp_weak; [apply (close_eq int L t2 w c R2 Lc Ng D2)|].
    intros t3 (R3 & D3 & N1 & N2 & N3 & N4 & N5 & N6 & Fe3). split; [exact R3|]. split; [exact D3|].
    split; [rewrite N1; apply E2|]. split; [rewrite N2; apply E2|]. split; [rewrite N3; apply E2|]. split; [rewrite N4; apply E2|]. split; [rewrite N5; apply E2|]. split; [rewrite N6; apply E2|].
    intros p Hp. rewrite Fe3, (e_feas _ _ _ E2 p Hp), Fe1. split; [tauto|]. intros (H1 & H2). split; [split; [exact H1|rewrite H2; clear; lia]|exact H2].
Qed.

(** the row of the new constraint is zero *)
Lemma row_zero_spec t i : row_zero t i = true -> cst t i = 0 /\ forall c, (t_dead t <= c < ncol t)%nat -> cf t i c = 0.
Proof. unfold row_zero. intros H. apply andb_prop in H. destruct H as (H1 & H2). split; [apply Z.eqb_eq; exact H1|]. destruct (first_live t i) eqn:E; [discriminate|]. exact (first_live_none _ _ E). Qed.
Lemma row_zero_value int L t i p : represents int L t -> (i < nrow t)%nat -> row_zero t i = true -> length p = (1 + t_nvar t)%nat ->
  (forall v, valid t v -> v_zero (t_info t v) = true -> v_row (t_info t v) = false -> value L p v = 0) -> value L p (rowv t i) = 0.
Proof.
  intros R Hi H Lp Hz. destruct (row_zero_spec t i H) as (Ec & Ef). pose proof (row_const L t i p (r_core _ _ _ R) Hi Ef Lp Hz) as E. rewrite Ec in E.
  pose proof (a_den _ (c_arr _ _ (r_core _ _ _ R)) i Hi). clear - E H0. nia.
Qed.
Lemma zero_row_ok int L t w i : represents int L t -> live_row t w i -> w < 0 -> v_nonneg (t_info t w) = false -> row_zero t i = true -> sample_ok None t ->
  wp (bind (mark_redundant (upd t w (vs_zero true)) i) (fun '(t, _) => Ok t)) (fun t' =>
    represents int L t' /\ sample_ok None t' /\ t_nvar t' = t_nvar t /\ t_ncon t' = t_ncon t /\ t_empty t' = t_empty t /\ t_undo t' = t_undo t /\ t_rat t' = t_rat t /\ t_cone t' = t_cone t /\
    forall p, feas L t' p <-> feas L t p /\ value L p w = 0).
Proof.
  intros R Lr Ng Nw Hz D. pose proof (r_core _ _ _ R) as C. pose proof (c_arr _ _ C) as A. pose proof (c_flg _ _ C) as F. set (t1 := upd t w (vs_zero true)). pose proof Lr as (Hi & Ei).
  destruct (live_row_info _ _ _ A F Lr) as (V & Rw & Rd & Ix).
  assert (Sh : shape t t1) by (apply shape_upd; intros; split; reflexivity). pose proof (arranged_shape _ _ Sh A) as A1.
  assert (I1 : forall u, t_info t1 u = if u =? w then vs_zero true (t_info t u) else t_info t u) by (intros u; cbn; destruct (Z.eqb_spec u w) as [->|]; reflexivity).
  assert (Fl : forall X (f : tvar -> X) u, (forall x, f (vs_zero true x) = f x) -> f (t_info t1 u) = f (t_info t u)) by (intros X f u H; rewrite I1; destruct (u =? w); auto).
  assert (Nz : forall u, u <> w -> t_info t1 u = t_info t u) by (intros u H; rewrite I1, (proj2 (Z.eqb_neq _ _) H); reflexivity).
  assert (F1 : flagged t1).
  { constructor; try apply F.
    - intros k Hk. rewrite (Fl _ v_red) by reflexivity. apply (f_rows _ F k Hk).
    - intros c Hc. change (colv t1 c) with (colv t c). rewrite (Nz (colv t c)); [apply (f_cols _ F c Hc)|]. intros E. destruct (a_col _ A c Hc) as (_ & _ & X). congruence.
    - intros u Vu Iu. rewrite (Fl _ v_idx) in Iu by reflexivity. rewrite Nz; [apply (f_gone _ F u Vu Iu)|]. intros ->. congruence.
    - intros u Vu P. rewrite Nz by lia. apply (f_var _ F u Vu P). }
  assert (C1 : core L t1) by (constructor; [exact A1|exact F1|apply C|apply C|apply (related_shape _ _ Sh), C|apply (independent_shape _ _ Sh), C]).
  assert (Zv : forall p, length p = (1 + t_nvar t)%nat -> (forall v, valid t v -> v_zero (t_info t v) = true -> v_row (t_info t v) = false -> value L p v = 0) -> value L p w = 0)
    by (intros p Lp H; rewrite <- Ei; apply (row_zero_value int L t i p R (proj2 Hi) Hz Lp H)).
  apply wp_bind. eapply wp_weak; [apply (mark_ok t1 i A1 F1 Hi)|]. intros [t2 b] (M & _). change (rowv t1 i) with (rowv t i) in M. rewrite Ei in M. destruct M as (A2 & F2 & S & Rd2 & Mu & Nv).
  rewrite (Fl _ v_nonneg), Nw in Nv by reflexivity. rewrite (proj2 (Z.leb_gt 0 w) Ng) in Nv. cbn [orb] in Nv. cbn [wp].
  assert (Kz : forall u, v_zero (t_info t2 u) = if u =? w then true else v_zero (t_info t u)) by (intros u; destruct (s_keep _ _ S u) as (-> & _); rewrite I1; destruct (u =? w); reflexivity).
  assert (Kn : forall u, v_nonneg (t_info t2 u) = v_nonneg (t_info t u)) by (intros u; destruct (Z.eq_dec u w) as [->|N]; [congruence|destruct (Mu u N) as (_ & -> & _); rewrite Nz by exact N; reflexivity]).
  assert (Kr : forall u, v_row (t_info t2 u) = v_row (t_info t u)) by (intros u; destruct (s_keep _ _ S u) as (_ & _ & -> & _); apply Fl; reflexivity).
  assert (Vv : forall u, valid t2 u <-> valid t u) by (intros u; apply (swept_valid _ _ _ S)).
  assert (Lv : t_nvar t2 = t_nvar t) by (apply (s_nvar _ _ S)).
  assert (Zc : forall p, (forall v, valid t2 v -> v_zero (t_info t2 v) = true -> v_row (t_info t2 v) = false -> value L p v = 0) -> forall v, valid t v -> v_zero (t_info t v) = true -> v_row (t_info t v) = false -> value L p v = 0).
  { intros p H v Vx Zx Rx. apply H; [apply Vv; exact Vx|rewrite Kz, Zx; destruct (v =? w); reflexivity|rewrite Kr; exact Rx]. }
  assert (Fe : forall p, feas L t2 p <-> feas L t p /\ value L p w = 0).
  { intros p. split.
    - intros (Lp & H). rewrite Lv in Lp. split; [split; [exact Lp|]|apply (H w (proj2 (Vv w) V)); rewrite Kz, Z.eqb_refl; reflexivity]. intros u Vu. destruct (H u (proj2 (Vv u) Vu)) as (H1 & H2). rewrite Kz in H1. rewrite Kn in H2.
      split; [intros Zu; apply H1; rewrite Zu; destruct (u =? w); reflexivity|]. intros Nu Ru. destruct (Z.eq_dec u w) as [->|N]; [congruence|]. apply H2; [exact Nu|]. destruct (Mu u N) as (-> & _). rewrite Nz by exact N. exact Ru.
    - intros ((Lp & H) & Ze). split; [rewrite Lv; exact Lp|]. intros u Vu. apply Vv in Vu. destruct (H u Vu) as (H1 & H2). rewrite Kz, Kn. destruct (Z.eqb_spec u w) as [->|N]; [split; [intros _; exact Ze|congruence]|].
      split; [exact H1|]. destruct (Mu u N) as (-> & _). rewrite Nz by exact N. exact H2. }
  split; [|split; [|split; [exact Lv|split; [apply S|split; [apply S|split; [apply S|split; [apply S|split; [apply S|exact Fe]]]]]]]].
  - constructor; [eapply swept_core; eauto| |].
    + intros p Lp H u Vu Zu. rewrite Lv in Lp. apply Vv in Vu. rewrite Kz in Zu. destruct (Z.eqb_spec u w) as [->|N]; [apply Zv; [exact Lp|apply Zc; exact H]|].
      apply (r_zero _ _ _ R p Lp (Zc p H) u Vu Zu).
    + intros p Ad Fp u Vu Nu. apply Fe in Fp. rewrite Kn in Nu. apply (r_imp _ _ _ R p Ad (proj1 Fp)); [apply Vv; exact Vu|exact Nu].
  - apply (swept_sample None t1 t2 S A1 F1 A2 F2). intros k Hk Nx Nk. apply D; [exact Hk|exact Nx|]. rewrite (Fl _ v_nonneg) in Nk by reflexivity. exact Nk.
Qed.

(** the new row, negated if [b] *)
Record ready (int : bool) (L : list (list Z)) (e e' : list Z) (t t1 t2 : tab) (b : bool) : Prop := {
  rd_rep : represents int (L ++ [e']) t2;
  rd_live : live_row t2 (con (t_ncon t)) (nrow t);
  rd_nonneg : v_nonneg (t_info t2 (con (t_ncon t))) = false; rd_zero : v_zero (t_info t2 (con (t_ncon t))) = false; rd_red : v_red (t_info t2 (con (t_ncon t))) = false;
  rd_sample : sample_ok None t -> sample_ok None t2;
  rd_cst : cst t2 (nrow t) = if b then - cst t1 (nrow t) else cst t1 (nrow t);
  rd_cf : forall c, cf t2 (nrow t) c = 0 -> cf t1 (nrow t) c = 0;
  rd_feas : forall p, feas (L ++ [e']) t2 p <-> feas L t p;
  rd_value : forall p, value (L ++ [e']) p (con (t_ncon t)) = 0 <-> dot e p = 0;
  rd_ncon : t_ncon t2 = S (t_ncon t); rd_nvar : t_nvar t2 = t_nvar t; rd_empty : t_empty t2 = t_empty t; rd_dead : t_dead t2 = t_dead t1; rd_ncol : ncol t2 = ncol t1 }.
Lemma ready_ok int L e t t1 (b : bool) : represents int L t -> new_row int L e t t1 ->
  ready int L e (if b then seq_neg e else e) t t1 (if b then upd (negate_row t1 (nrow t)) (con (t_ncon t)) (vs_negated true) else t1) b.
Proof.
  intros R Nr. pose proof (c_len _ _ (r_core _ _ _ R)) as Ll. pose proof (nr_rep _ _ _ _ _ Nr) as R1. pose proof (nr_live _ _ _ _ _ Nr) as Lr. pose proof (nr_new _ _ _ _ _ Nr) as Iw.
  pose proof (nr_feas _ _ _ _ _ Nr) as Fe.
  assert (Nw : v_nonneg (t_info t1 (con (t_ncon t))) = false) by (rewrite Iw; reflexivity). assert (Zw : v_zero (t_info t1 (con (t_ncon t))) = false) by (rewrite Iw; reflexivity).
  assert (Rw : v_red (t_info t1 (con (t_ncon t))) = false) by (rewrite Iw; reflexivity).
  destruct b.
  - rewrite <- Ll in *.
    assert (Vn : forall p, value (L ++ [seq_neg e]) p (con (length L)) = - dot e p) by (intros p; rewrite value_new by reflexivity; apply dot_seq_neg).
    pose proof (@ng_flag L t1 (nrow t)) as Fl. cbv zeta in Fl.
    constructor; rewrite <- ?Ll.
    + apply (ng_represents int L e t1 (nrow t) R1 Lr Nw Zw).
    + exact Lr.
    + rewrite (Fl _ v_nonneg) by reflexivity. exact Nw.
    + rewrite (Fl _ v_zero) by reflexivity. exact Zw.
    + rewrite (Fl _ v_red) by reflexivity. exact Rw.
    + intros D. apply (ng_sample int L e t1 (nrow t) R1 Lr Nw Zw). apply (nr_sample _ _ _ _ _ Nr). exact D.
    + eapply ng_cst; eassumption.
    + intros c. assert (E : cf (upd (negate_row t1 (nrow t)) (con (length L)) (vs_negated true)) (nrow t) c = - cf t1 (nrow t) c) by (eapply ng_cf; eassumption). rewrite E. lia.
    + intros p. rewrite <- Fe. eapply ng_feas; eassumption.
    + intros p. rewrite Vn. lia.
    + rewrite Ll. apply (nr_ncon _ _ _ _ _ Nr).
    + apply (nr_nvar _ _ _ _ _ Nr).
    + apply (nr_empty _ _ _ _ _ Nr).
    + reflexivity.
    + reflexivity.
  - constructor; auto; try reflexivity.
    + apply (nr_sample _ _ _ _ _ Nr).
    + intros p. rewrite value_new by exact Ll. reflexivity.
    + apply (nr_ncon _ _ _ _ _ Nr).
    + apply (nr_nvar _ _ _ _ _ Nr).
    + apply (nr_empty _ _ _ _ _ Nr).
Qed.
Lemma ready_con int L e e' t t1 t2 b : ready int L e e' t t1 t2 b -> con (t_ncon t) = con (t_ncon t2 - 1) /\ valid t2 (con (t_ncon t)).
Proof. intros H. rewrite (rd_ncon _ _ _ _ _ _ _ _ H). split; [f_equal; lia|]. unfold valid, con. rewrite (rd_ncon _ _ _ _ _ _ _ _ H). lia. Qed.
Lemma live_row_eq t v i j : arranged t -> live_row t v i -> live_row t v j -> j = i.
Proof. intros A (Hi & Ei) (Hj & Ej). apply (rowv_inj t); [exact A|apply Hj|apply Hi|congruence]. Qed.
Lemma not_row_zero t i : row_zero t i = false -> cst t i <> 0 \/ exists c, (t_dead t <= c < ncol t)%nat /\ cf t i c <> 0.
Proof. unfold row_zero. intros H. destruct (Z.eqb_spec (cst t i) 0) as [|N]; [|left; exact N]. right. cbn [andb] in H. destruct (first_live t i) as [c|] eqn:E; [|discriminate]. exists c. apply (first_live_some _ _ _ E). Qed.
Lemma first_live_dec t i : (forall c, (t_dead t <= c < ncol t)%nat -> cf t i c = 0) \/ exists c, (t_dead t <= c < ncol t)%nat /\ cf t i c <> 0.
Proof. destruct (first_live t i) as [c|] eqn:E; [right; exists c; apply (first_live_some _ _ _ E)|left; exact (first_live_none _ _ E)]. Qed.

(** ** isl_tab_add_valid_eq *)
Theorem add_valid_eq_ok int L t fuel e : represents int L t -> sample_ok None t -> length e = (1 + t_nvar t)%nat ->
  (exists p, 0 < hd 0 p /\ feas L t p /\ dot e p = 0) ->
  wp (add_valid_eq fuel t e) (fun t' => exists e', (e' = e \/ e' = seq_neg e) /\ represents int (L ++ [e']) t' /\ sample_ok None t' /\
    t_nvar t' = t_nvar t /\ t_ncon t' = S (t_ncon t) /\ t_empty t' = t_empty t /\
    forall p, 0 < hd 0 p -> (feas (L ++ [e']) t' p <-> feas L t p /\ dot e p = 0)).
Proof.
  intros R D Le Re. unfold add_valid_eq. destruct (add_row_new int L t e R Le) as (t1 & -> & Nr). cbn [bind]. rewrite (nr_con _ _ _ _ _ Nr).
  pose proof (nr_rep _ _ _ _ _ Nr) as R1. pose proof (nr_live _ _ _ _ _ Nr) as Lr1. rewrite (live_row_of _ _ _ (c_arr _ _ (r_core _ _ _ R1)) Lr1). cbn [bind]. set (w := con (t_ncon t)) in *.
  assert (Ng : w < 0) by (unfold w, con; lia).
  destruct (row_zero t1 (nrow t)) eqn:Hz.
  - pose proof (ready_ok int L e t t1 false R Nr) as Rd. cbn iota in Rd.
    eapply wp_weak; [apply (zero_row_ok int (L ++ [e]) t1 w (nrow t) R1 Lr1 Ng)|].
    + apply (rd_nonneg _ _ _ _ _ _ _ _ Rd).
    + exact Hz.
    + apply (rd_sample _ _ _ _ _ _ _ _ Rd D).
    + intros t2 (R2 & D2 & N1 & N2 & N3 & _ & _ & _ & Fe). exists e. split; [left; reflexivity|]. split; [exact R2|]. split; [exact D2|]. split; [rewrite N1; apply Nr|]. split; [rewrite N2; apply Nr|]. split; [rewrite N3; apply Nr|].
      intros p _. rewrite Fe, (nr_feas _ _ _ _ _ Nr). rewrite (rd_value _ _ _ _ _ _ _ _ Rd p : value (L ++ [e]) p w = 0 <-> _). reflexivity.
  - cbv zeta. pose proof (ready_ok int L e t t1 (cst t1 (nrow t) <? 0) R Nr) as Rd.
    set (b := cst t1 (nrow t) <? 0) in *. set (e' := if b then seq_neg e else e) in *. fold w in Rd.
    set (t2 := if b then upd (negate_row t1 (nrow t)) w (vs_negated true) else t1) in *. change (if cst t1 (nrow t) <? 0 then upd (negate_row t1 (nrow t)) w (vs_negated true) else t1) with t2.
    pose proof (rd_rep _ _ _ _ _ _ _ _ Rd) as R2. pose proof (rd_live _ _ _ _ _ _ _ _ Rd) as Lr2. fold w in Lr2. destruct (ready_con _ _ _ _ _ _ _ _ Rd) as (Ew & Vw). fold w in Ew, Vw.
    assert (Rch : reaches (L ++ [e']) w t2).
    { destruct Re as (p & Hp & Fp & Ep). exists p. split; [exact Hp|]. split; [apply (rd_feas _ _ _ _ _ _ _ _ Rd); exact Fp|apply (rd_value _ _ _ _ _ _ _ _ Rd); exact Ep]. }
    eapply wp_weak; [apply (eq_tail int (L ++ [e']) w fuel t2 R2 Vw Ew)|].
    + apply (rd_red _ _ _ _ _ _ _ _ Rd).
    + apply (rd_zero _ _ _ _ _ _ _ _ Rd).
    + apply (rd_sample _ _ _ _ _ _ _ _ Rd D).
    + intros k Lk. replace k with (nrow t) by (symmetry; apply (live_row_eq t2 w); [apply R2|exact Lr2|exact Lk]). split.
      { rewrite (rd_cst _ _ _ _ _ _ _ _ Rd). unfold b. destruct (Z.ltb_spec (cst t1 (nrow t)) 0); lia. }
      destruct (first_live_dec t2 (nrow t)) as [Z0|Ex]; [|exact Ex]. exfalso.
      assert (Z1 : forall c, (t_dead t1 <= c < ncol t1)%nat -> cf t1 (nrow t) c = 0) by (intros c Hc; apply (rd_cf _ _ _ _ _ _ _ _ Rd); apply Z0; rewrite (rd_dead _ _ _ _ _ _ _ _ Rd), (rd_ncol _ _ _ _ _ _ _ _ Rd); exact Hc).
      destruct (not_row_zero _ _ Hz) as [Nc|(c & Hc & Nz)]; [|apply Nz; apply Z1; exact Hc].
      destruct Rch as (p & Hp & Fp & Vp). pose proof Lr2 as (Hi & Ei).
      pose proof (row_const _ t2 (nrow t) p (r_core _ _ _ R2) (proj2 Hi) Z0 (proj1 Fp) (feas_zero_cols _ _ _ Fp)) as E. rewrite Ei, Vp, (rd_cst _ _ _ _ _ _ _ _ Rd) in E.
      clear - E Nc Hp. destruct b; nia.
    + exact Rch.
    + intros t3 (R3 & D3 & N1 & N2 & N3 & _ & _ & _ & Fe). exists e'. split; [unfold e'; destruct b; auto|]. split; [exact R3|]. split; [exact D3|].
      split; [rewrite N1; apply Rd|]. split; [rewrite N2; apply Rd|]. split; [rewrite N3; apply Rd|].
      intros p Hp. pose proof (rd_value _ _ _ _ _ _ _ _ Rd p) as Vp. fold w in Vp. rewrite (Fe p Hp), (rd_feas _ _ _ _ _ _ _ _ Rd), Vp. reflexivity.
Qed.

(** ** isl_tab_add_eq *)
(** the sign that is returned is that of the sample value *)
Lemma sign_loop_value v : forall fuel t t2 s, v_row (t_info t v) = true -> sign_of_max_loop fuel t v = Ok (t2, s) -> v_row (t_info t2 v) = true -> exists i, row_of t2 v = Ok i /\ s = Z.sgn (cst t2 i).
Proof.
  induction fuel as [|fuel IH]; intros t t2 s Rw H Rw2; [discriminate|]. cbn [sign_of_max_loop] in H. apply bind_ok in H. destruct H as (i & Ei & H).
  destruct (Z.ltb_spec 0 (cst t i)) as [Pos|Le].
  - injection H as <- <-. exists i. split; [exact Ei|]. symmetry. apply Z.sgn_pos. exact Pos.
  - apply bind_ok in H. destruct H as (o & _ & H). destruct o as [[r c]|]; [|injection H as <- <-; exists i; split; [exact Ei|reflexivity]].
    apply bind_ok in H. destruct H as (t3 & _ & H). destruct (v_row (t_info t3 v)) eqn:R3; [apply (IH t3 t2 s R3 H Rw2)|]. injection H as <- <-. congruence.
Qed.
Lemma sign_value v fuel t t2 s : v_row (t_info t v) = true -> sign_of_max fuel t v = Ok (t2, s) -> v_row (t_info t2 v) = true -> exists i, row_of t2 v = Ok i /\ s = Z.sgn (cst t2 i).
Proof. intros Rw H. unfold sign_of_max, max_unb, to_row in H. rewrite Rw in H. cbn [bind] in H. apply (sign_loop_value v fuel t t2 s Rw H). Qed.
Lemma wp_and {A} (r : res A) (P Q : A -> Prop) : wp r P -> (forall a, r = Ok a -> Q a) -> wp r (fun a => P a /\ Q a).
Proof. destruct r; cbn; auto. Qed.
(** points on both sides of a hyperplane *)
Lemma dot_lin (l p q : list Z) a b : length p = length q -> dot l (map2 (fun x y => a * x + b * y) p q) = a * dot l p + b * dot l q.
Proof. revert p q. induction l as [|x l IH]; intros [|y p] [|z q] E; cbn in E |- *; try lia. rewrite IH by lia. lia. Qed.
Lemma between L t w p q : feas L t p -> feas L t q -> 0 < hd 0 p -> 0 < hd 0 q -> value L p w <= 0 -> 0 <= value L q w -> reaches L w t.
Proof.
  intros Fp Fq Hp Hq Vp Vq. destruct (Z.eq_dec (value L p w) 0) as [E|N]; [exists p; auto|]. set (a := value L q w) in *. set (b := - value L p w).
  assert (B : 0 < b) by (unfold b; lia). set (m := map2 (fun x y => a * x + b * y) p q). pose proof Fp as (Lp & Hp'). pose proof Fq as (Lq & Hq').
  assert (Val : forall u, value L m u = a * value L p u + b * value L q u).
  { intros u. unfold value. destruct (u <? 0); [apply dot_lin; congruence|]. unfold m. clear - Lp Lq.
    assert (G : forall k (x y : list Z), length x = length y -> nth k (map2 (fun x y => a * x + b * y) x y) 0 = a * nth k x 0 + b * nth k y 0).
    { induction k as [|k IH]; intros [|x xs] [|y ys] E; cbn in *; try lia. apply IH. lia. }
    apply G. congruence. }
  exists m. split; [|split].
  - unfold m. destruct p as [|x p]; [cbn in Hp; lia|]. destruct q as [|y q]; [cbn in Hq; lia|]. cbn in *. nia.
  - split.
    + unfold m. assert (G : forall x y : list Z, length x = length y -> length (map2 (fun x y => a * x + b * y) x y) = length x).
      { induction x as [|x xs IH]; intros [|y ys] E; cbn in *; try lia. rewrite IH; lia. } rewrite G; congruence.
    + intros u V. destruct (Hp' u V) as (P1 & P2), (Hq' u V) as (Q1 & Q2). rewrite Val. split; [intros Z0; rewrite P1, Q1 by exact Z0; ring|]. intros N1 N2. specialize (P2 N1 N2). specialize (Q2 N1 N2). nia.
  - rewrite Val. unfold a, b. ring.
Qed.
Lemma add_row_log t l t1 : add_row t l = Ok t1 -> t_log t1 = if t_undo t then U_allocate (con (t_ncon t)) :: t_log t else t_log t.
Proof.
  unfold add_row. intros H. apply bind_ok in H. destruct H as (r & _ & H). injection H as <-. unfold allocate_con, push. cbn [t_undo w_ncon w_rows w_rv upd w_info]. destruct (t_undo t); reflexivity.
Qed.
Theorem add_eq_ok int L t fuel e : represents int L t -> sample_ok None t -> t_cone t = false -> t_empty t = false -> length e = (1 + t_nvar t)%nat ->
  wp (add_eq fuel t e) (fun t' => t_nvar t' = t_nvar t /\
    if t_empty t' then forall p, 0 < hd 0 p -> feas L t p -> dot e p <> 0
    else exists L', (L' = L \/ L' = L ++ [e] \/ L' = L ++ [seq_neg e]) /\ represents int L' t' /\ sample_ok None t' /\
      forall p, 0 < hd 0 p -> (feas L' t' p <-> feas L t p /\ dot e p = 0)).
Proof.
  intros R D Cn Em Le. unfold add_eq, cone_line. rewrite Cn. destruct (add_row_new int L t e R Le) as (t1 & Ea & Nr). rewrite Ea. cbn [bind]. rewrite (nr_con _ _ _ _ _ Nr).
  pose proof (nr_rep _ _ _ _ _ Nr) as R1. pose proof (nr_live _ _ _ _ _ Nr) as Lr1. pose proof (c_arr _ _ (r_core _ _ _ R1)) as A1. rewrite (live_row_of _ _ _ A1 Lr1). cbn [bind]. set (w := con (t_ncon t)) in *.
  assert (Ng : w < 0) by (unfold w, con; lia). pose proof (add_row_log _ _ _ Ea) as Lg. fold w in Lg. pose proof (nr_undo _ _ _ _ _ Nr) as Un. pose proof (nr_new _ _ _ _ _ Nr) as Iw. fold w in Iw.
  assert (Vl : forall p, value (L ++ [e]) p w = dot e p) by (intros p; apply value_new; apply (c_len _ _ (r_core _ _ _ R))).
  destruct (row_zero t1 (nrow t)) eqn:Hz.
  { assert (Gen : forall t0, twin t1 t0 -> t_empty t0 = t_empty t1 -> exists t', drop_row t0 (nrow t) = Ok t' /\ t_nvar t' = t_nvar t /\ t_empty t' = t_empty t /\ represents int L t' /\ sample_ok None t' /\
        forall p, feas L t' p <-> feas L t p /\ dot e p = 0).
    { intros t0 Tw E0. pose proof (tw_represents _ _ Tw _ _ R1) as R0. pose proof (tw_live _ _ Tw _ _ Lr1) as (Hi & Ei).
      assert (Nc0 : t_ncon t0 = S (t_ncon t)) by (rewrite (tw_ncon _ _ Tw); apply Nr).
      destruct (drop_represents int L e t0 (nrow t) (r_core _ _ _ R0) Hi) as (t' & Ed & R' & Fe' & Sm & _ & _ & _ & Nv & _ & _ & _ & Ne & _).
      - rewrite Ei, Nc0. unfold w. f_equal. lia.
      - apply R0.
      - apply R0.
      - right. rewrite Ei, (tw_info _ _ Tw), Iw. reflexivity.
      - exists t'. split; [exact Ed|]. split; [rewrite Nv, (tw_nvar _ _ Tw); apply Nr|]. split; [rewrite Ne, E0; apply Nr|]. split; [exact R'|]. split.
        + apply Sm. intros k Hk _ Nx Nk. apply (tw_sample _ _ Tw None); auto. apply (nr_sample _ _ _ _ _ Nr). exact D.
        + intros p. rewrite Fe', (tw_feas _ _ Tw), (nr_feas _ _ _ _ _ Nr). split; [intros Fp; split; [exact Fp|]|tauto]. rewrite <- Vl. destruct Lr1 as (Hi1 & Ei1). rewrite <- Ei1.
          apply (nr_feas _ _ _ _ _ Nr) in Fp. apply (row_zero_value int _ t1 (nrow t) p R1 (proj2 Hi1) Hz (proj1 Fp) (feas_zero_cols _ _ _ Fp)). }
    rewrite Un. destruct (t_undo t).
    - unfold rollback. rewrite Lg. cbn [length]. replace (S (length (t_log t)) - length (t_log t))%nat with 1%nat by lia. cbn [firstn skipn rollback_loop]. unfold perform_undo.
      rewrite (proj2 (Z.leb_gt 0 w) Ng). assert (Tw : twin t1 (w_inundo t1 true)) by (constructor; reflexivity).
      change (t_info (w_inundo t1 true) w) with (t_info t1 w). rewrite Iw. cbn [v_row new_var bind].
      rewrite (live_row_of _ _ _ (c_arr _ _ (r_core _ _ _ (tw_represents _ _ Tw _ _ R1))) (tw_live _ _ Tw _ _ Lr1)). cbn [bind].
      destruct (Gen _ Tw eq_refl) as (t' & -> & Nv & Ne & R' & D' & Fe). cbn [bind wp]. set (t5 := w_log (w_inundo t' false) (t_log t)). assert (T5 : twin t' t5) by (constructor; reflexivity).
      split; [exact Nv|]. change (t_empty t5) with (t_empty t'). rewrite Ne, Em. exists L. split; [left; reflexivity|]. split; [apply (tw_represents _ _ T5); exact R'|]. split; [apply (tw_sample _ _ T5); exact D'|].
      intros p _. rewrite (tw_feas _ _ T5). apply Fe.
    - destruct (Gen t1) as (t' & -> & Nv & Ne & R' & D' & Fe); [constructor; reflexivity|reflexivity|]. cbn [wp]. split; [exact Nv|]. rewrite Ne, Em. exists L. split; [left; reflexivity|]. split; [exact R'|]. split; [exact D'|]. intros p _. apply Fe. }
  cbv zeta. pose proof (ready_ok int L e t t1 (0 <? Z.sgn (cst t1 (nrow t))) R Nr) as Rd.
  set (b := 0 <? Z.sgn (cst t1 (nrow t))) in *. set (e' := if b then seq_neg e else e) in *. fold w in Rd.
  set (t2 := if b then upd (negate_row t1 (nrow t)) w (vs_negated true) else t1) in *.
  pose proof (rd_rep _ _ _ _ _ _ _ _ Rd) as R2. pose proof (rd_live _ _ _ _ _ _ _ _ Rd) as Lr2. fold w in Lr2. destruct (ready_con _ _ _ _ _ _ _ _ Rd) as (Ew & Vw). fold w in Ew, Vw.
  pose proof (rd_sample _ _ _ _ _ _ _ _ Rd D) as D2. pose proof (rd_nvar _ _ _ _ _ _ _ _ Rd) as Nv2. pose proof (rd_empty _ _ _ _ _ _ _ _ Rd) as Em2. rewrite Em in Em2.
  assert (Fe2 : forall p, feas (L ++ [e']) t2 p <-> feas L t p) by apply (rd_feas _ _ _ _ _ _ _ _ Rd).
  assert (Vl2 : forall p, value (L ++ [e']) p w = 0 <-> dot e p = 0) by apply (rd_value _ _ _ _ _ _ _ _ Rd).
  assert (C2 : cst t2 (nrow t) <= 0 /\ (cst t2 (nrow t) = 0 <-> cst t1 (nrow t) = 0)).
  { rewrite (rd_cst _ _ _ _ _ _ _ _ Rd). unfold b. clear. destruct (cst t1 (nrow t)); cbn; lia. }
  destruct (sample_point int _ t2 R2 D2) as (k0 & p0 & K0 & Hp0 & Fp0 & Rw0). pose proof Lr2 as (Hi2 & Ei2). specialize (Rw0 (nrow t) (proj2 Hi2)). rewrite Ei2 in Rw0.
  pose proof (a_den _ (c_arr _ _ (r_core _ _ _ R2)) (nrow t) (proj2 Hi2)) as Dn2.
  assert (Tail : forall t3, represents int (L ++ [e']) t3 -> evolve (L ++ [e']) t2 t3 -> sample_ok None t3 -> v_red (t_info t3 w) = false ->
      (forall i, live_row t3 w i -> 0 <= cst t3 i /\ exists c, (t_dead t3 <= c < ncol t3)%nat /\ cf t3 i c <> 0) -> reaches (L ++ [e']) w t3 ->
      wp (bind (to_col fuel (upd t3 w (vs_nonneg true)) w) (fun t => bind (col_of (upd t w (vs_nonneg false)) w) (fun c => bind (kill_col (upd t w (vs_nonneg false)) c) (fun '(t, _) => Ok t))))
        (fun t' => t_nvar t' = t_nvar t /\ if t_empty t' then forall p, 0 < hd 0 p -> feas L t p -> dot e p <> 0
           else exists L', (L' = L \/ L' = L ++ [e] \/ L' = L ++ [seq_neg e]) /\ represents int L' t' /\ sample_ok None t' /\ forall p, 0 < hd 0 p -> (feas L' t' p <-> feas L t p /\ dot e p = 0))).
  { intros t3 R3 E3 D3 Rd3 Ne3 Re3. pose proof (eq_tail int (L ++ [e']) w fuel t3 R3) as T. cbv zeta in T. eapply wp_weak; [apply T|].
    - apply (evolve_valid _ _ _ _ E3). exact Vw.
    - rewrite (e_ncon _ _ _ E3). exact Ew.
    - exact Rd3.
    - destruct (e_keep _ _ _ E3 w) as (-> & _). apply (rd_zero _ _ _ _ _ _ _ _ Rd).
    - exact D3.
    - exact Ne3.
    - exact Re3.
    - intros t4 (R4 & D4 & N1 & _ & N3 & _ & _ & _ & Fe4). split; [rewrite N1, (e_nvar _ _ _ E3); exact Nv2|]. rewrite N3, (e_empty _ _ _ E3), Em2. exists (L ++ [e']). split; [unfold e'; destruct b; auto|].
      split; [exact R4|]. split; [exact D4|]. intros p Hp. rewrite (Fe4 p Hp), (e_feas _ _ _ E3 p Hp), Fe2, Vl2. reflexivity. }
  destruct (Z.eqb_spec (Z.sgn (cst t1 (nrow t))) 0) as [Es|Ns].
  - assert (E1 : cst t1 (nrow t) = 0) by (clear - Es; destruct (cst t1 (nrow t)); cbn in Es; lia). pose proof (proj2 (proj2 C2) E1) as E2. cbn [bind]. change (0 <? 0) with false. cbv iota.
    apply (Tail t2 R2); [apply evolve_refl|exact D2|apply (rd_red _ _ _ _ _ _ _ _ Rd)| |].
    + intros i Li. replace i with (nrow t) by (symmetry; apply (live_row_eq t2 w); [apply R2|exact Lr2|exact Li]). split; [rewrite E2; clear; lia|].
      destruct (not_row_zero _ _ Hz) as [X|(c & Hc & Nz)]; [contradiction|]. exists c. rewrite (rd_dead _ _ _ _ _ _ _ _ Rd), (rd_ncol _ _ _ _ _ _ _ _ Rd). split; [exact Hc|]. intros X. apply Nz. apply (rd_cf _ _ _ _ _ _ _ _ Rd). exact X.
    + exists p0. split; [clear - Hp0 K0; lia|]. split; [exact Fp0|]. rewrite E2 in Rw0. clear - Rw0 Dn2. nia.
  - assert (Neg : cst t2 (nrow t) < 0). { destruct C2 as (X & Y). assert (cst t1 (nrow t) <> 0) by (intros E; rewrite E in Ns; apply Ns; reflexivity). clear - X Y H. lia. }
    assert (Vneg : value (L ++ [e']) p0 w < 0) by (clear - Rw0 Dn2 Neg K0; nia).
    apply wp_bind. eapply wp_weak; [apply (wp_and _ _ (fun '(t3, s) => v_row (t_info t2 w) = true -> v_row (t_info t3 w) = true -> exists i, row_of t3 w = Ok i /\ s = Z.sgn (cst t3 i)) (sign_of_max_ok int (L ++ [e']) w fuel t2 R2 (or_introl (ex_intro _ _ Lr2)) D2)); intros [t3 s] Es Rw; exact (sign_value w fuel t2 t3 s Rw Es)|].
    intros [t3 s] ((R3 & E3 & D3 & Rd3 & Sm) & Sv). destruct (live_row_info t2 w (nrow t)) as (_ & Rw2 & _); [apply R2|apply R2|exact Lr2|]. specialize (Sv Rw2).
    assert (V3 : valid t3 w) by (apply (evolve_valid _ _ _ _ E3); exact Vw). pose proof (c_arr _ _ (r_core _ _ _ R3)) as A3. pose proof (c_flg _ _ (r_core _ _ _ R3)) as F3.
    assert (Fp3 : feas (L ++ [e']) t3 p0) by (apply (e_feas _ _ _ E3); [clear - Hp0 K0; lia|exact Fp0]).
    destruct (Z.ltb_spec s 0) as [Sn|Sn].
    + cbn [wp]. destruct Sm as [(X & _)|(_ & i & Li & Es & Mx)]; [clear - X Sn; lia|]. destruct (mark_empty_w t3) as (l & ->). cbn [w_empty w_log t_empty t_nvar]. split; [rewrite (e_nvar _ _ _ E3); exact Nv2|].
      intros p Hp Fp Ep. apply Fe2 in Fp. apply (e_feas _ _ _ E3 p Hp) in Fp. apply Vl2 in Ep. pose proof (at_max_le int _ t3 w i p R3 Li Mx Fp) as X. rewrite Ep in X.
      assert (cst t3 i < 0) by (clear - Es Sn; destruct (cst t3 i); cbn in Es; lia). clear - X H Hp. nia.
    + assert (Cs : forall i, live_row t3 w i -> 0 <= cst t3 i).
      { intros i Li. destruct (live_row_info t3 w i A3 F3 Li) as (_ & Rw3 & _). destruct (Sv Rw3) as (j & Ej & Es). rewrite (live_row_of _ _ _ A3 Li) in Ej. injection Ej as <-. clear - Es Sn. destruct (cst t3 i); cbn in Es; lia. }
      apply (Tail t3 R3 E3 D3 Rd3).
      * intros i Li. split; [apply Cs; exact Li|]. destruct (first_live_dec t3 i) as [Z0|Ex]; [|exact Ex]. exfalso. pose proof Li as (Hi & Ei).
        pose proof (row_const _ t3 i p0 (r_core _ _ _ R3) (proj2 Hi) Z0 (proj1 Fp3) (feas_zero_cols _ _ _ Fp3)) as X. rewrite Ei in X. pose proof (Cs i Li) as P. pose proof (a_den _ A3 i (proj2 Hi)) as Dn. clear - X P Dn Vneg Hp0 K0. nia.
      * destruct Sm as [(_ & q & Hq & Fq & Vq)|(S0 & i & Li & Es & _)].
        -- apply (between _ _ _ p0 q Fp3 Fq); [clear - Hp0 K0; lia|exact Hq|clear - Vneg; lia|clear - Vq; lia].
        -- destruct (sample_point int _ t3 R3 D3) as (k & q & K & Hq & Fq & Rq). pose proof Li as (Hi & Ei). specialize (Rq i (proj2 Hi)). rewrite Ei in Rq. pose proof (a_den _ A3 i (proj2 Hi)) as Dn.
           assert (E0 : cst t3 i = 0) by (clear - S0 Sn Es; destruct (cst t3 i); cbn in Es; lia). rewrite E0 in Rq. exists q. split; [clear - Hq K; lia|]. split; [exact Fq|]. clear - Rq Dn. nia.
Qed.
