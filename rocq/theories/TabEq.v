(** Adding equalities: to_col, isl_tab_add_valid_eq and isl_tab_add_eq. *)
From Coq Require Import ZArith List Bool Arith Lia.
From Verif Require Import SeqModel SeqSpec SeqProofs MatModel BMapModel BMapLists BMapGauss2 BElimSpec BElimFM TabModel TabSpec TabBase TabStruct TabMark TabPivot TabStep TabSign TabMin TabKill TabAdd TabClose TabCut TabBuild TabMap.
Import ListNotations.
Open Scope Z_scope.

(** ** to_col *)
Section ToCol.
Context (int : bool) (L : list (list Z)) (w : Z).
(** some point has value zero for [w] *)
Definition reaches (t : tab) : Prop := exists p, 0 < hd 0 p /\ feas L t p /\ value L p w = 0.
Lemma reaches_evolve t t2 : evolve L t t2 -> reaches t -> reaches t2.
Proof. intros E (p & Hp & Fe & Vp). exists p. split; [exact Hp|]. split; [apply (e_feas _ _ _ E p Hp); exact Fe|exact Vp]. Qed.
Lemma col_away t i r c : represents int L t -> live_row t w i -> w = con (t_ncon t - 1) -> v_nonneg (t_info t w) = true -> sample_ok None t -> 0 < cst t i -> reaches t ->
  found t i false (-1) (Some (r, c)) -> r <> i ->
  wp (pivot t r c) (fun t2 => represents int L t2 /\ evolve L t t2 /\ sample_ok None t2 /\ exists i2, live_row t2 w i2 /\ exists c2, (t_dead t2 <= c2 < ncol t2)%nat /\ cf t2 i2 c2 <> 0).
Proof.
  intros R Lr Ew Nw D Pos Re (Hc & (Nz & Us) & H) Nr. cbn zeta in H. set (dir := -1 * Z.sgn (cf t i c)) in *. destruct H as [(E & _)|(Cr & Mn)]; [contradiction|].
  pose proof (c_arr _ _ (r_core _ _ _ R)) as A. pose proof (c_flg _ _ (r_core _ _ _ R)) as F. pose proof Cr as [Hr _ Nn Sg]. assert (Nzr : cf t r c <> 0) by lia.
  pose proof Lr as (Hi & Ei).
  assert (Ci : cand t None dir c i). { constructor; [exact Hi|discriminate|rewrite Ei; exact Nw|]. unfold dir. clear - Nz. destruct (cf t i c); cbn; lia. }
  assert (Lt : 0 < dir * (cst t r * cf t i c - cst t i * cf t r c)).
  { destruct (Mn i Ci) as [P|(_ & Q)]; [exact P|]. exfalso. apply Nr. apply (rowv_inj t); [exact A|lia|lia|]. destruct (a_row _ A r) as (Vr & _); [lia|]. clear - Q Ei Ew Vr. unfold valid, con in *. lia. }
  assert (Ds : sample_ok None (pivot_step t r c)).
  { apply (ratio_sample int L t r c None dir None None); auto; try discriminate.
    - unfold dir. clear - Nz. destruct (cf t i c); cbn; lia.
    - intros Nu _. destruct Us as [Us|Us]; [unfold dir; rewrite Us; reflexivity|congruence]. }
  pose proof (st_arr int L t r c R Hr Hc Nzr) as A'. pose proof (st_flagged int L t r c R Hr Hc Nzr) as F'.
  assert (Lr' : live_row (pivot_step t r c) w i).
  { split; [rewrite (ps_nrow t r c); exact Hi|]. rewrite (ps_rowv t r c) by lia. rewrite (proj2 (Nat.eqb_neq i r)) by congruence. exact Ei. }
  assert (Pos' : 0 < cst (pivot_step t r c) i).
  { destruct (st_cst_j int L t r c R Hr Hc Nzr i ltac:(lia) ltac:(congruence)) as (g & G & E).
    assert (Sq : Z.sgn (cf t r c) = - dir). { clear - Sg Nz. unfold dir in *. destruct (cf t i c), (cf t r c); cbn in *; lia. }
    rewrite Sq in E. clear - Lt E G. assert (X : g * cst (pivot_step t r c) i = dir * (cst t r * cf t i c - cst t i * cf t r c)) by (rewrite <- E; ring). nia. }
  assert (Nz' : cf (pivot_step t r c) i c <> 0).
  { pose proof (st_cf_j int L t r c R Hr Hc Nzr i ltac:(lia) ltac:(congruence)) as E. clear - E Nz Nzr. destruct (cf (pivot_step t r c) i c); [|discriminate|discriminate]. destruct (cf t i c), (cf t r c); cbn in *; lia. }
  pose proof (st_represents int L t r c R Hr Hc Nzr) as R'.
  eapply wp_weak; [apply (pivot_ok int L t r c R Hr Hc Nzr)|]. intros t2 (R2 & E2 & Cl).
  split; [exact R2|]. split; [exact E2|]. split; [apply (clean_sample None _ _ A' F' Cl Ds)|].
  assert (Rd : v_red (t_info t2 w) = false).
  { destruct (v_red (t_info t2 w)) eqn:B; [|reflexivity]. exfalso. destruct (live_row_info _ _ _ A' F' Lr') as (V' & Rw' & Rd' & Ix').
    pose proof Cl as (_ & _ & _ & X). destruct (X w V' (or_introl (conj Rd' B))) as ((_ & _ & Y) & _).
    destruct Re as (p & Hp & Fe & Vp). pose proof (st_feas int L t r c R Hr Hc p) as Fp.
    assert (M : at_min (pivot_step t r c) i).
    { intros k Hk Nk. pose proof Lr' as (Hi' & Ei'). rewrite <- Ei' in Y. rewrite rc_row in Y by (auto; lia). destruct (Y k Hk Nk) as (_ & P & Q). split; [exact P|exact Q]. }
    pose proof (at_min_ge int L _ w i p R' Lr' M (proj2 Fp Fe)) as Z. rewrite Vp in Z. clear - Z Pos' Hp. nia. }
  destruct (clean_live _ t2 w i A' F' Cl Lr' Rd) as (i2 & Lr2 & En). exists i2. split; [exact Lr2|]. exists c.
  split; [rewrite (e_dead _ _ _ E2), (e_ncol _ _ _ E2); exact Hc|]. unfold cf. rewrite En. exact Nz'.
Qed.
Lemma own_col t i c (R : represents int L t) (Lr : live_row t w i) : (t_dead t <= c < ncol t)%nat -> cf t i c <> 0 -> sample_ok None (pivot_step t i c) ->
  wp (pivot t i c) (fun t2 => represents int L t2 /\ evolve L t t2 /\ sample_ok None t2 /\ v_row (t_info t2 w) = false /\ live_col t2 w c).
Proof.
  intros Hc Nz Ds. pose proof (c_arr _ _ (r_core _ _ _ R)) as A. pose proof (c_flg _ _ (r_core _ _ _ R)) as F. pose proof Lr as (Hi & Ei).
  pose proof (st_arr int L t i c R Hi Hc Nz) as A'. pose proof (st_flagged int L t i c R Hi Hc Nz) as F'.
  eapply wp_weak; [apply (pivot_ok int L t i c R Hi Hc Nz)|]. intros t2 (R2 & E2 & Cl).
  split; [exact R2|]. split; [exact E2|]. split; [apply (clean_sample None _ _ A' F' Cl Ds)|].
  assert (Iv : t_info (pivot_step t i c) w = vs_idx (Some c) (vs_row false (t_info t w))) by (rewrite (ps_info t i c A) by lia; rewrite Ei, Z.eqb_refl; reflexivity).
  destruct (live_row_info t w i A F Lr) as (V & _). rewrite (clean_col _ _ w Cl); [|exact V|rewrite Iv; reflexivity]. split; [rewrite Iv; reflexivity|].
  split; [rewrite (e_dead _ _ _ E2), (e_ncol _ _ _ E2); exact Hc|]. pose proof Cl as (_ & _ & S & _). unfold colv. rewrite (s_cv _ _ S).
  cbn [pivot_step t_cv upd w_info w_cv w_rv w_rows]. rewrite nth_lset by (apply Hc). rewrite Nat.eqb_refl. exact Ei.
Qed.
Lemma to_col_ok : forall fuel t, represents int L t -> valid t w -> w = con (t_ncon t - 1) -> v_nonneg (t_info t w) = true -> v_red (t_info t w) = false -> v_zero (t_info t w) = false ->
  sample_ok None t -> reaches t -> (forall i, live_row t w i -> exists c, (t_dead t <= c < ncol t)%nat /\ cf t i c <> 0) ->
  wp (to_col fuel t w) (fun t2 => represents int L t2 /\ evolve L t t2 /\ sample_ok None t2 /\ v_row (t_info t2 w) = false /\ exists c, live_col t2 w c).
Proof.
  induction fuel as [|fuel IH]; intros t R V Ew Nw Rd Zw D Re Ne; [exact I|]. cbn [to_col].
  pose proof (c_arr _ _ (r_core _ _ _ R)) as A. pose proof (c_flg _ _ (r_core _ _ _ R)) as F. pose proof (live_of t w A F V Rd Zw) as Lv.
  destruct (v_row (t_info t w)) eqn:Rw; cbn [negb].
  2:{ cbn [wp]. split; [exact R|]. split; [apply evolve_refl|]. split; [exact D|]. split; [exact Rw|]. destruct Lv as [(i & Lr)|X]; [|exact X].
      destruct (live_row_info _ _ _ A F Lr) as (_ & X & _). congruence. }
  destruct (live_row_at t w A F V Rw Rd) as (i & Lr). rewrite (live_row_of t w i A Lr). cbn [bind]. pose proof Lr as (Hi & Ei).
  destruct (Z.ltb_spec 0 (cst t i)) as [Pos|Le].
  - destruct (find_pivot_ok t w false (-1) i A F eq_refl Lr) as (o & -> & Fo). cbn [bind]. destruct o as [[r c]|].
    + apply wp_bind. destruct (Nat.eq_dec r i) as [->|Nr].
      * pose proof Fo as (Hc & (Nz & Us) & H). cbn zeta in H. set (dir := -1 * Z.sgn (cf t i c)) in *.
        assert (Ci : cand t None dir c i). { constructor; [exact Hi|discriminate|rewrite Ei; exact Nw|]. unfold dir. clear - Nz. destruct (cf t i c); cbn; lia. }
        assert (Mn : forall j, cand t None dir c j -> before t dir c i j) by (destruct H as [(_ & X)|(_ & X)]; [destruct (X i Ci)|exact X]).
        eapply wp_weak; [apply (own_col t i c R Lr Hc Nz)|].
        -- apply (ratio_sample int L t i c None dir None None); auto; try discriminate; [unfold dir; clear - Nz; destruct (cf t i c); cbn; lia|].
           intros Nu _. destruct Us as [Us|Us]; [unfold dir; rewrite Us; reflexivity|congruence].
        -- intros t2 (R2 & E2 & D2 & Rw2 & Lc). destruct fuel as [|fuel]; [exact I|]. cbn [to_col]. rewrite Rw2. cbn [negb wp]. eauto 8.
      * eapply wp_weak; [apply (col_away t i r c R Lr Ew Nw D Pos Re Fo Nr)|]. intros t2 (R2 & E2 & D2 & i2 & Lr2 & Ne2).
        destruct (live_row_info t2 w i2) as (V2 & _ & Rd2 & Ix2); [apply R2|apply R2|exact Lr2|]. destruct (e_keep _ _ _ E2 w) as (Ez & _).
        eapply wp_weak; [apply (IH t2 R2 V2)|].
        -- rewrite (e_ncon _ _ _ E2). exact Ew.
        -- apply (e_grow _ _ _ E2 w). exact Nw.
        -- exact Rd2.
        -- congruence.
        -- exact D2.
        -- apply (reaches_evolve t); assumption.
        -- intros k Lk. destruct (live_row_info t2 w k) as (_ & _ & _ & Ik); [apply R2|apply R2|exact Lk|]. replace k with i2 by congruence. exact Ne2.
        -- intros t3 (R3 & E3 & X). split; [exact R3|]. split; [eapply evolve_trans; eassumption|exact X].
    + exfalso. destruct Re as (p & Hp & Fe & Vp). pose proof (at_min_ge int L t w i p R Lr (found_min _ _ _ Fo) Fe) as Z. rewrite Vp in Z. clear - Z Pos Hp. nia.
  - destruct (first_live t i) as [c|] eqn:Fl.
    + destruct (first_live_some _ _ _ Fl) as (Hc & Nz). assert (C0 : cst t i = 0) by (assert (0 <= cst t i) by (apply D; [exact Hi|discriminate|rewrite Ei; exact Nw]); clear - H Le; lia).
      eapply wp_weak; [apply (own_col t i c R Lr Hc Nz)|].
      * apply (st_sample int L); auto.
        -- intros _ _. rewrite C0. clear. lia.
        -- intros j Hj _ Nx Nj. pose proof (D j Hj Nx Nj) as P. rewrite C0. clear - P Nz. assert (0 < Z.sgn (cf t i c) * cf t i c) by (destruct (cf t i c); cbn; lia). replace (Z.sgn (cf t i c) * (cst t j * cf t i c - cf t j c * 0)) with (cst t j * (Z.sgn (cf t i c) * cf t i c)) by ring. nia.
      * intros t2 (R2 & E2 & D2 & Rw2 & Lc). eauto 8.
    + exfalso. destruct (Ne i Lr) as (c & Hc & Nz). apply Nz. apply (first_live_none _ _ Fl c Hc).
Qed.
End ToCol.

(** ** the end of adding an equality *)
Lemma nonneg_core L t v b : core L t -> v < 0 -> core L (upd t v (vs_nonneg b)).
Proof.
  intros C Ng. pose proof (c_flg _ _ C) as F. set (t' := upd t v (vs_nonneg b)).
  assert (Sh : shape t t') by (apply shape_upd; intros; split; reflexivity).
  assert (Fl : forall X (f : tvar -> X) u, (forall x, f (vs_nonneg b x) = f x) -> f (t_info t' u) = f (t_info t u)) by (intros X f u H; cbn; destruct (Z.eqb_spec u v) as [->|]; auto).
  constructor; [apply (arranged_shape _ _ Sh), C| |apply C|apply C|apply (related_shape _ _ Sh), C|apply (independent_shape _ _ Sh), C].
  constructor; try apply F.
  - intros i Hi. rewrite (Fl _ v_red) by reflexivity. apply (f_rows _ F i Hi).
  - intros c Hc. rewrite (Fl _ v_red), (Fl _ v_zero) by reflexivity. apply (f_cols _ F c Hc).
  - intros u Vu I. rewrite (Fl _ v_idx) in I by reflexivity. rewrite (Fl _ v_row), (Fl _ v_red), (Fl _ v_zero) by reflexivity. apply (f_gone _ F u Vu I).
  - intros u Vu P. rewrite (Fl _ v_zero), (Fl _ v_red) by reflexivity. destruct (f_var _ F u Vu P) as (F1 & F2). split; [exact F1|]. cbn. destruct (Z.eqb_spec u v) as [->|]; [lia|exact F2].
Qed.
Lemma close_eq int L t w c : represents int L t -> live_col t w c -> w < 0 -> sample_ok None t ->
  wp (let t := upd t w (vs_nonneg false) in bind (col_of t w) (fun c => bind (kill_col t c) (fun '(t, _) => Ok t))) (fun t' =>
    represents int L t' /\ sample_ok None t' /\ t_nvar t' = t_nvar t /\ t_ncon t' = t_ncon t /\ t_empty t' = t_empty t /\ t_undo t' = t_undo t /\ t_rat t' = t_rat t /\ t_cone t' = t_cone t /\
    forall p, feas L t' p <-> feas L t p /\ value L p w = 0).
Proof.
  intros R (Hc & Ec) Ng D. pose proof (r_core _ _ _ R) as C. pose proof (nonneg_core L t w false C Ng) as C1. cbv zeta. set (t1 := upd t w (vs_nonneg false)) in *.
  assert (I1 : forall u, t_info t1 u = if u =? w then vs_nonneg false (t_info t u) else t_info t u) by (intros u; cbn; destruct (Z.eqb_spec u w) as [->|]; reflexivity).
  assert (Fl : forall X (f : tvar -> X) u, (forall x, f (vs_nonneg false x) = f x) -> f (t_info t1 u) = f (t_info t u)) by (intros X f u H; rewrite I1; destruct (u =? w); auto).
  assert (Cw : col_of t1 w = Ok c).
  { destruct (a_col _ (c_arr _ _ C) c (proj2 Hc)) as (_ & X & Y). rewrite Ec in X, Y. unfold col_of. rewrite (Fl _ v_idx) by reflexivity. rewrite X. change (ncol t1) with (ncol t). rewrite ?(proj2 (Nat.ltb_lt c (ncol t)) (proj2 Hc)). reflexivity. }
  rewrite Cw. cbn [bind]. apply wp_bind. eapply wp_weak; [apply (kill_ok L t1 c C1 Hc); change (colv t1 c) with (colv t c); rewrite Ec; exact Ng|].
  intros [t3 b] (C3 & K & _ & Zw & _). change (colv t1 c) with (colv t c) in Zw. rewrite Ec in Zw. cbn [wp].
  destruct (a_col _ (c_arr _ _ C) c (proj2 Hc)) as (Vw & _ & Rw). rewrite Ec in Vw, Rw.
  assert (V3 : forall u, valid t3 u <-> valid t u) by (intros u; apply (killed_valid _ _ _ _ K)).
  assert (Z3 : forall u, v_zero (t_info t3 u) = true -> v_zero (t_info t u) = true \/ u = w).
  { intros u Z0. destruct (kl_new _ _ _ K u Z0) as [Z1|(k & _ & Ek & ->)]; [left; rewrite (Fl _ v_zero) in Z1 by reflexivity; exact Z1|right]. rewrite <- Ek. exact Ec. }
  assert (Z3' : forall u, v_zero (t_info t u) = true -> v_zero (t_info t3 u) = true) by (intros u Z0; apply (kl_zero _ _ _ K); rewrite (Fl _ v_zero) by reflexivity; exact Z0).
  assert (K3 : forall u, v_red (t_info t3 u) = v_red (t_info t u) /\ v_row (t_info t3 u) = v_row (t_info t u) /\ v_nonneg (t_info t3 u) = if u =? w then false else v_nonneg (t_info t u)).
  { intros u. destruct (kl_flag _ _ _ K u) as (-> & -> & _ & -> & _). rewrite (Fl _ v_red), (Fl _ v_row) by reflexivity. split; [reflexivity|]. split; [reflexivity|]. rewrite I1. destruct (u =? w); reflexivity. }
  assert (Fe : forall p, feas L t3 p <-> feas L t p /\ value L p w = 0).
  { intros p. split.
    - intros (Lp & H). rewrite (kl_nvar _ _ _ K) in Lp. assert (Ze : value L p w = 0) by (apply (H w); [apply V3; exact Vw|exact Zw]). split; [split; [exact Lp|]|exact Ze].
      intros u Vu. destruct (H u (proj2 (V3 u) Vu)) as (H1 & H2). destruct (K3 u) as (E1 & _ & E2). rewrite E1, E2 in H2. split; [intros Zu; apply H1; apply Z3'; exact Zu|].
      destruct (Z.eqb_spec u w) as [->|]; [intros _ _; rewrite Ze; lia|exact H2].
    - intros ((Lp & H) & Ze). split; [rewrite (kl_nvar _ _ _ K); exact Lp|]. intros u Vu. apply V3 in Vu. destruct (H u Vu) as (H1 & H2). destruct (K3 u) as (E1 & _ & E2). rewrite E1, E2. split.
      + intros Zu. destruct (Z3 u Zu) as [Z0| ->]; [apply H1; exact Z0|exact Ze].
      + destruct (u =? w); [discriminate|exact H2]. }
  split; [|split; [|split; [apply K|split; [apply K|split; [apply K|split; [apply K|split; [apply K|split; [apply K|exact Fe]]]]]]]].
  - constructor; [exact C3| |].
    + intros p Lp H u Vu Zu. destruct (Z3 u Zu) as [Z0| ->].
      * apply (r_zero _ _ _ R p); [rewrite <- (kl_nvar _ _ _ K : t_nvar t3 = t_nvar t); exact Lp| |apply V3; exact Vu|exact Z0].
        intros x Vx Zx Rx. apply H; [apply V3; exact Vx|apply Z3'; exact Zx|]. destruct (K3 x) as (_ & -> & _). exact Rx.
      * apply H; [exact Vu|exact Zw|]. destruct (K3 w) as (_ & -> & _). exact Rw.
    + intros p Ad Fp u Vu Nu. apply Fe in Fp. destruct Fp as (Fp & Ze). destruct (K3 u) as (_ & _ & E2). rewrite E2 in Nu. destruct (u =? w); [discriminate|]. apply (r_imp _ _ _ R p Ad Fp); [apply V3; exact Vu|exact Nu].
  - intros k Hk _ Nk. assert (Ek : rowv t3 k = rowv t k) by (unfold rowv; rewrite (kl_rv _ _ _ K); reflexivity). rewrite Ek in Nk. destruct (K3 (rowv t k)) as (_ & _ & E2). rewrite E2 in Nk.
    unfold nrow in Hk. rewrite (kl_rv _ _ _ K), (kl_red _ _ _ K) in Hk. change (t_red t <= k < nrow t)%nat in Hk.
    destruct (kl_cst _ _ _ K k (proj2 Hk)) as (_ & ->). change (cst t1 k) with (cst t k). apply D; [exact Hk|discriminate|]. destruct (rowv t k =? w); [discriminate|exact Nk].
Qed.

(** ** negating the row of the last constraint *)
Lemma nth_neg k : forall l, nth k (seq_neg l) 0 = - nth k l 0.
Proof. induction k as [|k IH]; intros [|x l]; try reflexivity. apply IH. Qed.
Section Negate.
Variables (int : bool) (L : list (list Z)) (l : list Z) (t : tab) (i : nat).
Hypothesis R : represents int (L ++ [l]) t.
Let w := con (length L).
Hypothesis Lr : live_row t w i.
Hypothesis Nw : v_nonneg (t_info t w) = false.
Hypothesis Zw : v_zero (t_info t w) = false.
Let t' := upd (negate_row t i) w (vs_negated true).
Let L' := L ++ [seq_neg l].
Let C : core (L ++ [l]) t. Proof. apply R. Qed.
Let A : arranged t. Proof. apply C. Qed.
Let F : flagged t. Proof. apply C. Qed.
Let Nc : t_ncon t = S (length L). Proof. rewrite <- (c_len _ _ C), app_length. cbn [length]. lia. Qed.
Lemma ng_flag {X} (f : tvar -> X) u : (forall x, f (vs_negated true x) = f x) -> f (t_info t' u) = f (t_info t u).
Proof. intros H. change (t_info t' u) with (if u =? w then vs_negated true (t_info t w) else t_info t u). destruct (Z.eqb_spec u w) as [->|]; auto. Qed.
Lemma ng_row k : (k < nrow t)%nat -> nth k (t_rows t') [] = if Nat.eqb k i then nth 0 (nth i (t_rows t) []) 0 :: seq_neg (tl (nth i (t_rows t) [])) else nth k (t_rows t) [].
Proof. intros Hk. cbn [t' upd w_info t_rows negate_row w_rows]. apply nth_lset. rewrite (a_len _ A). apply Lr. Qed.
Lemma ng_ent k j : (k < nrow t)%nat -> ent t' k j = if Nat.eqb k i && Nat.ltb 0 j then - ent t k j else ent t k j.
Proof.
  intros Hk. unfold ent. rewrite (ng_row k Hk). destruct (Nat.eqb_spec k i) as [->|]; [|reflexivity]. cbn [andb]. destruct j as [|j]; [reflexivity|]. cbn [Nat.ltb Nat.leb nth]. rewrite nth_neg. f_equal.
  destruct (nth i (t_rows t) []); [destruct j; reflexivity|reflexivity].
Qed.
Lemma ng_value p u : valid t u -> value L' p u = if u =? w then - value (L ++ [l]) p u else value (L ++ [l]) p u.
Proof.
  intros V. destruct (Z.eqb_spec u w) as [->|N]; [unfold L', w; rewrite !value_new by reflexivity; apply dot_seq_neg|].
  unfold L'. rewrite !value_app; [reflexivity| |]; unfold valid, w, con in *; lia.
Qed.
Lemma ng_other k : (k < nrow t)%nat -> k <> i -> rowv t k <> w.
Proof. intros Hk N E. apply N. destruct Lr as (Hi & Ei). apply (rowv_inj t); [exact A|exact Hk|apply Hi|congruence]. Qed.
Lemma ng_colv c : (c < ncol t)%nat -> colv t c <> w.
Proof. intros Hc E. destruct (a_col _ A c Hc) as (_ & _ & X). rewrite E in X. destruct (live_row_info t w i A F Lr) as (_ & Y & _). congruence. Qed.
Lemma ng_vals p : map (value L' p) (t_cv t) = map (value (L ++ [l]) p) (t_cv t).
Proof.
  apply map_ext_in. intros v Hv. apply (In_nth _ _ 0) in Hv. destruct Hv as (c & Hc & <-). change (nth c (t_cv t) 0) with (colv t c). rewrite ng_value by (apply (a_col _ A c Hc)).
  rewrite (proj2 (Z.eqb_neq _ _) (ng_colv c Hc)). reflexivity.
Qed.
Lemma ng_gone u : gone t u -> u <> w.
Proof. intros (_ & G) ->. destruct (live_row_info t w i A F Lr) as (_ & Y & _). congruence. Qed.
Lemma ng_gone' u : gone t' u <-> gone t u.
Proof. unfold gone. rewrite (ng_flag v_idx), (ng_flag v_row) by reflexivity. reflexivity. Qed.
Lemma ng_arr : arranged t'.
Proof.
  constructor.
  - cbn [t' upd w_info t_rows negate_row w_rows t_rv]. rewrite lset_length. apply (a_len _ A).
  - intros k Hk. change (k < nrow t)%nat in Hk. rewrite (ng_row k Hk). change (ncol t') with (ncol t). destruct (Nat.eqb_spec k i) as [->|]; [|apply (a_wid _ A k Hk)].
    pose proof (a_wid _ A i Hk) as W. destruct (nth i (t_rows t) []) as [|x r]; [cbn in W; lia|]. cbn [tl length nth] in *. unfold seq_neg. rewrite map_length. exact W.
  - intros k Hk. change (rowv t' k) with (rowv t k). rewrite (ng_flag v_idx), (ng_flag v_row) by reflexivity. apply (a_row _ A k Hk).
  - intros k Hk. change (colv t' k) with (colv t k). rewrite (ng_flag v_idx), (ng_flag v_row) by reflexivity. apply (a_col _ A k Hk).
  - intros u k V I. rewrite (ng_flag v_idx) in I by reflexivity. rewrite (ng_flag v_row) by reflexivity. apply (a_inv _ A u k V I).
  - intros k Hk. change (k < nrow t)%nat in Hk. unfold den. rewrite (ng_ent k 0 Hk), andb_false_r. apply (a_den _ A k Hk).
Qed.
Lemma ng_flg : flagged t'.
Proof.
  constructor; try apply F.
  - intros k Hk. rewrite (ng_flag v_red) by reflexivity. apply (f_rows _ F k Hk).
  - intros c Hc. rewrite (ng_flag v_red), (ng_flag v_zero) by reflexivity. apply (f_cols _ F c Hc).
  - intros u Vu I. rewrite (ng_flag v_idx) in I by reflexivity. rewrite (ng_flag v_row), (ng_flag v_red), (ng_flag v_zero) by reflexivity. apply (f_gone _ F u Vu I).
  - intros u Vu P. rewrite (ng_flag v_red), (ng_flag v_zero), (ng_flag v_nonneg) by reflexivity. apply (f_var _ F u Vu P).
Qed.
Lemma ng_core : core L' t'.
Proof.
  constructor; [exact ng_arr|exact ng_flg| | | |].
  - unfold L'. rewrite app_length. cbn [length]. change (t_ncon t') with (t_ncon t). lia.
  - intros m Hm. change (t_nvar t') with (t_nvar t). apply in_app_or in Hm. destruct Hm as [Hm|[<-|[]]]; [apply (c_wid _ _ C); apply in_or_app; left; exact Hm|].
    unfold seq_neg. rewrite map_length. apply (c_wid _ _ C). apply in_or_app. right. left. reflexivity.
  - intros p Lp G k Hk. change (k < nrow t)%nat in Hk.
    assert (H : row_holds (L ++ [l]) t p k).
    { apply (c_rel _ _ C p Lp); [|exact Hk]. intros u V Gu. specialize (G u V (proj2 (ng_gone' u) Gu)). rewrite ng_value in G by exact V. rewrite (proj2 (Z.eqb_neq _ _) (ng_gone u Gu)) in G. exact G. }
    unfold row_holds in *. unfold den. rewrite (ng_ent k 0 Hk), andb_false_r. change (ent t k 0) with (den t k). change (rowv t' k) with (rowv t k). change (t_cv t') with (t_cv t). rewrite ng_vals.
    destruct (a_row _ A k Hk) as (Vk & _). rewrite (ng_value p _ Vk), (ng_row k Hk). destruct (Nat.eqb_spec k i) as [->|N].
    + destruct Lr as (_ & Ei). rewrite Ei, Z.eqb_refl. cbn [tl]. rewrite dot_seq_neg, <- H, Ei. ring.
    + rewrite (proj2 (Z.eqb_neq _ _) (ng_other k Hk N)). exact H.
  - intros x z. destruct (c_ind _ _ C x z) as (k & p & K & Lp & Hp & Cp & Gp). exists k, p. split; [exact K|]. split; [exact Lp|]. split; [exact Hp|]. split.
    + intros c Hc. change (c < ncol t)%nat in Hc. change (colv t' c) with (colv t c). rewrite ng_value by (apply (a_col _ A c Hc)). rewrite (proj2 (Z.eqb_neq _ _) (ng_colv c Hc)). apply (Cp c Hc).
    + intros v V G. apply ng_gone' in G. change (valid t v) in V. rewrite ng_value by exact V. rewrite (proj2 (Z.eqb_neq _ _) (ng_gone v G)). apply Gp; assumption.
Qed.
Lemma ng_feas p : feas L' t' p <-> feas (L ++ [l]) t p.
Proof.
  assert (E : forall u, valid t u -> ((v_zero (t_info t' u) = true -> value L' p u = 0) /\ (v_nonneg (t_info t' u) = true -> v_red (t_info t' u) = false -> 0 <= value L' p u) <->
    (v_zero (t_info t u) = true -> value (L ++ [l]) p u = 0) /\ (v_nonneg (t_info t u) = true -> v_red (t_info t u) = false -> 0 <= value (L ++ [l]) p u))).
  { intros u V. rewrite (ng_flag v_zero), (ng_flag v_nonneg), (ng_flag v_red) by reflexivity. rewrite (ng_value p u V). destruct (Z.eqb_spec u w) as [Eu|]; [|reflexivity].
    rewrite Eu, Zw, Nw. split; intros _; split; discriminate. }
  split; intros (Lp & H); (split; [exact Lp|]); intros u V; apply (E u V); apply (H u V).
Qed.
Lemma ng_represents : represents int L' t'.
Proof.
  constructor; [exact ng_core| |].
  - intros p Lp H u V Zu. change (valid t u) in V. rewrite (ng_flag v_zero) in Zu by reflexivity. rewrite ng_value by exact V. destruct (Z.eqb_spec u w) as [->|N]; [congruence|].
    apply (r_zero _ _ _ R p Lp); [|exact V|exact Zu]. intros x Vx Zx Rx. specialize (H x Vx). rewrite (ng_flag v_zero), (ng_flag v_row) in H by reflexivity. specialize (H Zx Rx).
    rewrite ng_value in H by exact Vx. destruct (Z.eqb_spec x w) as [Ex|]; [rewrite Ex in Zx; congruence|exact H].
  - intros p Ad Fp u V Nu. change (valid t u) in V. rewrite (ng_flag v_nonneg) in Nu by reflexivity. rewrite ng_value by exact V. destruct (Z.eqb_spec u w) as [->|N]; [congruence|].
    apply (r_imp _ _ _ R p Ad); [apply ng_feas; exact Fp|exact V|exact Nu].
Qed.
Lemma ng_sample ex : sample_ok ex t -> sample_ok ex t'.
Proof.
  intros D k Hk Nx Nk. change (rowv t' k) with (rowv t k) in *. rewrite (ng_flag v_nonneg) in Nk by reflexivity. change (t_red t <= k < nrow t)%nat in Hk.
  unfold cst. rewrite (ng_ent k 1 (proj2 Hk)). destruct (Nat.eqb_spec k i) as [->|N]; [destruct Lr as (_ & Ei); rewrite Ei in Nk; congruence|]. apply (D k Hk Nx Nk).
Qed.
Lemma ng_live : live_row t' w i. Proof. exact Lr. Qed.
Lemma ng_cst : cst t' i = - cst t i. Proof. unfold cst. rewrite ng_ent by (apply Lr). rewrite Nat.eqb_refl. reflexivity. Qed.
Lemma ng_cf c : cf t' i c = - cf t i c. Proof. unfold cf. rewrite ng_ent by (apply Lr). rewrite Nat.eqb_refl. reflexivity. Qed.
End Negate.
