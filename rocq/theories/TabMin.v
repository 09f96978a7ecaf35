(** The loops that move the sample value down, and back again. *)
From Coq Require Import ZArith List Bool Arith Lia.
From Verif Require Import SeqModel SeqSpec SeqProofs MatModel BMapModel BMapLists BMapGauss2 BElimSpec BElimFM TabModel TabSpec TabBase TabStruct TabMark TabPivot TabStep TabSign.
Import ListNotations.
Open Scope Z_scope.

Lemma sample_free ex t v : sample_ok (Some v) t -> v_nonneg (t_info t v) = false -> sample_ok ex t.
Proof. intros D N i Hi _ Nn. apply D; auto. intros E. injection E as E. congruence. Qed.
Lemma sample_nored ex t v : flagged t -> sample_ok (Some v) t -> v_red (t_info t v) = true -> sample_ok ex t.
Proof. intros F D N i Hi _ Nn. apply D; auto. intros E. injection E as E. rewrite <- E in N. rewrite (f_rows _ F) in N by lia. apply Nat.ltb_lt in N. lia. Qed.
Lemma evolve_nonneg L t t' u : evolve L t t' -> v_red (t_info t' u) = false -> v_nonneg (t_info t' u) = v_nonneg (t_info t u).
Proof. intros E R. apply (e_grow _ _ _ E u). exact R. Qed.
Lemma evolve_red L t t' u : evolve L t t' -> v_red (t_info t' u) = false -> v_red (t_info t u) = false.
Proof. intros E R. destruct (e_grow _ _ _ E u) as (X & _). destruct (v_red (t_info t u)); [rewrite X in R by reflexivity; discriminate|reflexivity]. Qed.
(** the same columns give the same sample values *)
Lemma sample_transfer L t t' ex : core L t -> core L t' -> evolve L t t' -> t_cv t' = t_cv t -> sample_ok ex t -> sample_ok ex t'.
Proof.
  intros C C' E Cv D i Hi Nx Nn. pose proof (c_arr _ _ C) as A. pose proof (c_arr _ _ C') as A'. pose proof (c_flg _ _ C) as F. pose proof (c_flg _ _ C') as F'.
  destruct (c_ind _ _ C 1 (fun _ => 0)) as (k & p & K & Lp & Hh & Cz & G).
  set (x := rowv t' i) in *. destruct (live_row_info t' x i A' F') as (V' & Rw' & Rd' & I'); [split; [exact Hi|reflexivity]|].
  pose proof (proj1 (evolve_valid _ _ _ _ E) V') as V.
  assert (Zr : forall j, map (value L p) (t_cv t) = repeat 0 (ncol t) -> dot j (map (value L p) (t_cv t)) = 0) by (intros j ->; rewrite dot_comm; apply dot_repeat0).
  assert (Zc : map (value L p) (t_cv t) = repeat 0 (ncol t)).
  { apply (nth_ext _ _ 0 0); [rewrite repeat_length, map_length; reflexivity|]. intros j Hj. rewrite map_length in Hj. rewrite nth_vals, Cz, nth_repeat by exact Hj. ring. }
  specialize (fun j => Zr j Zc).
  assert (G' : forall v, valid t' v -> gone t' v -> value L p v = 0).
  { intros v Vv Gv. apply (evolve_valid _ _ _ _ E) in Vv. apply G; [exact Vv|]. apply (e_gone _ _ _ E v Vv). exact Gv. }
  assert (Rx : v_row (t_info t x) = true).
  { destruct (v_row (t_info t x)) eqn:R0; [reflexivity|]. exfalso. destruct (v_idx (t_info t x)) as [c|] eqn:Ix.
    - destruct (at_col _ _ _ A V Ix R0) as (Hc & Ec). destruct (a_col _ A' c) as (_ & _ & Q); [rewrite (e_ncol _ _ _ E); exact Hc|].
      unfold colv in Q, Ec. rewrite Cv, Ec in Q. congruence.
    - assert (X : gone t' x) by (apply (e_gone _ _ _ E x V); split; assumption). destruct X as (_ & X). congruence. }
  destruct (live_row_at t x A F V Rx (evolve_red _ _ _ _ E Rd')) as (j & Hj & Ej).
  assert (P : 0 <= cst t j) by (apply D; [exact Hj|rewrite Ej; exact Nx|rewrite Ej; rewrite <- (evolve_nonneg _ _ _ _ E Rd'); exact Nn]).
  assert (H1 : den t j * value L p x = cst t j * (k * 1)).
  { rewrite <- Ej. rewrite (row_expand L t p j A (c_rel _ _ C) Lp G) by lia. rewrite Hh, Zr. ring. }
  assert (H2 : den t' i * value L p x = cst t' i * (k * 1)).
  { unfold x. rewrite (row_expand L t' p i A' (c_rel _ _ C')); [|rewrite (e_nvar _ _ _ E); exact Lp|exact G'|lia]. rewrite Hh, Cv, Zr. ring. }
  pose proof (a_den _ A j ltac:(lia)). pose proof (a_den _ A' i ltac:(lia)).
  assert (0 <= value L p x) by nia. nia.
Qed.
(** a row with an obstacle is not redundant *)
Lemma clean_not_red2 t t' v i c : arranged t -> flagged t -> clean t t' -> live_row t v i -> (t_dead t <= c < ncol t)%nat -> cf t i c <> 0 ->
  cf t i c < 0 \/ v_nonneg (t_info t (colv t c)) = false -> v_red (t_info t' v) = false.
Proof.
  intros A F (A' & F' & S & X) Lr Hc Nz Ob. destruct (live_row_info _ _ _ A F Lr) as (V & R & Rd & I).
  destruct (v_red (t_info t' v)) eqn:E; [|reflexivity]. destruct (X v V) as ((_ & _ & Y) & _); [left; auto|]. destruct Lr as (Hi & Ei). rewrite <- Ei in Y. rewrite rc_row in Y by (auto; lia).
  destruct (Y c Hc) as (_ & P & Q); [exact Nz|]. unfold cf, ent in Ob. destruct Ob; [lia|congruence].
Qed.

(** [t] was reached from [t0] by a pivot *)
Record came (int : bool) (L : list (list Z)) (t0 t : tab) (r c : nat) : Prop := {
  cm_R : represents int L t0; cm_r : (t_red t0 <= r < nrow t0)%nat; cm_c : (t_dead t0 <= c < ncol t0)%nat; cm_q : cf t0 r c <> 0;
  cm_clean : clean (pivot_step t0 r c) t; cm_rep : represents int L t; cm_ev : evolve L t0 t }.
Section Back.
Context (int : bool) (L : list (list Z)) (t0 t : tab) (r c : nat) (H : came int L t0 t r c).
Lemma bk_A0 : arranged t0. Proof. apply (cm_R _ _ _ _ _ _ H). Qed.
Lemma bk_A1 : arranged (pivot_step t0 r c). Proof. destruct H as [R Hr Hc Hq _ _]. apply (st_arr int L t0 r c R Hr Hc Hq). Qed.
Lemma bk_F1 : flagged (pivot_step t0 r c). Proof. destruct H as [R Hr Hc Hq _ _]. apply (st_flagged int L t0 r c R Hr Hc Hq). Qed.
Lemma bk_cv : t_cv t = lset (t_cv t0) c (rowv t0 r).
Proof.
  destruct (cm_clean _ _ _ _ _ _ H) as (_ & _ & S & _). rewrite (s_cv _ _ S). pose proof bk_A0 as A. destruct H as [R Hr Hc Hq _ _].
  apply (nth_ext _ _ 0 0). { rewrite lset_length. apply (ps_ncol t0 r c). }
  intros j Hj. change (nth j (t_cv (pivot_step t0 r c)) 0) with (colv (pivot_step t0 r c) j). change (length (t_cv (pivot_step t0 r c))) with (ncol (pivot_step t0 r c)) in Hj. rewrite ps_ncol in Hj.
  rewrite (ps_colv t0 r c) by lia. rewrite nth_lset by (change (length (t_cv t0)) with (ncol t0); lia). reflexivity.
Qed.
Lemma bk_live : (t_dead t <= c < ncol t)%nat.
Proof. rewrite (e_dead _ _ _ (cm_ev _ _ _ _ _ _ H)), (e_ncol _ _ _ (cm_ev _ _ _ _ _ _ H)). apply H. Qed.
Lemma bk_row1 : live_row (pivot_step t0 r c) (colv t0 c) r.
Proof. pose proof bk_A0 as A. destruct H as [R Hr Hc Hq _ _]. split; [rewrite (ps_nrow t0 r c); exact Hr|]. rewrite (ps_rowv t0 r c) by lia. rewrite Nat.eqb_refl. reflexivity. Qed.
Lemma bk_cf : live_row t (colv t0 c) r -> Z.sgn (cf t r c) = Z.sgn (cf t0 r c).
Proof.
  intros Lr. destruct (live_row_info t (colv t0 c) r) as (_ & _ & Rd & _); [apply (cm_rep _ _ _ _ _ _ H)|apply (cm_rep _ _ _ _ _ _ H)|exact Lr|].
  destruct (clean_live _ t (colv t0 c) r bk_A1 bk_F1 (cm_clean _ _ _ _ _ _ H) bk_row1 Rd) as (i' & Lr' & E).
  assert (i' = r). { destruct Lr as (H1 & E1), Lr' as (H2 & E2). apply (rowv_inj t); [apply (cm_rep _ _ _ _ _ _ H)|lia|lia|congruence]. } subst i'.
  unfold cf. rewrite E. destruct H as [R Hr Hc Hq _ _]. apply (st_cf_i int L t0 r c R Hr Hc Hq).
Qed.
Lemma bk_test : negb (v_red (t_info t (colv t0 c))) && match v_idx (t_info t (colv t0 c)) with Some i => Nat.eqb i r | None => false end = true -> live_row t (colv t0 c) r.
Proof.
  intros B. apply andb_prop in B. destruct B as (B1 & B2). apply negb_true_iff in B1. destruct (v_idx (t_info t (colv t0 c))) as [i|] eqn:E; [|discriminate]. apply Nat.eqb_eq in B2. subst i.
  destruct (live_row_info _ _ _ bk_A1 bk_F1 bk_row1) as (V1 & Rw1 & _). destruct (cm_clean _ _ _ _ _ _ H) as (A & F & S & _). destruct (s_keep _ _ S (colv t0 c)) as (_ & _ & Rw & _).
  apply (swept_valid _ _ _ S) in V1. destruct (at_row _ _ _ A V1 E) as (Hr & Er); [congruence|]. split; [|exact Er]. split; [|exact Hr].
  rewrite <- Er in B1. rewrite (f_rows _ F) in B1 by exact Hr. apply Nat.ltb_ge in B1. exact B1.
Qed.
Lemma back_ok ex : live_row t (colv t0 c) r -> sample_ok ex t0 ->
  wp (pivot t r c) (fun t3 => represents int L t3 /\ evolve L t t3 /\ sample_ok ex t3 /\ clean (pivot_step t r c) t3).
Proof.
  intros Lr D. pose proof (bk_cf Lr) as Sq. assert (Nz : cf t r c <> 0) by (pose proof (cm_q _ _ _ _ _ _ H); intros E; rewrite E in Sq; destruct (cf t0 r c); cbn in Sq; congruence || lia).
  pose proof Lr as (Hr & Er). pose proof (cm_rep _ _ _ _ _ _ H) as R.
  eapply wp_weak; [apply (pivot_ok int L t r c R Hr bk_live Nz)|]. intros t3 (R3 & E3 & Cl).
  split; [exact R3|]. split; [exact E3|]. split; [|exact Cl].
  apply (sample_transfer L t0 t3 ex); auto; [apply (cm_R _ _ _ _ _ _ H)|apply R3|eapply evolve_trans; [apply (cm_ev _ _ _ _ _ _ H)|exact E3]|].
  destruct Cl as (_ & _ & S & _). rewrite (s_cv _ _ S). pose proof (c_arr _ _ (r_core _ _ _ R)) as A. apply (nth_ext _ _ 0 0). { change (length (t_cv (pivot_step t r c))) with (ncol (pivot_step t r c)). rewrite ps_ncol. apply (cm_ev _ _ _ _ _ _ H). }
  intros j Hj. change (nth j (t_cv (pivot_step t r c)) 0) with (colv (pivot_step t r c) j). change (length (t_cv (pivot_step t r c))) with (ncol (pivot_step t r c)) in Hj. rewrite ps_ncol in Hj.
  pose proof bk_live. rewrite (ps_colv t r c) by lia. destruct (Nat.eqb_spec j c) as [->|N]; [exact Er|]. unfold colv. rewrite bk_cv. pose proof (cm_c _ _ _ _ _ _ H). rewrite nth_lset by (change (length (t_cv t0)) with (ncol t0); lia).
  rewrite (proj2 (Nat.eqb_neq j c)) by congruence. reflexivity.
Qed.
End Back.

Definition nonempty (L : list (list Z)) (t : tab) : Prop := exists p, 0 < hd 0 p /\ feas L t p.
Lemma nonempty_evolve L t t' : evolve L t t' -> nonempty L t -> nonempty L t'.
Proof. intros E (p & Hp & Fe). exists p. split; [exact Hp|]. apply (e_feas _ _ _ E p Hp). exact Fe. Qed.
Lemma sample_nonempty int L t : represents int L t -> sample_ok None t -> nonempty L t.
Proof. intros R D. destruct (sample_point int L t R D) as (k & p & K & Hh & Fe & _). exists p. split; [lia|exact Fe]. Qed.
Lemma restore_nonempty int L v fuel t i : represents int L t -> live_row t v i -> v_nonneg (t_info t v) = true -> sample_ok (Some v) t -> nonempty L t ->
  wp (restore_row fuel t v) (fun '(t2, _) => represents int L t2 /\ evolve L t t2 /\ sample_ok None t2).
Proof.
  intros R Lr Nn D (p & Hp & Fe). eapply wp_weak; [apply (restore_row_ok int L v fuel t i R Lr D)|]. intros [t2 s] (R2 & E2 & Rd & D2 & I2 & P2).
  split; [exact R2|]. split; [exact E2|]. apply P2. destruct (Z_lt_le_dec s 0) as [Neg|]; [|assumption]. exfalso.
  assert (Fe2 : feas L t2 p) by (apply (e_feas _ _ _ E2 p Hp); exact Fe). specialize (I2 Neg p Hp Fe2). destruct Fe2 as (_ & Q). destruct (Q v) as (_ & Q2).
  - apply (evolve_valid _ _ _ _ E2). apply (live_row_info t v i); [apply R|apply R|exact Lr].
  - assert (0 <= value L p v); [|lia]. apply Q2; [|exact Rd]. apply (e_grow _ _ _ E2 v). exact Nn.
Qed.
Lemma pivot_back_ok int L v fuel t0 t r c i : came int L t0 t r c -> live_row t v i -> v_nonneg (t_info t v) = true -> sample_ok (Some v) t -> sample_ok None t0 ->
  wp (pivot_back fuel t v (colv t0 c) r c) (fun t2 => represents int L t2 /\ evolve L t t2 /\ sample_ok None t2).
Proof.
  intros H Lr Nn D D0. unfold pivot_back.
  destruct (negb (v_red (t_info t (colv t0 c))) && match v_idx (t_info t (colv t0 c)) with Some i => Nat.eqb i r | None => false end) eqn:B.
  - eapply wp_weak; [apply (back_ok int L t0 t r c H None (bk_test int L t0 t r c H B) D0)|]. intros t3 (R3 & E3 & D3 & _). auto.
  - apply wp_bind. eapply wp_weak; [apply (restore_nonempty int L v fuel t i); auto; [apply H|]|].
    + apply (nonempty_evolve L t0); [apply H|]. apply (sample_nonempty int L t0); [apply H|exact D0].
    + intros [t2 s] (R2 & E2 & D2). split; [exact R2|]. split; [exact E2|exact D2].
Qed.

(** ** moving down *)
Definition at_min (t : tab) (i : nat) : Prop := forall c, (t_dead t <= c < ncol t)%nat -> cf t i c <> 0 -> 0 < cf t i c /\ v_nonneg (t_info t (colv t c)) = true.
Lemma found_min t i skip : found t i skip (-1) None -> at_min t i.
Proof. intros H c Hc Nz. destruct (H c Hc Nz) as (P & Q). split; [destruct (cf t i c); cbn in P; lia|exact Q]. Qed.
Lemma at_min_ge int L t v i p : represents int L t -> live_row t v i -> at_min t i -> feas L t p -> cst t i * hd 0 p <= den t i * value L p v.
Proof.
  intros R (Hi & Ei) M Fe. rewrite <- Ei. pose proof (r_core _ _ _ R) as C. apply row_lower; [apply C|apply C|apply feas_cols; auto; apply C|lia|exact M].
Qed.
Lemma down_step int L t v i r c ex : represents int L t -> live_row t v i -> found t i true (-1) (Some (r, c)) -> sample_ok ex t -> ex = None \/ ex = Some v -> r <> i ->
  wp (pivot t r c) (fun t2 => came int L t t2 r c /\ sample_ok (Some v) t2 /\ v_row (t_info t2 v) = true /\ (v_red (t_info t2 v) = false -> exists i2, live_row t2 v i2)).
Proof.
  intros R Lr (Hc & (Nz & Us) & H) D Ex Nr. cbn zeta in H. destruct H as [(E & _)|(Cr & Mn)]; [contradiction|].
  pose proof (c_arr _ _ (r_core _ _ _ R)) as A. pose proof (c_flg _ _ (r_core _ _ _ R)) as F. pose proof Cr as [Hr _ Nn Sg]. assert (Nzr : cf t r c <> 0) by lia.
  pose proof Lr as (Hi & Ei).
  assert (Nv : rowv t r <> v) by (intros E; apply Nr; rewrite <- Ei in E; apply (rowv_inj t); auto; lia).
  assert (Ds : sample_ok (Some v) (pivot_step t r c)).
  { apply (ratio_sample int L t r c (Some i) (-1 * Z.sgn (cf t i c)) ex (Some v)); auto.
    - destruct (cf t i c); cbn; lia.
    - destruct Ex as [->| ->]; [discriminate|congruence].
    - intros Nu _. destruct Us as [Us|Us]; [lia|congruence].
    - intros j [= <-] Nx Nj. congruence. }
  pose proof (st_arr int L t r c R Hr Hc Nzr) as A'. pose proof (st_flagged int L t r c R Hr Hc Nzr) as F'.
  assert (Lr' : live_row (pivot_step t r c) v i).
  { split; [rewrite (ps_nrow t r c); exact Hi|]. rewrite (ps_rowv t r c) by lia. rewrite (proj2 (Nat.eqb_neq i r)) by congruence. exact Ei. }
  destruct (live_row_info _ _ _ A' F' Lr') as (V' & Rw' & _).
  eapply wp_weak; [apply (pivot_ok int L t r c R Hr Hc Nzr)|]. intros t2 (R2 & E2 & Cl).
  split; [constructor; assumption|]. split; [apply (clean_sample _ _ _ A' F' Cl Ds)|].
  assert (Rw2 : v_row (t_info t2 v) = true) by (pose proof Cl as (_ & _ & S & _); destruct (s_keep _ _ S v) as (_ & _ & -> & _); exact Rw').
  split; [exact Rw2|]. intros Rd. destruct (clean_live _ t2 v i A' F' Cl Lr' Rd) as (i2 & Lr2 & _). exists i2. exact Lr2.
Qed.
Lemma down_col int L t v c : represents int L t -> live_col t v c -> sample_ok None t ->
  (exists i, (t_red t <= i < nrow t)%nat /\ 0 < cf t i c /\ v_nonneg (t_info t (rowv t i)) = true) ->
  exists r, pivot_row t None (-1) c = Some r /\
  wp (pivot t r c) (fun t2 => came int L t t2 r c /\ sample_ok (Some v) t2 /\ v_row (t_info t2 v) = true /\ (v_red (t_info t2 v) = false -> exists i2, live_row t2 v i2)).
Proof.
  intros R (Hc & Ec) D (b & Hb & Nb & Pb). pose proof (c_arr _ _ (r_core _ _ _ R)) as A. pose proof (c_flg _ _ (r_core _ _ _ R)) as F.
  pose proof (pivot_row_ok t None (-1) c eq_refl) as P. destruct (pivot_row t None (-1) c) as [r|].
  2: { exfalso. apply (P b). constructor; auto; [discriminate|lia]. }
  exists r. split; [reflexivity|].
  destruct P as (Cr & Mn). pose proof Cr as [Hr _ Nn Sg]. assert (Nzr : cf t r c <> 0) by lia.
  assert (Ds : sample_ok (Some v) (pivot_step t r c)). { apply (ratio_sample int L t r c None (-1) None (Some v)); auto; try discriminate; congruence. }
  pose proof (st_arr int L t r c R Hr Hc Nzr) as A'. pose proof (st_flagged int L t r c R Hr Hc Nzr) as F'.
  assert (Lr' : live_row (pivot_step t r c) v r).
  { split; [rewrite (ps_nrow t r c); exact Hr|]. rewrite (ps_rowv t r c) by lia. rewrite Nat.eqb_refl. exact Ec. }
  destruct (live_row_info _ _ _ A' F' Lr') as (V' & Rw' & _).
  eapply wp_weak; [apply (pivot_ok int L t r c R Hr Hc Nzr)|]. intros t2 (R2 & E2 & Cl).
  split; [constructor; assumption|]. split; [apply (clean_sample _ _ _ A' F' Cl Ds)|].
  assert (Rw2 : v_row (t_info t2 v) = true) by (pose proof Cl as (_ & _ & S & _); destruct (s_keep _ _ S v) as (_ & _ & -> & _); exact Rw').
  split; [exact Rw2|]. intros Rd. destruct (clean_live _ t2 v r A' F' Cl Lr' Rd) as (i2 & Lr2 & _). exists i2. exact Lr2.
Qed.
Lemma min_unb_ok t v c : arranged t -> (c < ncol t)%nat -> colv t c = v -> min_unb t v = Ok (negb (existsb (fun i => (0 <? cf t i c) && v_nonneg (t_info t (rowv t i))) (live_rows t))).
Proof. intros A Hc E. unfold min_unb. destruct (a_col _ A c Hc) as (_ & _ & R). rewrite <- E, R. rewrite (col_of_eq t c _ A Hc eq_refl). reflexivity. Qed.

(** what a non-negative minimum means *)
Definition smin (t : tab) (v : Z) (s : Z) : Prop := 0 <= s -> v_red (t_info t v) = true \/ exists i, live_row t v i /\ at_min t i /\ 0 <= cst t i.
Definition came_from (int : bool) (L : list (list Z)) (t : tab) (last : option (Z * nat * nat)) : Prop :=
  match last with
  | None => sample_ok None t
  | Some (u, r, c) => exists t0, came int L t0 t r c /\ u = colv t0 c /\ sample_ok None t0
  end.
Lemma neg_one_ok int L v fuel t i last : represents int L t -> live_row t v i -> sample_ok (Some v) t -> came_from int L t last -> cst t i < 0 ->
  wp (match last with
      | Some (u, r, c) =>
        if v_nonneg (t_info t v) then do t <- pivot_back fuel t v u r c ;; Ok (t, -1)
        else Ok (t, -1)
      | None => Ok (t, -1)
      end) (fun '(t2, s) => represents int L t2 /\ evolve L t t2 /\ sample_ok None t2 /\ s = -1).
Proof.
  intros R Lr D La Neg. destruct last as [[[u r] c]|].
  - destruct La as (t0 & Cm & -> & D0). destruct (v_nonneg (t_info t v)) eqn:Nn.
    + apply wp_bind. eapply wp_weak; [apply (pivot_back_ok int L v fuel t0 t r c i Cm Lr Nn D D0)|]. intros t2 (R2 & E2 & D2). cbn [wp]. auto.
    + cbn [wp]. split; [exact R|]. split; [apply evolve_refl|]. split; [eapply sample_free; eassumption|reflexivity].
  - cbn [wp]. split; [exact R|]. split; [apply evolve_refl|]. split; [exact La|reflexivity].
Qed.
Lemma sign_of_min_loop_ok int L v : forall fuel t i last, represents int L t -> live_row t v i -> sample_ok (Some v) t -> came_from int L t last ->
  wp (sign_of_min_loop fuel t v last) (fun '(t2, s) => represents int L t2 /\ evolve L t t2 /\ sample_ok None t2 /\ smin t2 v s).
Proof.
  induction fuel as [|fuel IH]; intros t i last R Lr D La; [exact I|]. cbn [sign_of_min_loop].
  pose proof (c_arr _ _ (r_core _ _ _ R)) as A. pose proof (c_flg _ _ (r_core _ _ _ R)) as F. destruct (live_row_info t v i A F Lr) as (V & Rw & Rd & _).
  rewrite (live_row_of t v i A Lr). cbn [bind]. destruct (Z.ltb_spec (cst t i) 0) as [Neg|Ge].
  - eapply wp_weak; [apply (neg_one_ok int L v fuel t i last R Lr D La Neg)|]. intros [t2 s] (R2 & E2 & D2 & ->). split; [exact R2|]. split; [exact E2|]. split; [exact D2|]. unfold smin. lia.
  - assert (D0 : sample_ok None t) by (eapply sample_row; eassumption).
    destruct (find_pivot_ok t v true (-1) i A F eq_refl Lr) as (o & -> & Fo). cbn [bind]. destruct o as [[r c]|].
    + destruct (Nat.eqb_spec r i) as [->|Nr].
      * cbn [wp]. split; [exact R|]. split; [apply evolve_refl|]. split; [exact D0|]. unfold smin. lia.
      * apply wp_bind. eapply wp_weak; [apply (down_step int L t v i r c None R Lr Fo D0 (or_introl eq_refl) Nr)|]. intros t2 (Cm & D2 & Rw2 & Lr2).
        pose proof (cm_rep _ _ _ _ _ _ Cm) as R2. pose proof (cm_ev _ _ _ _ _ _ Cm) as E2. destruct (v_red (t_info t2 v)) eqn:Rd2.
        -- cbn [wp]. split; [exact R2|]. split; [exact E2|]. split; [apply (sample_nored _ _ v); [apply R2|exact D2|exact Rd2]|]. intros _. left. exact Rd2.
        -- destruct (Lr2 eq_refl) as (i2 & Lr3). eapply wp_weak; [apply (IH t2 i2 (Some (colv t c, r, c)) R2 Lr3 D2)|].
           ++ exists t. auto.
           ++ intros [t3 s] (R3 & E3 & S3). split; [exact R3|]. split; [eapply evolve_trans; eassumption|]. auto.
    + cbn [wp]. split; [exact R|]. split; [apply evolve_refl|]. split; [exact D0|]. intros _. right. exists i. split; [exact Lr|]. split; [eapply found_min; exact Fo|exact Ge].
Qed.
Lemma unb_cases t v c : live_col t v c ->
  existsb (fun i => (0 <? cf t i c) && v_nonneg (t_info t (rowv t i))) (live_rows t) = true ->
  exists i, (t_red t <= i < nrow t)%nat /\ 0 < cf t i c /\ v_nonneg (t_info t (rowv t i)) = true.
Proof. intros _ B. apply existsb_exists in B. destruct B as (i & Hi & Bi). apply in_live_rows in Hi. apply andb_prop in Bi. destruct Bi as (B1 & B2). apply Z.ltb_lt in B1. exists i. split; [lia|auto]. Qed.
Lemma sign_of_min_ok int L v fuel t : represents int L t -> live t v -> sample_ok None t ->
  wp (sign_of_min fuel t v) (fun '(t2, s) => represents int L t2 /\ evolve L t t2 /\ sample_ok None t2 /\ smin t2 v s).
Proof.
  intros R Lv D. pose proof (c_arr _ _ (r_core _ _ _ R)) as A. pose proof (c_flg _ _ (r_core _ _ _ R)) as F. unfold sign_of_min. destruct Lv as [(i & Lr)|(c & Lc)].
  - destruct (live_row_info t v i A F Lr) as (V & Rw & Rd & _). unfold min_unb. rewrite Rw. cbn [bind]. rewrite Rd.
    apply (sign_of_min_loop_ok int L v fuel t i None R Lr (sample_weak _ _ D) D).
  - pose proof Lc as (Hc & Ec). rewrite (min_unb_ok t v c A) by (auto; lia). cbn [bind].
    destruct (existsb (fun i => (0 <? cf t i c) && v_nonneg (t_info t (rowv t i))) (live_rows t)) eqn:B; cbn [negb].
    + destruct (a_col _ A c) as (_ & _ & Rw); [lia|]. rewrite Ec in Rw. rewrite Rw. rewrite (col_of_eq t c v A) by (auto; lia). cbn [bind].
      destruct (down_col int L t v c R Lc D (unb_cases t v c Lc B)) as (r & -> & W). cbn zeta. apply wp_bind. eapply wp_weak; [exact W|]. intros t2 (Cm & D2 & Rw2 & Lr2).
      pose proof (cm_rep _ _ _ _ _ _ Cm) as R2. pose proof (cm_ev _ _ _ _ _ _ Cm) as E2. destruct (v_red (t_info t2 v)) eqn:Rd2.
      * cbn [wp]. split; [exact R2|]. split; [exact E2|]. split; [apply (sample_nored _ _ v); [apply R2|exact D2|exact Rd2]|]. intros _. left. exact Rd2.
      * destruct (Lr2 eq_refl) as (i2 & Lr3). rewrite (live_row_of t2 v i2) by (auto; apply R2). cbn [bind].
        assert (La : came_from int L t2 (Some (colv t c, r, c))) by (exists t; auto).
        destruct (Z.ltb_spec (cst t2 i2) 0) as [Neg|Ge].
        -- eapply wp_weak; [apply (neg_one_ok int L v fuel t2 i2 (Some (colv t c, r, c)) R2 Lr3 D2 La Neg)|]. intros [t3 s] (R3 & E3 & D3 & ->).
           split; [exact R3|]. split; [eapply evolve_trans; eassumption|]. split; [exact D3|]. unfold smin. lia.
        -- eapply wp_weak; [apply (sign_of_min_loop_ok int L v fuel t2 i2 (Some (colv t c, r, c)) R2 Lr3 D2 La)|].
           intros [t3 s] (R3 & E3 & S3). split; [exact R3|]. split; [eapply evolve_trans; eassumption|]. auto.
    + cbn [wp]. split; [exact R|]. split; [apply evolve_refl|]. split; [exact D|]. unfold smin. lia.
Qed.

(** isl_tab_min_at_most_neg_one: a result of false means that the minimum is
    greater than -1 *)
Definition gt_neg_one (t : tab) (v : Z) : Prop := v_red (t_info t v) = true \/ exists i, live_row t v i /\ at_min t i /\ - den t i < cst t i.
Lemma min_neg_one_loop_ok int L v : forall fuel t i, represents int L t -> live_row t v i -> sample_ok (Some v) t -> (v_nonneg (t_info t v) = true -> - den t i < cst t i) ->
  (v_nonneg (t_info t v) = true -> nonempty L t) ->
  wp (min_neg_one_loop fuel t v) (fun '(t2, b) => represents int L t2 /\ evolve L t t2 /\ (b = true -> sample_ok None t2) /\ sample_ok (Some v) t2 /\
    (v_nonneg (t_info t v) = true -> b = false -> gt_neg_one t2 v)).
Proof.
  induction fuel as [|fuel IH]; intros t i R Lr D Hv Ne; [exact I|]. cbn [min_neg_one_loop].
  pose proof (c_arr _ _ (r_core _ _ _ R)) as A. pose proof (c_flg _ _ (r_core _ _ _ R)) as F. destruct (live_row_info t v i A F Lr) as (V & Rw & Rd & _).
  rewrite (live_row_of t v i A Lr). cbn [bind]. 
  destruct (find_pivot_ok t v true (-1) i A F eq_refl Lr) as (o & -> & Fo). cbn [bind]. destruct o as [[r c]|].
  - destruct (Nat.eqb_spec r i) as [->|Nr].
    + destruct (v_nonneg (t_info t v)) eqn:Nn.
      * apply wp_bind. eapply wp_weak; [apply (restore_nonempty int L v fuel t i R Lr Nn D (Ne eq_refl))|]. intros [t2 s] (R2 & E2 & D2). cbn [wp].
        split; [exact R2|]. split; [exact E2|]. split; [auto|]. split; [apply sample_weak; exact D2|discriminate].
      * cbn [bind wp]. split; [exact R|]. split; [apply evolve_refl|]. split; [intros _; eapply sample_free; eassumption|]. split; [exact D|discriminate].
    + cbn zeta. apply wp_bind. eapply wp_weak; [apply (down_step int L t v i r c (Some v) R Lr Fo D (or_intror eq_refl) Nr)|]. intros t2 (Cm & D2 & Rw2 & Lr2).
      pose proof (cm_rep _ _ _ _ _ _ Cm) as R2. pose proof (cm_ev _ _ _ _ _ _ Cm) as E2. destruct (v_red (t_info t2 v)) eqn:Rd2.
      * cbn [wp]. split; [exact R2|]. split; [exact E2|]. split; [discriminate|]. split; [exact D2|]. intros _ _. left. exact Rd2.
      * destruct (Lr2 eq_refl) as (i2 & Lr3). rewrite (live_row_of t2 v i2) by (auto; apply R2). cbn [bind]. pose proof (evolve_nonneg _ _ _ _ E2 Rd2) as Nv.
        assert (Ne2 : v_nonneg (t_info t2 v) = true -> nonempty L t2) by (intros N; apply (nonempty_evolve L t t2 E2), Ne; congruence).
        destruct (row_at_most_neg_one t2 i2) eqn:B.
        -- destruct (v_nonneg (t_info t2 v)) eqn:Nn.
           ++ destruct (negb (v_red (t_info t2 (colv t c))) && match v_idx (t_info t2 (colv t c)) with Some i => Nat.eqb i r | None => false end) eqn:T.
              ** apply wp_bind. pose proof (bk_test int L t t2 r c Cm T) as Lu.
                 eapply wp_weak; [apply (back_ok int L t t2 r c Cm (Some v) Lu D)|]. intros t3 (R3 & E3 & D3 & Cl).
                 destruct Fo as (Hc & (Nz & Us) & Hf). destruct Lr as (Hi & Ei). assert (Lr : live_row t v i) by (split; assumption).
                 pose proof (bk_cf int L t t2 r c Cm Lu) as Sq. pose proof (cm_q _ _ _ _ _ _ Cm) as Q0.
                 assert (Nz2 : cf t2 r c <> 0) by (intros E; rewrite E in Sq; destruct (cf t r c); cbn in Sq; congruence || lia).
                 pose proof Lu as (Hr2 & Er2). pose proof (bk_live int L t t2 r c Cm) as Hc2.
                 pose proof (st_arr int L t2 r c R2 Hr2 Hc2 Nz2) as A3. pose proof (st_flagged int L t2 r c R2 Hr2 Hc2 Nz2) as F3.
                 (* the row of v after the first pivot *)
                 pose proof (bk_A1 int L t t2 r c Cm) as A1. pose proof (bk_F1 int L t t2 r c Cm) as F1.
                 assert (Lr1 : live_row (pivot_step t r c) v i).
                 { split; [rewrite (ps_nrow t r c); exact Hi|]. rewrite (ps_rowv t r c) by (pose proof (cm_r _ _ _ _ _ _ Cm); lia). rewrite (proj2 (Nat.eqb_neq i r)) by congruence. exact Ei. }
                 destruct (clean_live _ t2 v i A1 F1 (cm_clean _ _ _ _ _ _ Cm) Lr1 Rd2) as (i2' & Lr2' & Ent).
                 pose proof (st_cf_j int L t r c R (cm_r _ _ _ _ _ _ Cm) Hc Q0 i ltac:(lia) ltac:(congruence)) as S1.
                 assert (C1 : cf t2 i2' c = cf (pivot_step t r c) i c) by apply Ent.
                 assert (Ni2 : i2' <> r).
                 { intros ->. destruct Lr2' as (_ & Er). rewrite Er2 in Er. destruct (a_col _ A c) as (_ & _ & X); [lia|]. rewrite Er in X. congruence. }
                 pose proof Lr2' as (Hi2 & Ei2).
                 pose proof (st_cf_j int L t2 r c R2 Hr2 Hc2 Nz2 i2' ltac:(lia) Ni2) as S2.
                 assert (Lr3' : live_row (pivot_step t2 r c) v i2').
                 { split; [rewrite (ps_nrow t2 r c); exact Hi2|]. rewrite (ps_rowv t2 r c) by lia. rewrite (proj2 (Nat.eqb_neq i2' r)) by exact Ni2. exact Ei2. }
                 assert (Sg : Z.sgn (cf (pivot_step t2 r c) i2' c) = Z.sgn (cf t i c)).
                 { rewrite S2, C1, S1, Sq. destruct (cf t r c), (cf t i c); cbn; congruence || lia. }
                 assert (Rd3 : v_red (t_info t3 v) = false).
                 { apply (clean_not_red2 _ t3 v i2' c A3 F3 Cl Lr3'); [rewrite (ps_ncol t2 r c); exact Hc2| |].
                   - intros E. rewrite E in Sg. destruct (cf t i c); cbn in Sg; congruence || lia.
                   - destruct Us as [Us|Us]; [left; destruct (cf (pivot_step t2 r c) i2' c), (cf t i c); cbn in *; lia|right].
                     rewrite (ps_colv t2 r c) by lia. rewrite Nat.eqb_refl, Er2. 
                     rewrite (ps_flag t2 r c (c_arr _ _ (r_core _ _ _ R2)) ltac:(lia) ltac:(lia) v_nonneg) by reflexivity.
                     rewrite (evolve_nonneg _ _ _ _ E2); [exact Us|]. destruct (live_row_info t2 (colv t c) r) as (_ & _ & Y & _); [apply R2|apply R2|exact Lu|]. exact Y. }
                 destruct (clean_live _ t3 v i2' A3 F3 Cl Lr3' Rd3) as (i3 & Lr4 & _).
                 apply wp_bind. pose proof (evolve_nonneg _ _ _ _ E3 Rd3) as Nv3.
                 eapply wp_weak; [apply (restore_nonempty int L v fuel t3 i3 R3 Lr4 ltac:(congruence) D3 (nonempty_evolve _ _ _ E3 (Ne2 eq_refl)))|]. intros [t4 s] (R4 & E4 & D4). cbn [wp].
                 split; [exact R4|]. split; [eapply evolve_trans; [exact E2|eapply evolve_trans; [exact E3|exact E4]]|]. split; [auto|]. split; [apply sample_weak; exact D4|discriminate].
              ** cbn [bind]. apply wp_bind. eapply wp_weak; [apply (restore_nonempty int L v fuel t2 i2 R2 Lr3 Nn D2 (Ne2 eq_refl))|]. intros [t4 s] (R4 & E4 & D4). cbn [wp].
                 split; [exact R4|]. split; [eapply evolve_trans; [exact E2|exact E4]|]. split; [auto|]. split; [apply sample_weak; exact D4|discriminate].
           ++ cbn [wp]. split; [exact R2|]. split; [exact E2|]. split; [intros _; eapply sample_free; eassumption|]. split; [exact D2|discriminate].
        -- eapply wp_weak; [apply (IH t2 i2 R2 Lr3 D2)|].
           ++ intros _. unfold row_at_most_neg_one in B. pose proof (a_den _ (c_arr _ _ (r_core _ _ _ R2)) i2 ltac:(destruct Lr3; lia)). apply andb_false_iff in B. destruct B as [B|B]; [apply Z.ltb_ge in B; lia|apply Z.leb_gt in B; lia].
           ++ exact Ne2.
           ++ intros [t3 s] (R3 & E3 & S3 & S4 & S5). split; [exact R3|]. split; [eapply evolve_trans; eassumption|]. split; [exact S3|]. split; [exact S4|]. rewrite <- Nv. exact S5.
  - cbn [wp]. split; [exact R|]. split; [apply evolve_refl|]. split; [discriminate|]. split; [exact D|]. intros Nn _. right. exists i. split; [exact Lr|]. split; [eapply found_min; exact Fo|auto].
Qed.
Lemma min_at_most_neg_one_ok int L v fuel t : represents int L t -> live t v -> sample_ok None t -> v_nonneg (t_info t v) = true ->
  wp (min_at_most_neg_one fuel t v) (fun '(t2, b) => represents int L t2 /\ evolve L t t2 /\ (b = true -> sample_ok None t2) /\ sample_ok (Some v) t2 /\ (b = false -> gt_neg_one t2 v)).
Proof.
  intros R Lv D Nn. pose proof (c_arr _ _ (r_core _ _ _ R)) as A. pose proof (c_flg _ _ (r_core _ _ _ R)) as F. unfold min_at_most_neg_one. pose proof (sample_nonempty int L t R D) as Ne.
  destruct Lv as [(i & Lr)|(c & Lc)].
  - destruct (live_row_info t v i A F Lr) as (V & Rw & Rd & _). unfold min_unb. rewrite Rw. cbn [bind]. rewrite Rd.
    eapply wp_weak; [apply (min_neg_one_loop_ok int L v fuel t i R Lr (sample_weak _ _ D)); [|auto]|].
    + intros _. destruct Lr as (Hi & Ei). pose proof (a_den _ A i ltac:(lia)). assert (0 <= cst t i); [|lia]. apply D; [exact Hi|discriminate|rewrite Ei; exact Nn].
    + intros [t2 b] (R2 & E2 & D2 & D3 & G). split; [exact R2|]. split; [exact E2|]. split; [exact D2|]. split; [exact D3|]. auto.
  - pose proof Lc as (Hc & Ec). rewrite (min_unb_ok t v c A) by (auto; lia). cbn [bind].
    destruct (existsb (fun i => (0 <? cf t i c) && v_nonneg (t_info t (rowv t i))) (live_rows t)) eqn:B; cbn [negb].
    + destruct (a_col _ A c) as (_ & _ & Rw); [lia|]. rewrite Ec in Rw. rewrite Rw. rewrite (col_of_eq t c v A) by (auto; lia). cbn [bind].
      destruct (down_col int L t v c R Lc D (unb_cases t v c Lc B)) as (r & -> & W). cbn zeta. apply wp_bind. eapply wp_weak; [exact W|]. intros t2 (Cm & D2 & Rw2 & Lr2).
      pose proof (cm_rep _ _ _ _ _ _ Cm) as R2. pose proof (cm_ev _ _ _ _ _ _ Cm) as E2. destruct (v_red (t_info t2 v)) eqn:Rd2.
      * cbn [wp]. split; [exact R2|]. split; [exact E2|]. split; [discriminate|]. split; [exact D2|]. intros _. left. exact Rd2.
      * destruct (Lr2 eq_refl) as (i2 & Lr3). rewrite (live_row_of t2 v i2) by (auto; apply R2). cbn [bind].
        pose proof (evolve_nonneg _ _ _ _ E2 Rd2) as Nv. rewrite Nn in Nv.
        destruct (row_at_most_neg_one t2 i2) eqn:B1.
        -- rewrite Nv. apply wp_bind. eapply wp_weak; [apply (pivot_back_ok int L v fuel t t2 r c i2 Cm Lr3 Nv D2 D)|]. intros t3 (R3 & E3 & D3). cbn [wp].
           split; [exact R3|]. split; [eapply evolve_trans; eassumption|]. split; [auto|]. split; [apply sample_weak; exact D3|discriminate].
        -- eapply wp_weak; [apply (min_neg_one_loop_ok int L v fuel t2 i2 R2 Lr3 D2)|].
           ++ intros _. unfold row_at_most_neg_one in B1. pose proof (a_den _ (c_arr _ _ (r_core _ _ _ R2)) i2 ltac:(destruct Lr3; lia)). apply andb_false_iff in B1. destruct B1 as [B1|B1]; [apply Z.ltb_ge in B1; lia|apply Z.leb_gt in B1; lia].
           ++ intros _. apply (nonempty_evolve _ _ _ E2 Ne).
           ++ intros [t3 s] (R3 & E3 & S3 & S4 & S5). split; [exact R3|]. split; [eapply evolve_trans; eassumption|]. split; [exact S3|]. split; [exact S4|]. auto.
    + cbn [wp]. split; [exact R|]. split; [apply evolve_refl|]. split; [auto|]. split; [apply sample_weak; exact D|discriminate].
Qed.
