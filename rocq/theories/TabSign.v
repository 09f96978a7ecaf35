(** The loops that move the sample value up. *)
From Coq Require Import ZArith List Bool Arith Lia.
From Verif Require Import SeqModel SeqSpec SeqProofs MatModel BMapModel BMapLists BMapGauss2 BElimSpec BElimFM TabModel TabSpec TabBase TabStruct TabMark TabPivot TabStep.
Import ListNotations.
Open Scope Z_scope.

Lemma ratio_sample int L t r c skip dir ex ex' :
  represents int L t -> sample_ok ex t -> (t_dead t <= c < ncol t)%nat -> Z.abs dir = 1 ->
  cand t skip dir c r -> (forall j, cand t skip dir c j -> before t dir c r j) ->
  (ex = None \/ ex = ex') -> Some (rowv t r) <> ex ->
  (v_nonneg (t_info t (colv t c)) = true -> Some (colv t c) <> ex' -> dir = 1) ->
  (forall j, skip = Some j -> Some (rowv t j) <> ex' -> v_nonneg (t_info t (rowv t j)) = true -> 0 <= cst t j /\ 0 <= dir * cf t j c) ->
  sample_ok ex' (pivot_step t r c).
Proof.
  intros R D Hc Hd Cr Mn Ex Nr Hu Hs. destruct Cr as [Lv Sk Nn Sg]. assert (Nz : cf t r c <> 0) by lia.
  assert (Sq : Z.sgn (cf t r c) = - dir). { assert (X : dir = 1 \/ dir = -1) by lia. destruct X; subst dir; [rewrite Z.sgn_neg by lia|rewrite Z.sgn_pos by lia]; lia. }
  assert (Cr0 : 0 <= cst t r) by (apply D; assumption).
  assert (Xn : forall x, Some x <> ex' -> Some x <> ex) by (intros x Hx; destruct Ex as [->| ->]; [discriminate|exact Hx]).
  apply (st_sample int L); auto.
  - intros Nx Nu. rewrite Sq. rewrite (Hu Nu Nx). lia.
  - intros j Hj Nj Nx Nnj. rewrite Sq. replace (- dir * (cst t j * cf t r c - cf t j c * cst t r)) with (dir * (cst t r * cf t j c - cst t j * cf t r c)) by ring.
    assert (Keep : 0 <= cst t j -> 0 <= dir * cf t j c -> 0 <= dir * (cst t r * cf t j c - cst t j * cf t r c)).
    { intros P Q. replace (dir * (cst t r * cf t j c - cst t j * cf t r c)) with (cst t r * (dir * cf t j c) + cst t j * - (dir * cf t r c)) by ring. nia. }
    assert (Dec : skip = Some j \/ skip <> Some j) by (destruct skip as [k|]; [destruct (Nat.eq_dec k j); [left; congruence|right; congruence]|right; discriminate]).
    destruct Dec as [E|Ns]; [destruct (Hs j E Nx Nnj); apply Keep; assumption|].
    destruct (Z_lt_le_dec (dir * cf t j c) 0) as [Neg|Pos].
    + assert (Cj : cand t skip dir c j) by (constructor; assumption). destruct (Mn j Cj) as [P|(P & _)]; lia.
    + apply Keep; [|exact Pos]. apply D; auto.
Qed.
Lemma own_sample int L t i c :
  represents int L t -> sample_ok (Some (rowv t i)) t -> (t_red t <= i < nrow t)%nat -> (t_dead t <= c < ncol t)%nat -> cf t i c <> 0 -> cst t i <= 0 ->
  (v_nonneg (t_info t (colv t c)) = true -> 0 < cf t i c) -> (forall j, ~ cand t (Some i) (Z.sgn (cf t i c)) c j) ->
  sample_ok None (pivot_step t i c).
Proof.
  intros R D Hi Hc Nz Ci Hu Nc. pose proof (c_arr _ _ (r_core _ _ _ R)) as A.
  apply (st_sample int L); auto.
  - intros _ Nu. rewrite Z.sgn_pos by auto. lia.
  - intros j Hj Nj _ Nn. assert (P : 0 <= Z.sgn (cf t i c) * cf t j c).
    { destruct (Z_lt_le_dec (Z.sgn (cf t i c) * cf t j c) 0) as [Neg|]; [|assumption]. exfalso. apply (Nc j). constructor; auto. congruence. }
    assert (Cj : 0 <= cst t j). { apply D; auto. intros E. injection E as E. apply Nj. apply (rowv_inj t); auto; lia. }
    replace (Z.sgn (cf t i c) * (cst t j * cf t i c - cf t j c * cst t i)) with (cst t j * (Z.sgn (cf t i c) * cf t i c) + - cst t i * (Z.sgn (cf t i c) * cf t j c)) by ring.
    assert (0 < Z.sgn (cf t i c) * cf t i c) by (destruct (cf t i c); cbn; lia). nia.
Qed.

(** ** points of the tableau *)
Lemma zupd_oob l i (x : Z) : (length l <= i)%nat -> zupd l i x = l.
Proof. intros H. apply (nth_ext _ _ 0 0); [apply zupd_length|]. intros j _. rewrite nth_zupd. rewrite (proj2 (Nat.ltb_ge i (length l)) H), andb_false_r. reflexivity. Qed.
Lemma point int L t c (X d : Z) : represents int L t -> 0 < X -> (d <> 0 -> (t_dead t <= c < ncol t)%nat) ->
  (d < 0 -> v_nonneg (t_info t (colv t c)) = false) ->
  (forall i, (t_red t <= i < nrow t)%nat -> v_nonneg (t_info t (rowv t i)) = true -> 0 <= cst t i * X + cf t i c * d) ->
  exists k p, 0 < k /\ hd 0 p = k * X /\ feas L t p /\ (forall i, (i < nrow t)%nat -> den t i * value L p (rowv t i) = k * (cst t i * X + cf t i c * d)) /\
    ((c < ncol t)%nat -> value L p (colv t c) = k * d).
Proof.
  intros R HX Hc Hd Hr. pose proof (r_core _ _ _ R) as C. pose proof (c_arr _ _ C) as A. pose proof (c_flg _ _ C) as F.
  destruct (c_ind _ _ C X (fun j => if Nat.eqb j c then d else 0)) as (k & p & K & Lp & Hh & Cv & G).
  exists k, p. split; [exact K|]. split; [exact Hh|].
  assert (Rw : forall i, (i < nrow t)%nat -> den t i * value L p (rowv t i) = k * (cst t i * X + cf t i c * d)).
  { intros i Hi. rewrite (row_expand L t p i A (c_rel _ _ C) Lp G Hi). rewrite Hh.
    assert (E : map (value L p) (t_cv t) = zupd (repeat 0 (ncol t)) c (k * d)).
    { apply (nth_ext _ _ 0 0); [rewrite zupd_length, repeat_length, map_length; reflexivity|]. intros j Hj. rewrite map_length in Hj. rewrite nth_vals, Cv by exact Hj.
      rewrite nth_zupd, repeat_length. destruct (Nat.eqb_spec j c) as [->|]; [rewrite (proj2 (Nat.ltb_lt c (ncol t)) Hj); reflexivity|].
      cbn [andb]. rewrite nth_repeat. ring. }
    rewrite E. destruct (Nat.lt_ge_cases c (ncol t)) as [Hlt|Hge].
    - rewrite dot_upd by (rewrite repeat_length; exact Hlt). rewrite dot_comm, dot_repeat0, nth_repeat, nth_skipn2. ring.
    - rewrite zupd_oob by (rewrite repeat_length; exact Hge). rewrite dot_comm, dot_repeat0. destruct (Z.eq_dec d 0) as [->|N]; [ring|]. specialize (Hc N). lia. }
  split; [|split; [exact Rw|intros H; rewrite Cv, Nat.eqb_refl by exact H; reflexivity]].
  assert (Cz : forall j, (j < ncol t)%nat -> (j < t_dead t)%nat -> value L p (colv t j) = 0).
  { intros j Hj Hdj. rewrite Cv by exact Hj. destruct (Nat.eqb_spec j c) as [->|]; [|ring]. destruct (Z.eq_dec d 0) as [->|N]; [ring|]. specialize (Hc N). lia. }
  assert (Zc : forall v, valid t v -> v_zero (t_info t v) = true -> v_row (t_info t v) = false -> value L p v = 0).
  { intros v V Zv Rv. destruct (v_idx (t_info t v)) as [j|] eqn:E; [|apply G; [exact V|split; assumption]].
    destruct (at_col _ _ _ A V E Rv) as (Hj & Ej). rewrite <- Ej in *. apply Cz; [exact Hj|]. destruct (f_cols _ F j Hj) as (X0 & _). rewrite Zv in X0. symmetry in X0. apply Nat.ltb_lt in X0. exact X0. }
  split; [exact Lp|]. intros v V. split; [intros Zv; apply (r_zero _ _ _ R p Lp Zc v V Zv)|].
  intros Nn Rd. destruct (v_row (t_info t v)) eqn:Rv.
  - destruct (live_row_at t v A F V Rv Rd) as (i & Hi & Ei). rewrite <- Ei in *. pose proof (a_den _ A i ltac:(lia)). specialize (Rw i ltac:(lia)). specialize (Hr i Hi Nn). nia.
  - destruct (v_idx (t_info t v)) as [j|] eqn:E; [|rewrite G; [lia|exact V|split; assumption]].
    destruct (at_col _ _ _ A V E Rv) as (Hj & Ej). rewrite <- Ej in *. rewrite Cv by exact Hj. destruct (Nat.eqb_spec j c) as [->|]; [|lia].
    destruct (Z_lt_le_dec d 0) as [Neg|]; [rewrite (Hd Neg) in Nn; discriminate|nia].
Qed.
Lemma sample_point int L t : represents int L t -> sample_ok None t ->
  exists k p, 0 < k /\ hd 0 p = k /\ feas L t p /\ (forall i, (i < nrow t)%nat -> den t i * value L p (rowv t i) = k * cst t i).
Proof.
  intros R D. destruct (point int L t (ncol t) 1 0 R) as (k & p & K & Hh & Fe & Rw & _); try lia.
  - intros i Hi Nn. assert (0 <= cst t i) by (apply D; auto; discriminate). lia.
  - exists k, p. split; [exact K|]. split; [lia|]. split; [exact Fe|]. intros i Hi. rewrite Rw by exact Hi. ring.
Qed.
(** a direction in which nothing stands in the way *)
Lemma ray_point int L t i c : represents int L t -> sample_ok None t -> (t_red t <= i < nrow t)%nat -> (t_dead t <= c < ncol t)%nat -> cf t i c <> 0 ->
  (v_nonneg (t_info t (colv t c)) = true -> 0 < cf t i c) -> (forall j, ~ cand t (Some i) (Z.sgn (cf t i c)) c j) ->
  exists p, 0 < hd 0 p /\ feas L t p /\ 0 < value L p (rowv t i).
Proof.
  intros R D Hi Hc Nz Hu Nc. pose proof (c_arr _ _ (r_core _ _ _ R)) as A.
  set (d := Z.sgn (cf t i c) * (Z.abs (cst t i) + 1)).
  assert (Dp : cf t i c * d = Z.abs (cf t i c) * (Z.abs (cst t i) + 1)) by (unfold d; destruct (cf t i c); cbn [Z.sgn Z.abs]; ring || lia).
  destruct (point int L t c 1 d R) as (k & p & K & Hh & Fe & Rw & _).
  - lia.
  - intros _. exact Hc.
  - intros Dn. destruct (v_nonneg (t_info t (colv t c))); [|reflexivity]. specialize (Hu eq_refl). unfold d in Dn. rewrite Z.sgn_pos in Dn by lia. lia.
  - intros j Hj Nn. assert (0 <= cst t j) by (apply D; auto; discriminate).
    destruct (Nat.eq_dec j i) as [->|Nj]; [rewrite Dp; nia|].
    assert (P : 0 <= Z.sgn (cf t i c) * cf t j c). { destruct (Z_lt_le_dec (Z.sgn (cf t i c) * cf t j c) 0) as [Neg|]; [|assumption]. exfalso. apply (Nc j). constructor; auto. congruence. }
    replace (cf t j c * d) with ((Z.sgn (cf t i c) * cf t j c) * (Z.abs (cst t i) + 1)) by (unfold d; ring). nia.
  - exists p. split; [lia|]. split; [exact Fe|]. specialize (Rw i ltac:(lia)). rewrite Dp in Rw. pose proof (a_den _ A i ltac:(lia)).
    assert (0 < cst t i * 1 + Z.abs (cf t i c) * (Z.abs (cst t i) + 1)) by nia. nia.
Qed.

(** ** a pivot that increases the variable of a row *)
Lemma evolve_live L t t2 v : represents true L t2 \/ represents false L t2 -> evolve L t t2 -> valid t v -> v_row (t_info t2 v) = true -> v_red (t_info t2 v) = false -> exists i, live_row t2 v i.
Proof.
  intros R E V Rw Rd. apply (evolve_valid _ _ _ _ E) in V. destruct R as [R|R]; apply live_row_at; auto; apply R.
Qed.
Lemma up_step int L t v i r c ex : represents int L t -> live_row t v i -> found t i true 1 (Some (r, c)) -> sample_ok ex t -> ex = None \/ ex = Some v -> r <> i ->
  wp (pivot t r c) (fun t2 => represents int L t2 /\ evolve L t t2 /\ sample_ok ex t2 /\ v_red (t_info t2 v) = false /\ v_row (t_info t2 v) = true /\ exists i2, live_row t2 v i2).
Proof.
  intros R Lr (Hc & (Nz & Us) & H) D Ex Nr. cbn zeta in H. rewrite Z.mul_1_l in H. destruct H as [(E & _)|(Cr & Mn)]; [contradiction|].
  pose proof (c_arr _ _ (r_core _ _ _ R)) as A. pose proof (c_flg _ _ (r_core _ _ _ R)) as F. pose proof Cr as [Hr _ Nn Sg]. assert (Nzr : cf t r c <> 0) by lia.
  pose proof Lr as (Hi & Ei).
  assert (Nv : rowv t r <> v) by (intros E; apply Nr; rewrite <- Ei in E; apply (rowv_inj t); auto; lia).
  assert (Ds : sample_ok ex (pivot_step t r c)).
  { apply (ratio_sample int L t r c (Some i) (Z.sgn (cf t i c)) ex ex); auto.
    - destruct (cf t i c); cbn; lia.
    - destruct Ex as [->| ->]; [discriminate|congruence].
    - intros Nu _. destruct Us as [Us|Us]; [exact Us|congruence].
    - intros j [= <-] Nx Nj. split; [apply D; assumption|]. destruct (cf t i c); cbn; lia. }
  pose proof (st_arr int L t r c R Hr Hc Nzr) as A'. pose proof (st_flagged int L t r c R Hr Hc Nzr) as F'.
  assert (Lr' : live_row (pivot_step t r c) v i).
  { split; [rewrite (ps_nrow t r c); exact Hi|]. rewrite (ps_rowv t r c) by lia. rewrite (proj2 (Nat.eqb_neq i r)) by congruence. exact Ei. }
  eapply wp_weak; [apply (pivot_ok int L t r c R Hr Hc Nzr)|]. intros t2 (R2 & E2 & Cl).
  split; [exact R2|]. split; [exact E2|]. split; [apply (clean_sample ex _ _ A' F' Cl Ds)|].
  assert (Rd : v_red (t_info t2 v) = false).
  { apply (clean_not_red _ t2 v i c A' F' Cl Lr'); [rewrite (ps_ncol t r c); exact Hc|].
    pose proof (st_cf_j int L t r c R Hr Hc Nzr i ltac:(lia) ltac:(congruence)) as Sj.
    assert (Sq : Z.sgn (cf t r c) = - Z.sgn (cf t i c)) by (destruct (cf t i c), (cf t r c); cbn in *; lia).
    rewrite Sq in Sj. destruct (cf (pivot_step t r c) i c); cbn in Sj; try lia; destruct (cf t i c); cbn in Sj; lia. }
  split; [exact Rd|]. destruct (clean_live _ t2 v i A' F' Cl Lr' Rd) as (i2 & Lr2 & _).
  destruct (live_row_info t2 v i2) as (_ & Rw & _); [apply R2|apply R2|exact Lr2|]. split; [exact Rw|exists i2; exact Lr2].
Qed.
Lemma up_own int L t v i c : represents int L t -> live_row t v i -> found t i true 1 (Some (i, c)) -> sample_ok (Some v) t -> cst t i <= 0 ->
  wp (pivot t i c) (fun t2 => represents int L t2 /\ evolve L t t2 /\ sample_ok None t2 /\ v_red (t_info t2 v) = false /\ v_row (t_info t2 v) = false /\
    v_idx (t_info t2 v) = Some c).
Proof.
  intros R Lr (Hc & (Nz & Us) & H) D Ci. cbn zeta in H. rewrite Z.mul_1_l in H. destruct H as [(_ & Nc)|([_ Q _ _] & _)]; [|congruence].
  pose proof (c_arr _ _ (r_core _ _ _ R)) as A. pose proof (c_flg _ _ (r_core _ _ _ R)) as F. pose proof Lr as (Hi & Ei).
  pose proof (st_arr int L t i c R Hi Hc Nz) as A'. pose proof (st_flagged int L t i c R Hi Hc Nz) as F'.
  assert (Ds : sample_ok None (pivot_step t i c)).
  { apply (own_sample int L t i c); auto; [rewrite Ei; exact D|]. intros Nu. destruct Us as [Us|Us]; [|congruence]. destruct (cf t i c); cbn in Us; lia. }
  eapply wp_weak; [apply (pivot_ok int L t i c R Hi Hc Nz)|]. intros t2 (R2 & E2 & Cl).
  split; [exact R2|]. split; [exact E2|]. split; [apply (clean_sample None _ _ A' F' Cl Ds)|].
  assert (Iv : t_info (pivot_step t i c) v = vs_idx (Some c) (vs_row false (t_info t v))) by (rewrite (ps_info t i c A) by lia; rewrite Ei, Z.eqb_refl; reflexivity).
  destruct (live_row_info t v i A F Lr) as (V & _ & Rd & _).
  rewrite (clean_col _ _ v Cl); [rewrite Iv; cbn; auto|exact V|rewrite Iv; reflexivity].
Qed.
Lemma own_ray int L t v i c : represents int L t -> live_row t v i -> found t i true 1 (Some (i, c)) -> sample_ok None t -> exists p, 0 < hd 0 p /\ feas L t p /\ 0 < value L p v.
Proof.
  intros R Lr (Hc & (Nz & Us) & H) D. cbn zeta in H. rewrite Z.mul_1_l in H. destruct H as [(_ & Nc)|([_ Q _ _] & _)]; [|congruence].
  pose proof Lr as (Hi & Ei). rewrite <- Ei. apply (ray_point int L t i c); auto. intros Nu. destruct Us as [Us|Us]; [|congruence]. destruct (cf t i c); cbn in Us; lia.
Qed.

(** the variable of a row has reached its maximum *)
Definition at_max (t : tab) (i : nat) : Prop := forall c, (t_dead t <= c < ncol t)%nat -> cf t i c <> 0 -> cf t i c < 0 /\ v_nonneg (t_info t (colv t c)) = true.
Lemma found_max t i skip : found t i skip 1 None -> at_max t i.
Proof. intros H c Hc Nz. destruct (H c Hc Nz) as (P & Q). split; [destruct (cf t i c); cbn in P; lia|exact Q]. Qed.
Lemma at_max_le int L t v i p : represents int L t -> live_row t v i -> at_max t i -> feas L t p -> den t i * value L p v <= cst t i * hd 0 p.
Proof.
  intros R (Hi & Ei) M Fe. rewrite <- Ei. pose proof (r_core _ _ _ R) as C. apply row_upper; [apply C|apply C|apply feas_cols; auto; apply C|lia|exact M].
Qed.
Definition smax (L : list (list Z)) (t : tab) (v : Z) (s : Z) : Prop :=
  (s = 1 /\ exists p, 0 < hd 0 p /\ feas L t p /\ 0 < value L p v) \/ (s <= 0 /\ exists i, live_row t v i /\ s = Z.sgn (cst t i) /\ at_max t i).
Lemma sample_weak ex t : sample_ok None t -> sample_ok ex t.
Proof. intros D i Hi _ Nn. apply D; auto. discriminate. Qed.
Lemma sign_of_max_loop_ok int L v : forall fuel t i, represents int L t -> live_row t v i -> sample_ok None t ->
  wp (sign_of_max_loop fuel t v) (fun '(t2, s) => represents int L t2 /\ evolve L t t2 /\ sample_ok None t2 /\ v_red (t_info t2 v) = false /\ smax L t2 v s).
Proof.
  induction fuel as [|fuel IH]; intros t i R Lr D; [exact I|]. cbn [sign_of_max_loop].
  pose proof (c_arr _ _ (r_core _ _ _ R)) as A. pose proof (c_flg _ _ (r_core _ _ _ R)) as F. destruct (live_row_info t v i A F Lr) as (V & Rw & Rd & _).
  rewrite (live_row_of t v i A Lr). cbn [bind]. destruct (Z.ltb_spec 0 (cst t i)) as [Pos|Le].
  - cbn [wp]. split; [exact R|]. split; [apply evolve_refl|]. split; [exact D|]. split; [exact Rd|]. left. split; [reflexivity|].
    destruct (sample_point int L t R D) as (k & p & K & Hh & Fe & Rp). exists p. split; [lia|]. split; [exact Fe|]. destruct Lr as (Hi & Ei). specialize (Rp i ltac:(lia)). rewrite Ei in Rp. pose proof (a_den _ A i ltac:(lia)). nia.
  - destruct (find_pivot_ok t v true 1 i A F eq_refl Lr) as (o & -> & Fo). cbn [bind]. destruct o as [[r c]|].
    + apply wp_bind. destruct (Nat.eq_dec r i) as [->|Nr].
      * eapply wp_weak; [apply (up_own int L t v i c R Lr Fo (sample_weak _ _ D) Le)|]. intros t2 (R2 & E2 & D2 & Rd2 & Rw2 & _). rewrite Rw2. cbn [wp].
        split; [exact R2|]. split; [exact E2|]. split; [exact D2|]. split; [exact Rd2|]. left. split; [reflexivity|].
        destruct (own_ray int L t v i c R Lr Fo D) as (p & Hp & Fe & Pv). exists p. split; [exact Hp|]. split; [apply (e_feas _ _ _ E2 p Hp); exact Fe|exact Pv].
      * eapply wp_weak; [apply (up_step int L t v i r c None R Lr Fo D (or_introl eq_refl) Nr)|]. intros t2 (R2 & E2 & D2 & Rd2 & Rw2 & i2 & Lr2). rewrite Rw2.
        eapply wp_weak; [apply (IH t2 i2 R2 Lr2 D2)|]. intros [t3 s] (R3 & E3 & D3 & Rd3 & S3). split; [exact R3|]. split; [eapply evolve_trans; eassumption|]. auto.
    + cbn [wp]. split; [exact R|]. split; [apply evolve_refl|]. split; [exact D|]. split; [exact Rd|]. right. split; [lia|]. exists i. split; [exact Lr|]. split; [reflexivity|]. eapply found_max. exact Fo.
Qed.
(** bringing a column to a row, moving it up *)
Lemma max_unb_ok t v c : arranged t -> (c < ncol t)%nat -> colv t c = v -> max_unb t v = Ok (negb (existsb (fun i => (cf t i c <? 0) && v_nonneg (t_info t (rowv t i))) (live_rows t))).
Proof. intros A Hc E. unfold max_unb. destruct (a_col _ A c Hc) as (_ & _ & R). rewrite <- E, R. rewrite (col_of_eq t c _ A Hc eq_refl). reflexivity. Qed.
Definition live_col (t : tab) (v : Z) (c : nat) : Prop := (t_dead t <= c < ncol t)%nat /\ colv t c = v.
Lemma to_row_up int L t v c : represents int L t -> live_col t v c -> sample_ok None t ->
  (exists i, (t_red t <= i < nrow t)%nat /\ cf t i c < 0 /\ v_nonneg (t_info t (rowv t i)) = true) ->
  wp (to_row t v 1) (fun t2 => represents int L t2 /\ evolve L t t2 /\ sample_ok None t2 /\ v_red (t_info t2 v) = false /\ exists i2, live_row t2 v i2).
Proof.
  intros R (Hc & Ec) D (b & Hb & Nb & Pb). pose proof (c_arr _ _ (r_core _ _ _ R)) as A. pose proof (c_flg _ _ (r_core _ _ _ R)) as F.
  unfold to_row. destruct (a_col _ A c) as (V & _ & Rw); [lia|]. rewrite Ec in V, Rw. rewrite Rw. rewrite (col_of_eq t c v A) by (auto; lia). cbn [bind Z.eqb].
  pose proof (pivot_row_ok t None 1 c eq_refl) as P. destruct (pivot_row t None 1 c) as [r|].
  2: { exfalso. apply (P b). constructor; auto; [discriminate|lia]. }
  destruct P as (Cr & Mn). pose proof Cr as [Hr _ Nn Sg]. assert (Nzr : cf t r c <> 0) by lia.
  assert (Ds : sample_ok None (pivot_step t r c)). { apply (ratio_sample int L t r c None 1 None None); auto; discriminate. }
  pose proof (st_arr int L t r c R Hr Hc Nzr) as A'. pose proof (st_flagged int L t r c R Hr Hc Nzr) as F'.
  assert (Lr' : live_row (pivot_step t r c) v r).
  { split; [rewrite (ps_nrow t r c); exact Hr|]. rewrite (ps_rowv t r c) by lia. rewrite Nat.eqb_refl. exact Ec. }
  eapply wp_weak; [apply (pivot_ok int L t r c R Hr Hc Nzr)|]. intros t2 (R2 & E2 & Cl).
  split; [exact R2|]. split; [exact E2|]. split; [apply (clean_sample None _ _ A' F' Cl Ds)|].
  assert (Rd : v_red (t_info t2 v) = false).
  { apply (clean_not_red _ t2 v r c A' F' Cl Lr'); [rewrite (ps_ncol t r c); exact Hc|].
    pose proof (st_cf_i int L t r c R Hr Hc Nzr) as Si. rewrite (Z.sgn_neg (cf t r c)) in Si by lia. destruct (cf (pivot_step t r c) r c); cbn in Si; lia. }
  split; [exact Rd|]. destruct (clean_live _ t2 v r A' F' Cl Lr' Rd) as (i2 & Lr2 & _). exists i2. exact Lr2.
Qed.
Definition live (t : tab) (v : Z) : Prop := (exists i, live_row t v i) \/ (exists c, live_col t v c).
Lemma sign_of_max_ok int L v fuel t : represents int L t -> live t v -> sample_ok None t ->
  wp (sign_of_max fuel t v) (fun '(t2, s) => represents int L t2 /\ evolve L t t2 /\ sample_ok None t2 /\ v_red (t_info t2 v) = false /\ smax L t2 v s).
Proof.
  intros R Lv D. pose proof (c_arr _ _ (r_core _ _ _ R)) as A. pose proof (c_flg _ _ (r_core _ _ _ R)) as F. unfold sign_of_max. destruct Lv as [(i & Lr)|(c & Lc)].
  - destruct (live_row_info t v i A F Lr) as (V & Rw & Rd & _). unfold max_unb. rewrite Rw. cbn [bind]. unfold to_row. rewrite Rw. cbn [bind].
    apply (sign_of_max_loop_ok int L v fuel t i R Lr D).
  - pose proof Lc as (Hc & Ec). destruct (f_cols _ F c) as (_ & Rd); [lia|]. rewrite Ec in Rd. rewrite (max_unb_ok t v c A) by (auto; lia). cbn [bind].
    destruct (existsb (fun i => (cf t i c <? 0) && v_nonneg (t_info t (rowv t i))) (live_rows t)) eqn:B; cbn [negb].
    + apply existsb_exists in B. destruct B as (i & Hi & Bi). apply in_live_rows in Hi. apply andb_prop in Bi. destruct Bi as (B1 & B2). apply Z.ltb_lt in B1.
      apply wp_bind. eapply wp_weak; [apply (to_row_up int L t v c R Lc D); exists i; split; [lia|auto]|].
      intros t2 (R2 & E2 & D2 & _ & i2 & Lr2). eapply wp_weak; [apply (sign_of_max_loop_ok int L v fuel t2 i2 R2 Lr2 D2)|].
      intros [t3 s] (R3 & E3 & D3 & Rd3 & S3). split; [exact R3|]. split; [eapply evolve_trans; eassumption|]. auto.
    + cbn [wp]. split; [exact R|]. split; [apply evolve_refl|]. split; [exact D|]. split; [exact Rd|]. left. split; [reflexivity|].
      destruct (point int L t c 1 1 R) as (k & p & K & Hh & Fe & _ & Pc); try lia; auto.
      * intros i Hi Nn. assert (0 <= cst t i) by (apply D; auto; discriminate). assert (0 <= cf t i c); [|lia].
        destruct (Z_lt_le_dec (cf t i c) 0) as [Neg|]; [|assumption]. exfalso.
        assert (X : existsb (fun i => (cf t i c <? 0) && v_nonneg (t_info t (rowv t i))) (live_rows t) = true); [|congruence].
        apply existsb_exists. exists i. split; [apply in_live_rows; lia|]. rewrite Nn, (proj2 (Z.ltb_lt _ _) Neg). reflexivity.
      * exists p. split; [lia|]. split; [exact Fe|]. rewrite <- Ec, Pc by lia. lia.
Qed.

(** restore_row *)
Definition infeasible (L : list (list Z)) (t : tab) (v : Z) : Prop := forall p, 0 < hd 0 p -> feas L t p -> value L p v < 0.
Lemma sample_row int L t v i : represents int L t -> live_row t v i -> sample_ok (Some v) t -> 0 <= cst t i -> sample_ok None t.
Proof.
  intros R (Hi & Ei) D C j Hj _ Nn. destruct (Nat.eq_dec j i) as [->|N]; [exact C|]. apply D; auto. rewrite <- Ei. intros E. injection E as E. apply N.
  apply (rowv_inj t); [apply R|lia|lia|exact E].
Qed.
Lemma restore_row_ok int L v : forall fuel t i, represents int L t -> live_row t v i -> sample_ok (Some v) t ->
  wp (restore_row fuel t v) (fun '(t2, s) => represents int L t2 /\ evolve L t t2 /\ v_red (t_info t2 v) = false /\ sample_ok (Some v) t2 /\
    (s < 0 -> infeasible L t2 v) /\ (0 <= s -> sample_ok None t2)).
Proof.
  induction fuel as [|fuel IH]; intros t i R Lr D; [exact I|]. cbn [restore_row].
  pose proof (c_arr _ _ (r_core _ _ _ R)) as A. pose proof (c_flg _ _ (r_core _ _ _ R)) as F. destruct (live_row_info t v i A F Lr) as (V & Rw & Rd & _).
  rewrite (live_row_of t v i A Lr). cbn [bind]. destruct (Z.ltb_spec (cst t i) 0) as [Neg|Pos].
  - destruct (find_pivot_ok t v true 1 i A F eq_refl Lr) as (o & -> & Fo). cbn [bind]. destruct o as [[r c]|].
    + apply wp_bind. destruct (Nat.eq_dec r i) as [->|Nr].
      * eapply wp_weak; [apply (up_own int L t v i c R Lr Fo D ltac:(lia))|]. intros t2 (R2 & E2 & D2 & Rd2 & Rw2 & _). rewrite Rw2. cbn [wp].
        split; [exact R2|]. split; [exact E2|]. split; [exact Rd2|]. split; [apply sample_weak; exact D2|]. split; [lia|auto].
      * eapply wp_weak; [apply (up_step int L t v i r c (Some v) R Lr Fo D (or_intror eq_refl) Nr)|]. intros t2 (R2 & E2 & D2 & Rd2 & Rw2 & i2 & Lr2). rewrite Rw2.
        eapply wp_weak; [apply (IH t2 i2 R2 Lr2 D2)|]. intros [t3 s] (R3 & E3 & S3). split; [exact R3|]. split; [eapply evolve_trans; eassumption|]. auto.
    + cbn [wp]. split; [exact R|]. split; [apply evolve_refl|]. split; [exact Rd|]. split; [exact D|]. split; [|intros H; exfalso; rewrite Z.sgn_neg in H by lia; lia].
      intros _ p Hp Fe. pose proof (at_max_le int L t v i p R Lr (found_max _ _ _ Fo) Fe). destruct Lr as (Hi & _). pose proof (a_den _ A i ltac:(lia)). nia.
  - cbn [wp]. split; [exact R|]. split; [apply evolve_refl|]. split; [exact Rd|]. split; [exact D|]. split; [intros H; exfalso; destruct (cst t i); cbn in H; lia|].
    intros _. eapply sample_row; eassumption.
Qed.
(** at_least_one *)
Lemma at_least_one_loop_ok int L v : forall fuel t i, represents int L t -> live_row t v i -> sample_ok None t ->
  wp (at_least_one_loop fuel t v) (fun '(t2, b) => represents int L t2 /\ evolve L t t2 /\ sample_ok None t2 /\ v_red (t_info t2 v) = false /\
    (b = false -> forall p, 0 < hd 0 p -> feas L t2 p -> value L p v < hd 0 p)).
Proof.
  induction fuel as [|fuel IH]; intros t i R Lr D; [exact I|]. cbn [at_least_one_loop].
  pose proof (c_arr _ _ (r_core _ _ _ R)) as A. pose proof (c_flg _ _ (r_core _ _ _ R)) as F. destruct (live_row_info t v i A F Lr) as (V & Rw & Rd & _).
  rewrite (live_row_of t v i A Lr). cbn [bind]. destruct (Z.ltb_spec (cst t i) (den t i)) as [Lt|Ge].
  - destruct (find_pivot_ok t v true 1 i A F eq_refl Lr) as (o & -> & Fo). cbn [bind]. destruct o as [[r c]|].
    + destruct (Nat.eqb_spec r i) as [->|Nr].
      * cbn [wp]. split; [exact R|]. split; [apply evolve_refl|]. split; [exact D|]. split; [exact Rd|discriminate].
      * apply wp_bind. eapply wp_weak; [apply (up_step int L t v i r c None R Lr Fo D (or_introl eq_refl) Nr)|]. intros t2 (R2 & E2 & D2 & Rd2 & Rw2 & i2 & Lr2).
        eapply wp_weak; [apply (IH t2 i2 R2 Lr2 D2)|]. intros [t3 s] (R3 & E3 & S3). split; [exact R3|]. split; [eapply evolve_trans; eassumption|]. auto.
    + cbn [wp]. split; [exact R|]. split; [apply evolve_refl|]. split; [exact D|]. split; [exact Rd|].
      intros _ p Hp Fe. pose proof (at_max_le int L t v i p R Lr (found_max _ _ _ Fo) Fe). destruct Lr as (Hi & _). pose proof (a_den _ A i ltac:(lia)). nia.
  - cbn [wp]. split; [exact R|]. split; [apply evolve_refl|]. split; [exact D|]. split; [exact Rd|discriminate].
Qed.
Lemma at_least_one_ok int L v fuel t : represents int L t -> live t v -> sample_ok None t ->
  wp (at_least_one fuel t v) (fun '(t2, b) => represents int L t2 /\ evolve L t t2 /\ sample_ok None t2 /\ v_red (t_info t2 v) = false /\
    (b = false -> forall p, 0 < hd 0 p -> feas L t2 p -> value L p v < hd 0 p)).
Proof.
  intros R Lv D. pose proof (c_arr _ _ (r_core _ _ _ R)) as A. pose proof (c_flg _ _ (r_core _ _ _ R)) as F. unfold at_least_one. destruct Lv as [(i & Lr)|(c & Lc)].
  - destruct (live_row_info t v i A F Lr) as (V & Rw & Rd & _). unfold max_unb. rewrite Rw. cbn [bind]. unfold to_row. rewrite Rw. cbn [bind].
    apply (at_least_one_loop_ok int L v fuel t i R Lr D).
  - pose proof Lc as (Hc & Ec). destruct (f_cols _ F c) as (_ & Rd); [lia|]. rewrite Ec in Rd. rewrite (max_unb_ok t v c A) by (auto; lia). cbn [bind].
    destruct (existsb (fun i => (cf t i c <? 0) && v_nonneg (t_info t (rowv t i))) (live_rows t)) eqn:B; cbn [negb].
    + apply existsb_exists in B. destruct B as (i & Hi & Bi). apply in_live_rows in Hi. apply andb_prop in Bi. destruct Bi as (B1 & B2). apply Z.ltb_lt in B1.
      apply wp_bind. eapply wp_weak; [apply (to_row_up int L t v c R Lc D); exists i; split; [lia|auto]|].
      intros t2 (R2 & E2 & D2 & _ & i2 & Lr2). eapply wp_weak; [apply (at_least_one_loop_ok int L v fuel t2 i2 R2 Lr2 D2)|].
      intros [t3 s] (R3 & E3 & D3 & Rd3 & S3). split; [exact R3|]. split; [eapply evolve_trans; eassumption|]. auto.
    + cbn [wp]. split; [exact R|]. split; [apply evolve_refl|]. split; [exact D|]. split; [exact Rd|discriminate].
Qed.
