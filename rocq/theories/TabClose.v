(** Marking redundant rows, closing rows and cutting to a hyperplane. *)
From Coq Require Import ZArith List Bool Arith Lia.
From Verif Require Import SeqModel SeqSpec SeqProofs MatModel BMapModel BMapLists BMapGauss2 BElimSpec BElimFM TabModel TabSpec TabBase TabStruct TabMark TabPivot TabStep TabSign TabMin TabKill TabAdd.
Import ListNotations.
Open Scope Z_scope.

(** the same points, under possibly more flags *)
Record step (int : bool) (L : list (list Z)) (t t' : tab) : Prop := {
  p_nvar : t_nvar t' = t_nvar t; p_ncon : t_ncon t' = t_ncon t; p_rat : t_rat t' = t_rat t; p_undo : t_undo t' = t_undo t; p_cone : t_cone t' = t_cone t; p_neq : t_neq t' = t_neq t;
  p_zero : forall u, valid t u -> v_zero (t_info t u) = true -> v_zero (t_info t' u) = true;
  p_nonneg : forall u, valid t u -> v_nonneg (t_info t u) = true -> v_nonneg (t_info t' u) = true;
  p_marked : forall u, valid t u -> v_marked (t_info t' u) = true -> v_marked (t_info t u) = true;
  p_feas : forall p, adm int p -> (feas L t' p <-> feas L t p);
  p_empty : t_empty t' = true -> t_empty t = true \/ forall p, adm int p -> ~ feas L t' p }.
Lemma step_valid int L t t' u : step int L t t' -> (valid t' u <-> valid t u).
Proof. intros S. unfold valid. rewrite (p_nvar _ _ _ _ S), (p_ncon _ _ _ _ S). reflexivity. Qed.
Lemma step_refl int L t : step int L t t. Proof. constructor; auto; try reflexivity. Qed.
Lemma step_trans int L t t1 t2 : step int L t t1 -> step int L t1 t2 -> step int L t t2.
Proof.
  intros S1 S2. constructor; try match goal with |- _ = _ => etransitivity; [apply S2|apply S1] end.
  - intros u V Z0. apply (p_zero _ _ _ _ S2); [apply (step_valid _ _ _ _ _ S1); exact V|]. apply (p_zero _ _ _ _ S1); assumption.
  - intros u V Z0. apply (p_nonneg _ _ _ _ S2); [apply (step_valid _ _ _ _ _ S1); exact V|]. apply (p_nonneg _ _ _ _ S1); assumption.
  - intros u V Z0. apply (p_marked _ _ _ _ S1); [exact V|]. apply (p_marked _ _ _ _ S2); [apply (step_valid _ _ _ _ _ S1); exact V|exact Z0].
  - intros p Ad. rewrite (p_feas _ _ _ _ S2 p Ad). apply S1. exact Ad.
  - intros E. destruct (p_empty _ _ _ _ S2 E) as [E1|N]; [|right; exact N]. destruct (p_empty _ _ _ _ S1 E1) as [E0|N]; [left; exact E0|].
    right. intros p Ad Fe. apply (N p Ad). apply (p_feas _ _ _ _ S2 p Ad). exact Fe.
Qed.
Lemma evolve_step int L t t' : evolve L t t' -> step int L t t'.
Proof.
  intros E. constructor; try apply E.
  - intros u _ Z0. destruct (e_keep _ _ _ E u) as (-> & _). exact Z0.
  - intros u _ Z0. apply (e_grow _ _ _ E u). exact Z0.
  - intros u _ Z0. destruct (e_keep _ _ _ E u) as (_ & _ & <- & _). exact Z0.
  - intros p (Hp & _). apply E. exact Hp.
  - intros H. left. rewrite <- (e_empty _ _ _ E). exact H.
Qed.

(** ** marking a row redundant *)
Lemma swept_cols L t t' p : arranged t -> arranged t' -> swept t t' -> ok_cols L t' p -> ok_cols L t p.
Proof.
  intros A0 A S O. destruct O as [O1 O2 O3 O4]. unfold ncol, colv in *. rewrite (s_cv _ _ S), (s_nvar _ _ S), (s_dead _ _ S) in *.
  constructor; auto.
  - intros v V G. apply O2; [apply (swept_valid _ _ _ S); exact V|apply (swept_gone _ _ _ S V); exact G].
  - intros c Hc N. apply O4; [exact Hc|]. destruct (a_col _ A0 c Hc) as (Vc & _ & Rc). fold (colv t c). rewrite (s_col _ _ S _ Vc Rc). exact N.
Qed.
Lemma marked_live t v t' u : arranged t -> flagged t -> marked t v t' -> (exists k, live_row t' u k) -> u <> v /\ exists k, live_row t u k.
Proof.
  intros A F (A' & F' & S & Rd & M & _) (k & Lr). destruct (live_row_info t' u k A' F' Lr) as (V' & Rw & Rd' & _). pose proof (proj1 (swept_valid _ _ _ S) V') as V.
  assert (N : u <> v) by (intros ->; congruence). split; [exact N|]. destruct (s_keep _ _ S u) as (_ & _ & Er & _). destruct (M u N) as (E & _). apply live_row_at; auto; congruence.
Qed.
Lemma mark_step int L t v i : represents int L t -> live_row t v i -> v_nonneg (t_info t v) = true -> (forall p, adm int p -> ok_cols L t p -> 0 <= value L p v) ->
  wp (mark_redundant t i) (fun '(t', _) => represents int L t' /\ step int L t t' /\ (forall ex, sample_ok ex t -> sample_ok ex t') /\ v_red (t_info t' v) = true).
Proof.
  intros R Lr Nn J. pose proof (r_core _ _ _ R) as C. pose proof (c_arr _ _ C) as A. pose proof (c_flg _ _ C) as F. pose proof Lr as (Hi & Ei). destruct (live_row_info t v i A F Lr) as (V & Rw & Rd0 & _).
  eapply wp_weak; [apply (mark_ok t i A F Hi)|]. intros [t' b] (M & _). rewrite Ei in M. pose proof M as (A' & F' & S & Rd & Mu & Nv). rewrite Nn in Nv. cbn [orb] in Nv.
  assert (Nu : forall u, v_nonneg (t_info t' u) = v_nonneg (t_info t u)) by (intros u; destruct (Z.eq_dec u v) as [->|N]; [congruence|apply (Mu u N)]).
  assert (Fe : forall p, adm int p -> feas L t' p -> feas L t p).
  { intros p Ad Fe. pose proof (swept_cols L t t' p A A' S (feas_cols _ _ _ A' F' Fe)) as O. destruct Fe as (Lp & H). split; [apply (oc_len _ _ _ O)|]. intros u Vu.
    destruct (H u (proj2 (swept_valid _ _ _ S) Vu)) as (H1 & H2). destruct (s_keep _ _ S u) as (E & _). rewrite E in H1. split; [exact H1|]. intros N1 R1.
    destruct (Z.eq_dec u v) as [->|N]; [apply J; assumption|]. destruct (Mu u N) as (E1 & E2 & _). apply H2; congruence. }
  split; [|split; [|split; [|exact Rd]]].
  - constructor.
    + eapply swept_core; eauto.
    + intros p Lp H u Vu Zu. rewrite (s_nvar _ _ S) in Lp. destruct (s_keep _ _ S u) as (E & _). rewrite E in Zu. apply (r_zero _ _ _ R p Lp); [|apply (swept_valid _ _ _ S); exact Vu|exact Zu].
      intros x Vx Zx Rx. destruct (s_keep _ _ S x) as (E1 & _ & E2 & _). apply H; [apply (swept_valid _ _ _ S); exact Vx|congruence|congruence].
    + intros p Ad Fp u Vu Nnu. apply (r_imp _ _ _ R p Ad (Fe p Ad Fp)); [apply (swept_valid _ _ _ S); exact Vu|]. rewrite <- Nu. exact Nnu.
  - constructor; try apply S.
    + intros u _ Z0. destruct (s_keep _ _ S u) as (-> & _). exact Z0.
    + intros u _ Z0. rewrite Nu. exact Z0.
    + intros u _ Z0. destruct (s_keep _ _ S u) as (_ & _ & _ & <- & _). exact Z0.
    + intros p Ad. split; [apply Fe; exact Ad|]. apply swept_feas. exact S.
    + intros E. left. rewrite <- (s_empty _ _ S). exact E.
  - intros ex D. apply (swept_sample ex t t'); assumption.
Qed.

(** ** mark_empty *)
Lemma mark_empty_w t : exists l, mark_empty t = w_empty (w_log t l) true.
Proof.
  unfold mark_empty. destruct (negb (t_empty t) && t_undo t); [destruct (push_w t U_empty) as (l & ->); exists l; reflexivity|]. exists (t_log t). destruct t; reflexivity.
Qed.
Lemma represents_empty int L t l b : represents int L t -> represents int L (w_empty (w_log t l) b).
Proof. intros [[A F Ln Wd Rl In] R2 R3]. constructor; [constructor|..]; try assumption; [destruct A|destruct F]; constructor; assumption. Qed.
Lemma sample_empty ex t l b : sample_ok ex t -> sample_ok ex (w_empty (w_log t l) b). Proof. intros D. exact D. Qed.
Lemma step_empty int L t l : (forall p, adm int p -> ~ feas L t p) -> step int L t (w_empty (w_log t l) true).
Proof. intros N. constructor; auto; try reflexivity. Qed.

(** ** closing a row *)
Lemma nonneg_col_neg t c : flagged t -> arranged t -> (c < ncol t)%nat -> v_nonneg (t_info t (colv t c)) = true -> colv t c < 0.
Proof.
  intros F A Hc Nn. destruct (Z_lt_le_dec (colv t c) 0) as [|P]; [assumption|]. exfalso. destruct (a_col _ A c Hc) as (V & _). destruct (f_var _ F _ V P) as (_ & X). destruct (f_cols _ F c Hc) as (_ & Y). rewrite X in Y by exact Nn. discriminate.
Qed.
Lemma killed_live Q t t' v i : killed Q t t' -> live_row t v i -> live_row t' v i.
Proof. intros K (H & E). unfold live_row, nrow, rowv. rewrite (kl_rv _ _ _ K), (kl_red _ _ _ K). split; assumption. Qed.
Lemma close_loop_ok L v i : forall k j t, core L t -> live_row t v i -> (t_dead t <= j <= ncol t)%nat -> k = (ncol t - j)%nat -> (forall c, (t_dead t <= c < j)%nat -> cf t i c = 0) -> at_max t i ->
  wp (close_row_loop k j t v) (fun t' => core L t' /\ killed (fun c => cf t i c <> 0) t t' /\ forall c, (t_dead t' <= c < ncol t')%nat -> cf t' i c = 0).
Proof.
  induction k as [|k IH]; intros j t C Lr Hj Ek Z0 M; cbn [close_row_loop].
  - cbn [wp]. split; [exact C|]. split; [apply killed_refl|]. intros c Hc. apply Z0. lia.
  - pose proof (c_arr _ _ C) as A. pose proof (c_flg _ _ C) as F. rewrite (live_row_of t v i A Lr). cbn [bind]. destruct (Z.eqb_spec (cf t i j) 0) as [E|N].
    + apply IH; auto; try lia. intros c Hc. destruct (Nat.eq_dec c j) as [->|]; [exact E|]. apply Z0. lia.
    + destruct (M j ltac:(lia) N) as (Neg & Nn). rewrite (proj2 (Z.ltb_ge 0 (cf t i j))) by lia. apply wp_bind.
      assert (Ng : colv t j < 0) by (apply nonneg_col_neg; auto; lia).
      eapply wp_weak; [apply (kill_ok L t j C ltac:(lia) Ng)|]. intros [t1 b] (C1 & K1 & Mv & Zj & ->).
      pose proof (killed_live _ _ _ _ _ K1 Lr) as Lr1. pose proof Lr as (Hi & Ei).
      assert (M1 : at_max t1 i).
      { intros c' Hc' Nz. destruct (kl_col _ _ _ K1 c' Hc') as (c & Hc & E1 & E2). rewrite E2 in * by lia. rewrite <- E1. destruct (kl_flag _ _ _ K1 (colv t c)) as (_ & -> & _). apply M; assumption. }
      assert (X : wp (close_row_loop k (if negb (t_undo t) then j else S j) t1 v) (fun t' => core L t' /\ killed (fun c => cf t1 i c <> 0) t1 t' /\ forall c, (t_dead t' <= c < ncol t')%nat -> cf t' i c = 0)).
      { unfold moved in Mv. destruct (t_undo t); cbn [negb]; destruct Mv as (E1 & E2 & E3).
        - apply IH; auto; try lia. intros c Hc. rewrite E2 in Hc. destruct (E3 c) as (_ & E4); [lia|]. rewrite E4 by lia. destruct (Nat.eqb_spec c j) as [->|]; apply Z0; lia.
        - apply IH; auto; try lia. intros c Hc. rewrite E2 in Hc. destruct (E3 c) as (_ & E4); [lia|]. rewrite E4 by lia. rewrite (proj2 (Nat.eqb_neq c j)) by lia. apply Z0. lia. }
      eapply wp_weak; [exact X|]. intros t2 (C2 & K2 & Z2). split; [exact C2|]. split; [|exact Z2].
      apply (killed_trans _ (fun c => cf t1 i c <> 0) t t1 t2); [|exact K2|].
      * destruct K1 as [K_1 K_2 K_3 K_4 K_5 K_6 K_7 K_8 K_9 K_10 K_11 K_12 K_13 K_14 K_15 K_16 K_17 K_18]. constructor; auto. intros u Zu. destruct (K_18 u Zu) as [H|(c & Hc & Ec & ->)]; [left; exact H|right; exists j; auto].
      * intros c c' Hc Hc' E Nz. rewrite <- E by lia. exact Nz.
Qed.
(** the columns of a row that is at its maximum 0 are zero if the row is *)
Lemma dot_le0_zero a : forall b, (forall k, (k < length b)%nat -> nth k a 0 * nth k b 0 <= 0) -> dot a b = 0 -> forall k, (k < length b)%nat -> nth k a 0 * nth k b 0 = 0.
Proof.
  induction a as [|x a IH]; intros [|y b] H E k Hk; cbn [length] in Hk; try lia; [destruct k; cbn; lia|]. cbn [dot] in E.
  pose proof (H O ltac:(cbn; lia)) as H0. cbn [nth] in H0. assert (H1 : forall j, (j < length b)%nat -> nth j a 0 * nth j b 0 <= 0) by (intros j Hj; apply (H (S j)); cbn; lia).
  pose proof (dot_le0 a b H1). destruct k; cbn [nth]; [lia|]. apply IH; [exact H1|lia|lia].
Qed.
Lemma max_zero_cols L t v i p c : core L t -> live_row t v i -> at_max t i -> cst t i = 0 -> feas L t p -> value L p v = 0 -> (t_dead t <= c < ncol t)%nat -> cf t i c <> 0 -> value L p (colv t c) = 0.
Proof.
  intros C (Hi & Ei) M C0 Fe Z0 Hc Nz. pose proof (c_arr _ _ C) as A. pose proof (c_flg _ _ C) as F. pose proof (feas_cols _ _ _ A F Fe) as O.
  pose proof (row_expand L t p i A (c_rel _ _ C) (oc_len _ _ _ O) (oc_gone _ _ _ O) ltac:(lia)) as E. rewrite Ei, Z0, C0 in E.
  assert (D0 : dot (skipn 2 (nth i (t_rows t) [])) (map (value L p) (t_cv t)) = 0) by lia.
  assert (X : nth c (skipn 2 (nth i (t_rows t) [])) 0 * nth c (map (value L p) (t_cv t)) 0 = 0).
  { apply dot_le0_zero; [|exact D0|rewrite map_length; apply Hc]. intros k Hk. rewrite map_length in Hk. rewrite nth_skipn2, nth_vals by exact Hk.
    destruct (Nat.lt_ge_cases k (t_dead t)) as [Hd|Hd]; [rewrite (oc_dead _ _ _ O k Hk Hd); lia|].
    destruct (Z.eq_dec (cf t i k) 0) as [->|N]; [lia|]. destruct (M k) as (P & Q); [split; assumption|exact N|]. pose proof (oc_nonneg _ _ _ O k Hk Q). nia. }
  rewrite nth_skipn2, nth_vals in X by apply Hc. nia.
Qed.
(** a row without live columns *)
Lemma row_const L t i p : core L t -> (i < nrow t)%nat -> (forall c, (t_dead t <= c < ncol t)%nat -> cf t i c = 0) -> length p = (1 + t_nvar t)%nat ->
  (forall v, valid t v -> v_zero (t_info t v) = true -> v_row (t_info t v) = false -> value L p v = 0) -> den t i * value L p (rowv t i) = cst t i * hd 0 p.
Proof.
  intros C Hi Z0 Lp H. pose proof (c_arr _ _ C) as A. pose proof (c_flg _ _ C) as F.
  rewrite (row_expand L t p i A (c_rel _ _ C) Lp); [|intros v V (G1 & G2); apply H; auto; pose proof (f_gone _ F v V G1) as X; rewrite G2 in X; apply X|exact Hi].
  assert (E : dot (skipn 2 (nth i (t_rows t) [])) (map (value L p) (t_cv t)) = 0); [|lia].
  assert (B : forall k, (k < length (map (value L p) (t_cv t)))%nat -> nth k (skipn 2 (nth i (t_rows t) [])) 0 * nth k (map (value L p) (t_cv t)) 0 = 0).
  { intros k Hk. rewrite map_length in Hk. rewrite nth_skipn2, nth_vals by exact Hk. destruct (Nat.lt_ge_cases k (t_dead t)) as [Hd|Hd]; [|rewrite Z0 by (unfold ncol; lia); lia].
    destruct (a_col _ A k Hk) as (V & _ & R). rewrite H; [lia|exact V| |exact R]. destruct (f_cols _ F k Hk) as (-> & _). apply Nat.ltb_lt. exact Hd. }
  pose proof (dot_le0 _ _ (fun k Hk => Z.eq_le_incl _ _ (B k Hk))). pose proof (dot_ge0 (skipn 2 (nth i (t_rows t) [])) _ (fun k Hk => Z.eq_le_incl _ _ (eq_sym (B k Hk)))). lia.
Qed.
Lemma feas_zero_cols L t p : feas L t p -> forall v, valid t v -> v_zero (t_info t v) = true -> v_row (t_info t v) = false -> value L p v = 0.
Proof. intros (_ & H) v V Z0 _. apply (H v V). exact Z0. Qed.
(** tab_is_manifestly_empty *)
Lemma first_live_none t i : first_live t i = None -> forall c, (t_dead t <= c < ncol t)%nat -> cf t i c = 0.
Proof.
  intros E c Hc. unfold first_live in E. pose proof (find_none _ _ E c) as H. assert (Hin : List.In c (live_cols t)) by (apply in_live_cols; lia). specialize (H Hin). cbn in H. apply negb_false_iff, Z.eqb_eq in H. exact H.
Qed.
Lemma first_live_some t i c : first_live t i = Some c -> (t_dead t <= c < ncol t)%nat /\ cf t i c <> 0.
Proof.
  intros E. unfold first_live in E. apply find_some in E. destruct E as (H1 & H2). apply in_live_cols in H1. apply negb_true_iff, Z.eqb_neq in H2. split; [lia|exact H2].
Qed.
Lemma manifestly_empty_ok int L t : core L t -> (t_rat t = false -> int = true) -> manifestly_empty t = true -> t_empty t = true \/ forall p, adm int p -> ~ feas L t p.
Proof.
  intros C Hr M. unfold manifestly_empty in M. destruct (t_empty t); [left; reflexivity|right]. destruct (t_rat t); [discriminate|]. specialize (Hr eq_refl).
  apply existsb_exists in M. destruct M as (i & Hi & M). apply in_seq in Hi. apply andb_prop in M. destruct M as (M1 & M2). destruct (v_idx (t_info t (Z.of_nat i))) as [r|] eqn:E; [|discriminate].
  pose proof (c_arr _ _ C) as A. destruct (at_row t (Z.of_nat i) r A) as (Hr1 & Er); [unfold valid; lia|exact E|exact M1|].
  unfold row_non_integral in M2. destruct (first_live t r) eqn:Fl; [discriminate|]. intros p (Hp & H1) Fe. specialize (H1 Hr).
  pose proof (row_const L t r p C Hr1 (first_live_none _ _ Fl) (proj1 Fe) (feas_zero_cols _ _ _ Fe)) as X. rewrite H1, Z.mul_1_r in X. pose proof (a_den _ A r Hr1).
  apply negb_true_iff, Z.eqb_neq in M2. apply M2. rewrite <- X, Z.mul_comm. apply Z_mod_mult.
Qed.

Lemma close_core L t v : core L t -> (exists i, live_row t v i) -> v < 0 -> core L (upd t v (vs_zero true)).
Proof.
  intros C (i & Lr) Ng. pose proof (c_arr _ _ C) as A. pose proof (c_flg _ _ C) as F. destruct (live_row_info t v i A F Lr) as (V & Rw & Rd & I).
  assert (S1 : shape t (upd t v (vs_zero true))) by (apply shape_upd; intros; split; reflexivity).
  assert (I1 : forall u, t_info (upd t v (vs_zero true)) u = if u =? v then vs_zero true (t_info t u) else t_info t u) by (intros u; cbn; destruct (Z.eqb_spec u v) as [->|]; reflexivity).
  assert (Nc : forall c, (c < ncol t)%nat -> colv t c <> v) by (intros c Hc <-; destruct (a_col _ A c Hc) as (_ & _ & X); congruence).
  constructor; [apply (arranged_shape _ _ S1 A)| |apply C|apply C|apply (related_shape _ _ S1), C|apply (independent_shape _ _ S1), C].
  constructor; try apply F.
  - intros k Hk. rewrite I1. change (rowv (upd t v (vs_zero true)) k) with (rowv t k). destruct (rowv t k =? v); apply (f_rows _ F k Hk).
  - intros c Hc. rewrite I1. change (colv (upd t v (vs_zero true)) c) with (colv t c). rewrite (proj2 (Z.eqb_neq _ _)) by (apply Nc; exact Hc). apply (f_cols _ F c Hc).
  - intros u Vu Iu. rewrite I1 in *. destruct (Z.eqb_spec u v) as [->|]; [|apply (f_gone _ F u Vu Iu)]. cbn in *. rewrite Rw. destruct (f_gone _ F v Vu Iu) as (X & Y). rewrite Rw in Y. auto.
  - intros u Vu Pu. rewrite I1. rewrite (proj2 (Z.eqb_neq _ _)) by lia. apply (f_var _ F u Vu Pu).
Qed.
Lemma core_log L t l : core L t -> core L (w_log t l).
Proof. intros [A F Ln Wd R I]. constructor; try assumption; [destruct A|destruct F]; constructor; assumption. Qed.

(** a tableau in which only the row [i] of [v], which is marked zero, is not yet
    marked redundant *)
Record almost (int : bool) (L : list (list Z)) (v : Z) (i : nat) (t : tab) : Prop := {
  al_core : core L t; al_row : live_row t v i; al_cf : forall c, (t_dead t <= c < ncol t)%nat -> cf t i c = 0; al_cst : cst t i = 0; al_zv : v_zero (t_info t v) = true;
  al_zero : forall p, length p = (1 + t_nvar t)%nat ->
    (forall v, valid t v -> v_zero (t_info t v) = true -> v_row (t_info t v) = false -> value L p v = 0) ->
    forall v, valid t v -> v_zero (t_info t v) = true -> value L p v = 0;
  al_imp : forall p, adm int p -> feas L t p -> forall v, valid t v -> v_nonneg (t_info t v) = true -> 0 <= value L p v }.
(** what closing the row of [v] does to the points *)
Record shut (L : list (list Z)) (t : tab) (v : Z) (t' : tab) : Prop := {
  h_nvar : t_nvar t' = t_nvar t; h_ncon : t_ncon t' = t_ncon t; h_rat : t_rat t' = t_rat t; h_undo : t_undo t' = t_undo t; h_cone : t_cone t' = t_cone t; h_neq : t_neq t' = t_neq t; h_empty : t_empty t' = t_empty t;
  h_flag : forall u, v_red (t_info t' u) = v_red (t_info t u) /\ v_nonneg (t_info t' u) = v_nonneg (t_info t u) /\ v_row (t_info t' u) = v_row (t_info t u) /\ v_marked (t_info t' u) = v_marked (t_info t u);
  h_frozen : forall u, v_frozen (t_info t' u) = v_frozen (t_info t u);
  h_zero : forall u, v_zero (t_info t u) = true -> v_zero (t_info t' u) = true;
  h_self : v_zero (t_info t' v) = true;
  h_feas : forall p, feas L t' p <-> feas L t p /\ value L p v = 0;
  h_sample : forall ex, sample_ok ex t -> sample_ok ex t' }.
Lemma shut_ok int L t v i : represents int L t -> live_row t v i -> at_max t i -> cst t i = 0 -> v_nonneg (t_info t v) = true ->
  forall l, let t1 := w_log (upd t v (vs_zero true)) l in
  wp (close_row_loop (ncol t1 - t_dead t1) (t_dead t1) t1 v) (fun t2 => almost int L v i t2 /\ shut L t v t2).
Proof.
  intros R Lr M C0 Nn l t1. pose proof (r_core _ _ _ R) as C. pose proof (c_arr _ _ C) as A. pose proof (c_flg _ _ C) as F. destruct (live_row_info t v i A F Lr) as (V & Rw & Rd & Ix).
  assert (Ng : v < 0). { destruct (Z_lt_le_dec v 0) as [|P]; [assumption|]. exfalso. destruct (f_var _ F v V P) as (_ & X). rewrite X in Rd by exact Nn. discriminate. }
  assert (C1 : core L t1) by (apply core_log, close_core; eauto).
  assert (I1 : forall u, t_info t1 u = if u =? v then vs_zero true (t_info t u) else t_info t u) by (intros u; cbn; destruct (Z.eqb_spec u v) as [->|]; reflexivity).
  assert (M1 : at_max t1 i). { intros c Hc Nz. destruct (M c Hc Nz) as (P & Q). split; [exact P|]. rewrite I1. change (colv t1 c) with (colv t c). destruct (colv t c =? v); exact Q. }
  eapply wp_weak; [apply (close_loop_ok L v i _ _ t1 C1 Lr); [split; [lia|apply (f_dead _ F)]|reflexivity|intros c Hc; lia|exact M1]|].
  intros t2 (C2 & K & Z2). change (fun c => cf t1 i c <> 0) with (fun c => cf t i c <> 0) in K. pose proof (killed_live _ _ _ _ _ K Lr) as Lr2.
  pose proof (c_arr _ _ C2) as A2. pose proof (c_flg _ _ C2) as F2.
  assert (Fl : forall u, v_red (t_info t2 u) = v_red (t_info t u) /\ v_nonneg (t_info t2 u) = v_nonneg (t_info t u) /\ v_row (t_info t2 u) = v_row (t_info t u) /\ v_marked (t_info t2 u) = v_marked (t_info t u)).
  { intros u. destruct (kl_flag _ _ _ K u) as (-> & -> & _ & -> & -> & _). rewrite I1. destruct (u =? v); auto. }
  assert (Fz : forall u, v_frozen (t_info t2 u) = v_frozen (t_info t u)) by (intros u; destruct (kl_flag _ _ _ K u) as (_ & _ & -> & _); rewrite I1; destruct (u =? v); reflexivity).
  assert (Zm : forall u, v_zero (t_info t u) = true -> v_zero (t_info t2 u) = true).
  { intros u Zu. apply (kl_zero _ _ _ K). rewrite I1. destruct (u =? v); [reflexivity|exact Zu]. }
  assert (Zv : v_zero (t_info t2 v) = true) by (apply (kl_zero _ _ _ K); rewrite I1, Z.eqb_refl; reflexivity).
  assert (Zn : forall u, v_zero (t_info t2 u) = true -> u = v \/ v_zero (t_info t u) = true \/ exists c, (t_dead t <= c < ncol t)%nat /\ colv t c = u /\ cf t i c <> 0).
  { intros u Zu. destruct (kl_new _ _ _ K u Zu) as [H|H]; [|right; right; exact H]. rewrite I1 in H. destruct (Z.eqb_spec u v) as [->|]; [left; reflexivity|right; left; exact H]. }
  assert (Vd : forall u, valid t2 u <-> valid t u) by (intros u; apply (killed_valid _ t1 t2 u K)).
  assert (Nv : t_nvar t2 = t_nvar t) by apply K.
  assert (Ed : forall k, (k < nrow t)%nat -> den t2 k = den t k /\ cst t2 k = cst t k) by apply K.
  assert (Er : t_rv t2 = t_rv t) by apply K. assert (Nr : nrow t2 = nrow t) by (unfold nrow; rewrite Er; reflexivity). assert (Erd : t_red t2 = t_red t) by apply K.
  pose proof Lr as (Hi & Ei).
  assert (Fe : forall p, feas L t2 p <-> feas L t p /\ value L p v = 0).
  { intros p. split.
    - intros (Lp & H). split; [split; [congruence|]; intros u Vu|apply (H v); [apply Vd; exact V|exact Zv]]. destruct (H u (proj2 (Vd u) Vu)) as (H1 & H2). destruct (Fl u) as (E1 & E2 & _). rewrite E1, E2 in H2. auto.
    - intros (Fe & Z0). pose proof Fe as (Lp & H). split; [congruence|]. intros u Vu. apply Vd in Vu. destruct (H u Vu) as (H1 & H2). destruct (Fl u) as (E1 & E2 & _). rewrite E1, E2. split; [|exact H2].
      intros Zu. destruct (Zn u Zu) as [->|[H3|(c & Hc & <- & Nz)]]; [exact Z0|auto|]. eapply max_zero_cols; eassumption. }
  split.
  - constructor; auto.
    + rewrite (proj2 (Ed i ltac:(lia))). exact C0.
    + intros p Lp H u Vu Zu. destruct (Zn u Zu) as [->|[H3|(c & Hc & Ec & Nz)]].
      * pose proof (row_const L t2 i p C2 ltac:(lia) Z2 Lp H) as X. destruct Lr2 as (_ & E2). rewrite E2 in X. rewrite (proj2 (Ed i ltac:(lia))), C0 in X. pose proof (a_den _ A2 i ltac:(lia)). nia.
      * apply (r_zero _ _ _ R p); [congruence| |apply Vd; exact Vu|exact H3]. intros x Vx Zx Rx. apply H; [apply Vd; exact Vx|auto|]. destruct (Fl x) as (_ & _ & -> & _). exact Rx.
      * apply H; [exact Vu|exact Zu|]. destruct (Fl u) as (_ & _ & -> & _). rewrite <- Ec. apply (a_col _ A c). lia.
    + intros p Ad Fp u Vu Nu. apply Fe in Fp. destruct Fp as (Fp & _). apply (r_imp _ _ _ R p Ad Fp u); [apply Vd; exact Vu|]. destruct (Fl u) as (_ & <- & _). exact Nu.
  - constructor; auto; try apply K.
    intros ex D k Hk Nx Nk. rewrite Nr, Erd in Hk. unfold rowv in Nx, Nk. rewrite Er in Nx, Nk. fold (rowv t k) in Nx, Nk. destruct (Fl (rowv t k)) as (_ & E2 & _). rewrite E2 in Nk. rewrite (proj2 (Ed k ltac:(lia))). apply D; auto.
Qed.
Lemma almost_mark int L v i t : almost int L v i t -> v_nonneg (t_info t v) = true ->
  wp (mark_redundant t i) (fun '(t', _) => represents int L t' /\ swept t t' /\ (forall p, feas L t' p <-> feas L t p) /\ (forall ex, sample_ok ex t -> sample_ok ex t') /\ (forall u, v_nonneg (t_info t' u) = v_nonneg (t_info t u))).
Proof.
  intros [C Lr Zc C0 Zv Zr Im] Nn. pose proof (c_arr _ _ C) as A. pose proof (c_flg _ _ C) as F. pose proof Lr as (Hi & Ei).
  eapply wp_weak; [apply (mark_ok t i A F Hi)|]. intros [t' b] (M & _). rewrite Ei in M. pose proof M as (A' & F' & S & Rd & Mu & Nv). rewrite Nn in Nv. cbn [orb] in Nv.
  assert (Nu : forall u, v_nonneg (t_info t' u) = v_nonneg (t_info t u)) by (intros u; destruct (Z.eq_dec u v) as [->|N]; [congruence|apply (Mu u N)]).
  assert (Fe : forall p, feas L t' p <-> feas L t p).
  { intros p. split; [|apply swept_feas; exact S]. intros (Lp & H). split; [rewrite <- (s_nvar _ _ S); exact Lp|]. intros u Vu.
    destruct (H u (proj2 (swept_valid _ _ _ S) Vu)) as (H1 & H2). destruct (s_keep _ _ S u) as (E & _). rewrite E in H1. split; [exact H1|]. intros N1 R1.
    destruct (Z.eq_dec u v) as [->|N]; [rewrite (H1 Zv); lia|]. destruct (Mu u N) as (E1 & E2 & _). apply H2; congruence. }
  split; [|split; [exact S|split; [exact Fe|split; [intros ex; apply swept_sample; assumption|exact Nu]]]]. constructor.
  - eapply swept_core; eauto.
  - intros p Lp H u Vu Zu. rewrite (s_nvar _ _ S) in Lp. destruct (s_keep _ _ S u) as (E & _). rewrite E in Zu. apply (Zr p Lp); [|apply (swept_valid _ _ _ S); exact Vu|exact Zu].
    intros x Vx Zx Rx. destruct (s_keep _ _ S x) as (E1 & _ & E2 & _). apply H; [apply (swept_valid _ _ _ S); exact Vx|congruence|congruence].
  - intros p Ad Fp u Vu Nnu. apply (Im p Ad (proj1 (Fe p) Fp)); [apply (swept_valid _ _ _ S); exact Vu|]. rewrite <- Nu. exact Nnu.
Qed.
Lemma close_row_ok j int L t v i : represents j L t -> live_row t v i -> at_max t i -> cst t i = 0 -> v_nonneg (t_info t v) = true -> (t_rat t = false -> int = true) ->
  wp (close_row t v false) (fun t' => represents j L t' /\ step int L t t' /\ (forall ex, sample_ok ex t -> sample_ok ex t')).
Proof.
  intros R Lr M C0 Nn Hr. pose proof (r_core _ _ _ R) as C. pose proof (c_arr _ _ C) as A. pose proof (c_flg _ _ C) as F. destruct (live_row_info t v i A F Lr) as (V & Rw & Rd & Ix).
  unfold close_row. rewrite Nn. cbn [negb andb].
  assert (P : exists l, (if t_undo (upd t v (vs_zero true)) then push_var (upd t v (vs_zero true)) U_zero v else Ok (upd t v (vs_zero true))) = Ok (w_log (upd t v (vs_zero true)) l)).
  { assert (S1 : shape t (upd t v (vs_zero true))) by (apply shape_upd; intros; split; reflexivity). destruct (t_undo (upd t v (vs_zero true))).
    - rewrite push_var_eq; [|apply (arranged_shape _ _ S1 A)|exact V|destruct (sh_info _ _ S1 v) as (-> & _); congruence]. destruct (push_w (upd t v (vs_zero true)) (U_zero v)) as (l & ->). exists l. reflexivity.
    - exists (t_log t). destruct t; reflexivity. }
  destruct P as (l & ->). cbn [bind]. apply wp_bind.
  eapply wp_weak; [apply (shut_ok j L t v i R Lr M C0 Nn l)|]. intros t2 (Al & Sh).
  rewrite (live_row_of t2 v i); [|apply (al_core _ _ _ _ _ Al)|apply (al_row _ _ _ _ _ Al)]. cbn [bind]. apply wp_bind, wp_bind.
  destruct (h_flag _ _ _ _ Sh v) as (_ & N2 & _).
  eapply wp_weak; [apply (almost_mark j L v i t2 Al); congruence|]. intros [t3 b] (R3 & S3 & Fe3 & D3 & Nn3). cbn [wp].
  assert (Z0 : forall p, adm int p -> feas L t p -> value L p v = 0).
  { intros p (Hp & _) Fe. pose proof (at_max_le j L t v i p R Lr M Fe) as X. rewrite C0 in X. destruct Lr as (Hi & _). pose proof (a_den _ A i ltac:(lia)).
    destruct Fe as (_ & Q). destruct (Q v V) as (_ & Y). specialize (Y Nn Rd). nia. }
  assert (St : step int L t t3).
  { constructor; try match goal with |- _ = _ => etransitivity; [apply S3|apply Sh] end.
    - intros u _ Zu. destruct (s_keep _ _ S3 u) as (-> & _). apply (h_zero _ _ _ _ Sh). exact Zu.
    - intros u _ Zu. rewrite Nn3. destruct (h_flag _ _ _ _ Sh u) as (_ & -> & _). exact Zu.
    - intros u _ Zu. destruct (s_keep _ _ S3 u) as (_ & _ & _ & E & _). destruct (h_flag _ _ _ _ Sh u) as (_ & _ & _ & E1). congruence.
    - intros p Ad. rewrite Fe3, (h_feas _ _ _ _ Sh). split; [tauto|]. intros Fe. split; [exact Fe|]. apply Z0; assumption.
    - intros E. left. rewrite <- (h_empty _ _ _ _ Sh), <- (s_empty _ _ S3). exact E. }
  assert (D : forall ex, sample_ok ex t -> sample_ok ex t3) by (intros ex D; apply D3, (h_sample _ _ _ _ Sh), D).
  destruct (manifestly_empty t3) eqn:Me; [|auto].
  destruct (mark_empty_w t3) as (l3 & ->). split; [apply represents_empty; exact R3|]. split; [|exact D].
  destruct (manifestly_empty_ok int L t3 (r_core _ _ _ R3)) as [E|N]; [rewrite (p_rat _ _ _ _ St); exact Hr|exact Me| |].
  - destruct (p_empty _ _ _ _ St E) as [E0|N].
    + destruct St as [S_1 S_2 S_3 S_4 S_5 S_6 S_7 S_8 S_9 S_10]. constructor; auto.
    + eapply step_trans; [exact St|]. apply step_empty. exact N.
  - eapply step_trans; [exact St|]. apply step_empty. exact N.
Qed.
