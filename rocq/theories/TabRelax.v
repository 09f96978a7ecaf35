(** Relaxing an inequality of a tableau by one. *)
From Coq Require Import ZArith List Bool Arith Lia.
From Verif Require Import SeqModel SeqSpec SeqProofs MatModel BMapModel BMapLists BMapGauss2 BElimSpec BElimFM TabModel TabSpec TabBase TabStruct TabMark TabPivot TabStep TabSign TabMin TabKill TabAdd TabClose TabCut TabBuild TabMap TabRelaxModel.
Import ListNotations.
Open Scope Z_scope.

(** the constraints after constraint [c] has been relaxed by one: its constant
    term is increased by one *)
Definition relaxed (L : list (list Z)) (c : nat) : list (list Z) := lset L c (zupd (nth c L []) 0 (1 + nth 0 (nth c L []) 0)).
Lemma nth0 (p : list Z) : nth 0 p 0 = hd 0 p. Proof. destruct p; reflexivity. Qed.
Lemma relaxed_value L c p u : (c < length L)%nat -> (1 <= length (nth c L []))%nat -> value (relaxed L c) p u = if u =? con c then value L p u + hd 0 p else value L p u.
Proof.
  intros Hc Hl. unfold value, relaxed. destruct (Z.ltb_spec u 0) as [N|N].
  - rewrite nth_lset by exact Hc. destruct (Nat.eqb_spec (Z.to_nat (-1 - u)) c) as [E|E].
    + rewrite (proj2 (Z.eqb_eq u (con c))) by (unfold con; lia). rewrite E, dot_zupd by lia. rewrite nth0. ring_simplify. rewrite nth0. lia.
    + rewrite (proj2 (Z.eqb_neq u (con c))) by (unfold con; lia). reflexivity.
  - rewrite (proj2 (Z.eqb_neq u (con c))) by (unfold con; lia). reflexivity.
Qed.

Lemma core_value L c t (C : core L t) (Hc : (c < t_ncon t)%nat) p u : value (relaxed L c) p u = if u =? con c then value L p u + hd 0 p else value L p u.
Proof. apply relaxed_value; [rewrite (c_len _ _ C); exact Hc|]. rewrite (c_wid _ _ C); [lia|]. apply nth_In. rewrite (c_len _ _ C). exact Hc. Qed.

Section Shift.
Variables (L : list (list Z)) (c : nat) (t : tab) (rows : list (list Z)).
Let w := con c.
Let L' := relaxed L c.
Let t' := w_rows t rows.
Hypothesis C : core L t.
Hypothesis Hc : (c < t_ncon t)%nat.
Hypothesis Ng : ~ gone t w.
Hypothesis Hl : length rows = length (t_rows t).
Hypothesis Hw : forall k, (k < nrow t)%nat -> length (nth k rows []) = length (nth k (t_rows t) []).
Hypothesis He : forall k j, (k < nrow t)%nat -> j <> 1%nat -> nth j (nth k rows []) 0 = ent t k j.
Hypothesis Hd : forall k p, (k < nrow t)%nat -> (nth 1 (nth k rows []) 0 - cst t k) * hd 0 p + dot (skipn 2 (nth k (t_rows t) [])) (map (value L' p) (t_cv t)) =
  (if rowv t k =? w then den t k * hd 0 p else 0) + dot (skipn 2 (nth k (t_rows t) [])) (map (value L p) (t_cv t)).
Let A : arranged t := c_arr _ _ C.
Let F : flagged t := c_flg _ _ C.
Lemma sh_value p u : value L' p u = if u =? w then value L p u + hd 0 p else value L p u.
Proof. apply (core_value L c t C Hc). Qed.
Lemma sh_arr : arranged t'.
Proof.
  constructor.
  - change (length rows = nrow t). rewrite Hl. apply (a_len _ A).
  - intros k Hk. change (length (nth k rows []) = (2 + ncol t)%nat). rewrite (Hw k Hk). apply (a_wid _ A k Hk).
  - apply (a_row _ A).
  - apply (a_col _ A).
  - apply (a_inv _ A).
  - intros k Hk. change (0 < nth 0 (nth k rows []) 0). rewrite (He k 0%nat Hk) by discriminate. apply (a_den _ A k Hk).
Qed.
Lemma sh_flg : flagged t'.
Proof. destruct F. constructor; assumption. Qed.
Lemma sh_core : core L' t'.
Proof.
  constructor; [exact sh_arr|exact sh_flg| | | |].
  - unfold L', relaxed. rewrite lset_length. apply (c_len _ _ C).
  - intros m Hm. apply (In_nth _ _ []) in Hm. destruct Hm as (k & Hk & <-). unfold L', relaxed in *. rewrite lset_length in Hk. rewrite nth_lset by (rewrite (c_len _ _ C); exact Hc).
    destruct (Nat.eqb k c); [rewrite zupd_length|]; apply (c_wid _ _ C); apply nth_In; [rewrite (c_len _ _ C); exact Hc|exact Hk].
  - intros p Lp G k Hk. change (k < nrow t)%nat in Hk.
    pose proof (row_expand L t p k A (c_rel _ _ C) Lp) as H. specialize (H ltac:(intros u V Gu; specialize (G u V Gu); rewrite sh_value in G; destruct (Z.eqb_spec u w) as [E|]; [rewrite E in Gu; contradiction|exact G]) Hk).
    unfold row_holds. change (rowv t' k) with (rowv t k). change (t_cv t') with (t_cv t). change (nth k (t_rows t') []) with (nth k rows []). change (den t' k) with (nth 0 (nth k rows []) 0).
    rewrite (He k 0%nat Hk) by discriminate. change (ent t k 0) with (den t k). specialize (Hd k p Hk). pose proof (Hw k Hk) as W. rewrite (a_wid _ A k Hk) in W.
    assert (E2 : skipn 2 (nth k rows []) = skipn 2 (nth k (t_rows t) [])).
    { apply (nth_ext _ _ 0 0); [rewrite !skipn_length, (Hw k Hk); reflexivity|]. intros j _. rewrite !nth_skipn. apply (He k (2 + j)%nat Hk). lia. }
    rewrite <- E2 in Hd at 1. rewrite sh_value. destruct (nth k rows []) as [|a [|b l]]; cbn in W; try lia. cbn [skipn tl dot nth] in *.
    destruct (rowv t k =? w); nia.
  - intros x z. destruct (c_ind _ _ C x (fun j => if colv t j =? w then z j - x else z j)) as (k & p & K & Lp & Hp & Cp & Gp). exists k, p. split; [exact K|]. split; [exact Lp|]. split; [exact Hp|]. split.
    + intros j Hj. change (colv t' j) with (colv t j). rewrite sh_value, (Cp j Hj), Hp. destruct (colv t j =? w); ring.
    + intros u V G. rewrite sh_value. destruct (Z.eqb_spec u w) as [E|]; [rewrite E in G; contradiction|apply Gp; assumption].
Qed.
Lemma sh_represents int : represents int L t -> v_zero (t_info t w) = false ->
  (forall p, adm int p -> feas L' t p -> forall u, valid t u -> v_nonneg (t_info t u) = true -> v_red (t_info t u) = true -> 0 <= value L' p u) ->
  represents int L' t'.
Proof.
  intros R Zw Hm. constructor; [exact sh_core| |].
  - intros p Lp H u V Zu. rewrite sh_value. destruct (Z.eqb_spec u w) as [E|N]; [rewrite E in Zu; change (v_zero (t_info t w) = true) in Zu; congruence|].
    apply (r_zero _ _ _ R p Lp); [|exact V|exact Zu]. intros x Vx Zx Rx. specialize (H x Vx Zx Rx). rewrite sh_value in H. destruct (Z.eqb_spec x w) as [E|]; [rewrite E in Zx; congruence|exact H].
  - intros p Ad Fp u V Nu. destruct (v_red (t_info t u)) eqn:Rd; [apply (Hm p Ad Fp u V Nu Rd)|]. apply (proj2 Fp u V); [exact Nu|exact Rd].
Qed.
End Shift.

(** ** the two ways of relaxing *)
Lemma vals_row L c t p : core L t -> (c < t_ncon t)%nat -> v_row (t_info t (con c)) = true -> map (value (relaxed L c) p) (t_cv t) = map (value L p) (t_cv t).
Proof.
  intros C Hc Rw. apply map_ext_in. intros u Hu. apply (In_nth _ _ 0) in Hu. destruct Hu as (j & Hj & <-). change (nth j (t_cv t) 0) with (colv t j).
  rewrite relaxed_value; [|rewrite (c_len _ _ C); exact Hc|rewrite (c_wid _ _ C); [lia|apply nth_In; rewrite (c_len _ _ C); exact Hc]].
  destruct (Z.eqb_spec (colv t j) (con c)) as [E|]; [|reflexivity]. destruct (a_col _ (c_arr _ _ C) j Hj) as (_ & _ & X). rewrite E in X. congruence.
Qed.
Lemma vals_col L c t p j : core L t -> (c < t_ncon t)%nat -> (j < ncol t)%nat -> colv t j = con c ->
  map (value (relaxed L c) p) (t_cv t) = zupd (map (value L p) (t_cv t)) j (value L p (con c) + hd 0 p).
Proof.
  intros C Hc Hj Ej. apply (nth_ext _ _ 0 0); [rewrite zupd_length, !map_length; reflexivity|]. intros k Hk. rewrite map_length in Hk. change (k < ncol t)%nat in Hk.
  rewrite nth_zupd, !nth_vals, map_length by exact Hk. change (length (t_cv t)) with (ncol t). rewrite (proj2 (Nat.ltb_lt _ _) Hj), andb_true_r.
  rewrite relaxed_value; [|rewrite (c_len _ _ C); exact Hc|rewrite (c_wid _ _ C); [lia|apply nth_In; rewrite (c_len _ _ C); exact Hc]].
  destruct (Nat.eqb_spec k j) as [->|N]; [rewrite Ej, Z.eqb_refl; reflexivity|]. destruct (Z.eqb_spec (colv t k) (con c)) as [E|]; [|reflexivity].
  exfalso. apply N. apply (colv_inj t); [apply C|exact Hk|exact Hj|congruence].
Qed.
Definition marks_stay (int : bool) (L : list (list Z)) (t : tab) : Prop :=
  forall p, adm int p -> feas L t p -> forall u, valid t u -> v_nonneg (t_info t u) = true -> v_red (t_info t u) = true -> 0 <= value L p u.
Lemma relax_row_ok int L c t i : represents int L t -> (c < t_ncon t)%nat -> (i < nrow t)%nat -> rowv t i = con c -> v_zero (t_info t (con c)) = false -> marks_stay int (relaxed L c) t ->
  represents int (relaxed L c) (relax_row t i) /\ cst (relax_row t i) i = cst t i + den t i /\ (forall k, (k < nrow t)%nat -> k <> i -> cst (relax_row t i) k = cst t k).
Proof.
  intros R Hc Hi Ei Zw Hm. pose proof (r_core _ _ _ R) as C. pose proof (c_arr _ _ C) as A. destruct (a_row _ A i Hi) as (V & I & Rw). rewrite Ei in V, I, Rw.
  assert (Hr : forall k, nth k (t_rows (relax_row t i)) [] = if Nat.eqb k i then zupd (nth i (t_rows t) []) 1 (cst t i + den t i) else nth k (t_rows t) []).
  { intros k. unfold relax_row. cbn [t_rows w_rows]. apply nth_lset. rewrite (a_len _ A). exact Hi. }
  assert (Wi : (1 < length (nth i (t_rows t) []))%nat) by (rewrite (a_wid _ A i Hi); lia).
  assert (E1 : nth 1 (zupd (nth i (t_rows t) []) 1 (cst t i + den t i)) 0 = cst t i + den t i) by (rewrite nth_zupd, (proj2 (Nat.ltb_lt _ _) Wi); reflexivity).
  split; [|split; [unfold cst at 1, ent; rewrite Hr, Nat.eqb_refl; exact E1|intros k Hk N; unfold cst, ent; rewrite Hr, (proj2 (Nat.eqb_neq k i) N); reflexivity]].
  unfold relax_row in *. cbn [t_rows w_rows] in Hr. apply (sh_represents L c t _ C Hc); auto.
  - intros (G & _). congruence.
  - apply lset_length.
  - intros k Hk. rewrite Hr. destruct (Nat.eqb_spec k i) as [->|]; [apply zupd_length|reflexivity].
  - intros k j Hk Nj. rewrite Hr. destruct (Nat.eqb_spec k i) as [->|]; [|reflexivity]. rewrite nth_zupd, (proj2 (Nat.eqb_neq j 1) Nj). reflexivity.
  - intros k p Hk. rewrite (vals_row L c t p C Hc Rw), Hr. destruct (Nat.eqb_spec k i) as [->|N].
    + rewrite Ei, Z.eqb_refl, E1. ring.
    + destruct (Z.eqb_spec (rowv t k) (con c)) as [E|]; [exfalso; apply N; apply (rowv_inj t k i A Hk Hi); congruence|]. unfold cst, ent. ring.
Qed.
Lemma relax_col_ok int L c t j : represents int L t -> (c < t_ncon t)%nat -> (j < ncol t)%nat -> colv t j = con c -> v_zero (t_info t (con c)) = false -> marks_stay int (relaxed L c) t ->
  represents int (relaxed L c) (relax_col t j) /\ (forall k, (k < nrow t)%nat -> cst (relax_col t j) k = cst t k - cf t k j).
Proof.
  intros R Hc Hj Ej Zw Hm. pose proof (r_core _ _ _ R) as C. pose proof (c_arr _ _ C) as A. destruct (a_col _ A j Hj) as (V & I & Rw). rewrite Ej in V, I, Rw.
  assert (Hr : forall k, (k < nrow t)%nat -> nth k (t_rows (relax_col t j)) [] = zupd (nth k (t_rows t) []) 1 (cst t k - cf t k j)).
  { intros k Hk. unfold relax_col. cbn [t_rows w_rows]. rewrite (nth_map_d _ _ []) by (rewrite (a_len _ A); exact Hk). reflexivity. }
  assert (E1 : forall k, (k < nrow t)%nat -> nth 1 (nth k (t_rows (relax_col t j)) []) 0 = cst t k - cf t k j).
  { intros k Hk. rewrite (Hr k Hk), nth_zupd, (proj2 (Nat.ltb_lt 1 _)); [reflexivity|]. rewrite (a_wid _ A k Hk). lia. }
  split; [|exact E1]. unfold relax_col in *. cbn [t_rows w_rows] in *. apply (sh_represents L c t _ C Hc); auto.
  - intros (G & _). congruence.
  - apply map_length.
  - intros k Hk. rewrite (Hr k Hk). apply zupd_length.
  - intros k m Hk Nm. rewrite (Hr k Hk), nth_zupd, (proj2 (Nat.eqb_neq m 1) Nm). reflexivity.
  - intros k p Hk. rewrite (E1 k Hk), (vals_col L c t p j C Hc Hj Ej). rewrite dot_upd by (rewrite map_length; exact Hj). rewrite nth_vals, nth_skipn2, Ej by exact Hj.
    destruct (Z.eqb_spec (rowv t k) (con c)) as [E|]; [exfalso; apply (row_col t k j A Hk Hj); congruence|]. ring.
Qed.
