(** Removing columns: isl_tab_kill_col and the loop of close_row. *)
From Coq Require Import ZArith List Bool Arith Lia.
From Verif Require Import SeqModel SeqSpec SeqProofs MatModel BMapModel BMapLists BMapGauss2 BElimSpec BElimFM TabModel TabSpec TabBase TabStruct TabMark TabPivot TabStep.
Import ListNotations.
Open Scope Z_scope.

Section SwapCols.
Variables (L : list (list Z)) (t : tab) (c d : nat).
Hypothesis A : arranged t.
Hypothesis Hc : (c < ncol t)%nat.
Hypothesis Hd : (d < ncol t)%nat.
Hypothesis N : c <> d.
Let t' := swap_cols t c d.
Lemma swc_ncol : ncol t' = ncol t. Proof. apply lsw_length. Qed.
Lemma swc_rv : t_rv t' = t_rv t. Proof. reflexivity. Qed.
Lemma swc_colv k : colv t' k = if Nat.eqb k d then colv t c else if Nat.eqb k c then colv t d else colv t k.
Proof. apply nth_lsw; assumption. Qed.
Lemma swc_row k : (k < nrow t)%nat -> nth k (t_rows t') [] = lsw 0 (nth k (t_rows t) []) (2 + c) (2 + d).
Proof. intros H. unfold t', swap_cols. cbn [w_rows t_rows]. apply (nth_map_d (fun r => lsw 0 r (2 + c) (2 + d)) (t_rows t) [] []). cbn [upd w_info w_cv t_rows]. rewrite (a_len _ A). exact H. Qed.
Lemma swc_ent k j : (k < nrow t)%nat -> ent t' k j = if Nat.eqb j (2 + d) then ent t k (2 + c) else if Nat.eqb j (2 + c) then ent t k (2 + d) else ent t k j.
Proof. intros H. unfold ent at 1. rewrite swc_row by exact H. rewrite nth_lsw by (rewrite (a_wid _ A) by exact H; lia). reflexivity. Qed.
Lemma swc_info u : t_info t' u = if u =? colv t c then vs_idx (Some d) (t_info t u) else if u =? colv t d then vs_idx (Some c) (t_info t u) else t_info t u.
Proof.
  assert (E1 : nth c (lsw 0 (t_cv t) c d) 0 = colv t d) by (rewrite nth_lsw by assumption; rewrite (proj2 (Nat.eqb_neq c d)) by lia; rewrite Nat.eqb_refl; reflexivity).
  assert (E2 : nth d (lsw 0 (t_cv t) c d) 0 = colv t c) by (rewrite nth_lsw by assumption; rewrite Nat.eqb_refl; reflexivity).
  assert (Nv : colv t c <> colv t d) by (intros E; apply N; apply (colv_inj t); assumption).
  unfold t', swap_cols, upd, colv in *. cbn [t_info w_rows w_info w_cv t_cv]. rewrite E1, E2.
  rewrite (proj2 (Z.eqb_neq _ _) Nv). destruct (Z.eqb_spec u (nth c (t_cv t) 0)) as [->|]; [reflexivity|].
  destruct (Z.eqb_spec u (nth d (t_cv t) 0)) as [->|]; reflexivity.
Qed.
Lemma swc_flag {X} (f : tvar -> X) u : (forall y x, f (vs_idx y x) = f x) -> f (t_info t' u) = f (t_info t u).
Proof. intros H. rewrite swc_info. destruct (_ =? _); [apply H|]. destruct (_ =? _); auto. Qed.
Lemma swc_rowinfo u : v_row (t_info t u) = true -> t_info t' u = t_info t u.
Proof.
  intros R. rewrite swc_info. destruct (a_col _ A c Hc) as (_ & _ & R1). destruct (a_col _ A d Hd) as (_ & _ & R2).
  destruct (Z.eqb_spec u (colv t c)) as [->|]; [congruence|]. destruct (Z.eqb_spec u (colv t d)) as [->|]; [congruence|reflexivity].
Qed.
Lemma swc_gone u : gone t' u <-> gone t u.
Proof.
  unfold gone. rewrite (swc_flag v_row) by reflexivity. rewrite swc_info. destruct (a_col _ A c Hc) as (_ & I1 & R1). destruct (a_col _ A d Hd) as (_ & I2 & R2).
  destruct (Z.eqb_spec u (colv t c)) as [->|]; [cbn; rewrite I1; split; intros (X & _); discriminate|].
  destruct (Z.eqb_spec u (colv t d)) as [->|]; [cbn; rewrite I2; split; intros (X & _); discriminate|reflexivity].
Qed.
Lemma swc_arr : arranged t'.
Proof.
  constructor.
  - unfold t', swap_cols. cbn [w_rows t_rows]. rewrite map_length. apply (a_len _ A).
  - intros i Hi. rewrite swc_row by exact Hi. rewrite lsw_length, swc_ncol. apply (a_wid _ A). exact Hi.
  - intros i Hi. destruct (a_row _ A i Hi) as (V & I & R). change (rowv t' i) with (rowv t i). rewrite swc_rowinfo by exact R. auto.
  - intros k Hk. rewrite swc_ncol in Hk. rewrite swc_colv. destruct (Nat.eqb_spec k d) as [->|Nd].
    { destruct (a_col _ A c Hc) as (V & I & R). split; [exact V|]. rewrite (swc_flag v_row) by reflexivity. rewrite swc_info, Z.eqb_refl. auto. }
    destruct (Nat.eqb_spec k c) as [->|Nc].
    { destruct (a_col _ A d Hd) as (V & I & R). split; [exact V|]. rewrite (swc_flag v_row) by reflexivity. rewrite swc_info, Z.eqb_refl.
      rewrite (proj2 (Z.eqb_neq _ _)); [auto|]. intros E. apply N. symmetry. apply (colv_inj t); assumption. }
    destruct (a_col _ A k Hk) as (V & I & R). split; [exact V|]. rewrite (swc_flag v_row) by reflexivity. rewrite swc_info.
    rewrite !(proj2 (Z.eqb_neq _ _)); [auto| |]; intros E; [apply Nd|apply Nc]; apply (colv_inj t); assumption.
  - intros v i V E. rewrite (swc_flag v_row) by reflexivity. rewrite swc_info in E. rewrite swc_ncol, swc_colv. destruct (a_col _ A c Hc) as (_ & I1 & R1). destruct (a_col _ A d Hd) as (_ & I2 & R2).
    destruct (Z.eqb_spec v (colv t c)) as [->|N1]. { cbn in E. injection E as <-. rewrite R1, Nat.eqb_refl. auto. }
    destruct (Z.eqb_spec v (colv t d)) as [->|N2]. { cbn in E. injection E as <-. rewrite R2, Nat.eqb_refl. rewrite (proj2 (Nat.eqb_neq c d)) by exact N. auto. }
    pose proof (a_inv _ A v i V E) as H. destruct (v_row (t_info t v)); [exact H|]. destruct H as (H1 & H2). split; [exact H1|].
    rewrite !(proj2 (Nat.eqb_neq _ _)); [exact H2| |]; intros ->; [apply N1|apply N2]; symmetry; exact H2.
  - intros i Hi. unfold den. rewrite swc_ent by exact Hi. apply (a_den _ A). exact Hi.
Qed.
Lemma swc_vals p : map (value L p) (t_cv t') = lsw 0 (map (value L p) (t_cv t)) c d.
Proof. apply map_lsw; assumption. Qed.
Lemma swc_rel : related L t -> related L t'.
Proof.
  intros R p Lp G i Hi. assert (H : row_holds L t p i). { apply R; [exact Lp| |exact Hi]. intros v V Gv. apply G; [exact V|]. apply swc_gone. exact Gv. }
  unfold row_holds in *. change (rowv t' i) with (rowv t i). unfold den. rewrite swc_ent by exact Hi. cbn [Nat.eqb plus]. fold (den t i). rewrite H, swc_vals, swc_row by exact Hi.
  pose proof (a_wid _ A i Hi) as W. destruct (nth i (t_rows t) []) as [|a r] eqn:E; [cbn in W; lia|]. cbn [tl].
  replace (tl (lsw 0 (a :: r) (2 + c) (2 + d))) with (lsw 0 r (1 + c) (1 + d)) by reflexivity. symmetry.
  replace (hd 0 p :: lsw 0 (map (value L p) (t_cv t)) c d) with (lsw 0 (hd 0 p :: map (value L p) (t_cv t)) (1 + c) (1 + d)) by reflexivity.
  cbn [length] in W. apply dot_lsw; [lia|lia|lia|]. cbn [length]. rewrite map_length. change (length (t_cv t)) with (ncol t). lia.
Qed.
Lemma swc_ind : independent L t -> independent L t'.
Proof.
  intros I x z. destruct (I x (fun k => if Nat.eqb k d then z c else if Nat.eqb k c then z d else z k)) as (k & p & K & Lp & Hh & Cv & G). exists k, p.
  split; [exact K|]. split; [exact Lp|]. split; [exact Hh|]. split.
  - intros j Hj. rewrite swc_ncol in Hj. rewrite swc_colv. destruct (Nat.eqb_spec j d) as [->|Nd]; [rewrite Cv by exact Hc|destruct (Nat.eqb_spec j c) as [->|Nc]; [rewrite Cv by exact Hd|rewrite Cv by exact Hj]].
    + rewrite (proj2 (Nat.eqb_neq c d)) by exact N. rewrite Nat.eqb_refl. reflexivity.
    + rewrite Nat.eqb_refl. reflexivity.
    + rewrite !(proj2 (Nat.eqb_neq _ _)) by assumption. reflexivity.
  - intros v V Gv. apply G; [exact V|]. apply swc_gone. exact Gv.
Qed.
End SwapCols.

Section DropCol.
Variables (L : list (list Z)) (t : tab).
Hypothesis A : arranged t.
Hypothesis Hn : (0 < ncol t)%nat.
Let d := (ncol t - 1)%nat.
Let t' := let t1 := upd t (colv t d) (vs_idx None) in w_rows (w_cv t1 (removelast (t_cv t1))) (map (@removelast Z) (t_rows t1)).
Let Hd : (d < ncol t)%nat. Proof. unfold d. lia. Qed.
Lemma dc_ncol : ncol t' = (ncol t - 1)%nat. Proof. apply removelast_length. Qed.
Lemma dc_colv k : (k < ncol t - 1)%nat -> colv t' k = colv t k. Proof. intros H. apply nth_removelast. exact H. Qed.
Lemma dc_row k : (k < nrow t)%nat -> nth k (t_rows t') [] = removelast (nth k (t_rows t) []).
Proof. intros H. unfold t'. cbn [w_rows t_rows]. apply (nth_map_d (@removelast Z) (t_rows t) [] []). rewrite (a_len _ A). exact H. Qed.
Lemma dc_ent k j : (k < nrow t)%nat -> (j < 1 + ncol t)%nat -> ent t' k j = ent t k j.
Proof. intros H Hj. unfold ent. rewrite dc_row by exact H. apply nth_removelast. rewrite (a_wid _ A) by exact H. lia. Qed.
Lemma dc_info u : t_info t' u = if u =? colv t d then vs_idx None (t_info t u) else t_info t u.
Proof. unfold t'. cbn. destruct (Z.eqb_spec u (colv t d)) as [->|]; reflexivity. Qed.
Lemma dc_flag {X} (f : tvar -> X) u : (forall y x, f (vs_idx y x) = f x) -> f (t_info t' u) = f (t_info t u).
Proof. intros H. rewrite dc_info. destruct (_ =? _); auto. Qed.
Lemma dc_rowinfo u : v_row (t_info t u) = true -> t_info t' u = t_info t u.
Proof. intros R. rewrite dc_info. destruct (a_col _ A d Hd) as (_ & _ & R1). destruct (Z.eqb_spec u (colv t d)) as [->|]; [congruence|reflexivity]. Qed.
Lemma dc_gone u : gone t' u <-> u = colv t d \/ gone t u.
Proof.
  unfold gone. rewrite (dc_flag v_row) by reflexivity. rewrite dc_info. destruct (a_col _ A d Hd) as (_ & I1 & R1).
  destruct (Z.eqb_spec u (colv t d)) as [->|Nu]; [cbn; rewrite R1; split; [left; reflexivity|split; reflexivity]|]. split; [right; assumption|intros [X|X]; [congruence|exact X]].
Qed.
Lemma dc_arr : arranged t'.
Proof.
  constructor.
  - unfold t'. cbn [w_rows t_rows]. rewrite map_length. apply (a_len _ A).
  - intros i Hi. rewrite dc_row by exact Hi. rewrite removelast_length, dc_ncol. change (nrow t') with (nrow t) in Hi. rewrite (a_wid _ A) by exact Hi. lia.
  - intros i Hi. destruct (a_row _ A i Hi) as (V & I & R). change (rowv t' i) with (rowv t i). rewrite dc_rowinfo by exact R. auto.
  - intros k Hk. rewrite dc_ncol in Hk. rewrite dc_colv by exact Hk. destruct (a_col _ A k) as (V & I & R); [lia|]. split; [exact V|]. rewrite dc_info.
    rewrite (proj2 (Z.eqb_neq _ _)); [auto|]. intros E. apply (colv_inj t) in E; [unfold d in E; lia|exact A|lia|exact Hd].
  - intros v i V E. rewrite (dc_flag v_row) by reflexivity. rewrite dc_info in E. destruct (Z.eqb_spec v (colv t d)) as [->|Nv]; [discriminate|].
    pose proof (a_inv _ A v i V E) as H. destruct (v_row (t_info t v)); [exact H|]. destruct H as (H1 & H2). rewrite dc_ncol.
    assert (i <> d) by (intros ->; congruence). split; [unfold d in *; lia|]. rewrite dc_colv by (unfold d in *; lia). exact H2.
  - intros i Hi. unfold den. rewrite dc_ent by (exact Hi || lia). apply (a_den _ A). exact Hi.
Qed.
Lemma dot_last_zero (a b : list Z) : length a = length b -> (b <> [] -> nth (length b - 1) b 0 = 0) -> dot a b = dot (removelast a) (removelast b).
Proof.
  intros E H. destruct b as [|y b'] eqn:Eb using rev_ind; [destruct a; [reflexivity|discriminate]|]. clear IHb'. destruct a as [|x a'] using rev_ind; [rewrite app_length in E; cbn in E; lia|]. clear IHa'.
  rewrite !app_length in E. cbn in E. rewrite !removelast_last. rewrite app_length in H. cbn [length] in H. rewrite dot_app2 by lia.
  assert (Y : y = 0). { assert (X : b' ++ [y] <> []) by (destruct b'; discriminate). specialize (H X). rewrite app_nth2 in H by lia. replace (length b' + 1 - 1 - length b')%nat with 0%nat in H by lia. exact H. }
  subst y. cbn [dot]. ring.
Qed.
Lemma dc_rel : related L t -> related L t'.
Proof.
  intros R p Lp G i Hi. assert (H : row_holds L t p i). { apply R; [exact Lp| |exact Hi]. intros v V Gv. apply G; [exact V|]. apply dc_gone. right. exact Gv. }
  unfold row_holds in *. change (rowv t' i) with (rowv t i). unfold den. rewrite dc_ent by (exact Hi || lia). fold (den t i). rewrite H, dc_row by exact Hi.
  pose proof (a_wid _ A i Hi) as W. change (t_cv t') with (removelast (t_cv t)).
  assert (Z0 : value L p (colv t d) = 0). { apply G; [apply (a_col _ A d Hd)|]. apply dc_gone. left. reflexivity. }
  destruct (nth i (t_rows t) []) as [|a r] eqn:E; [cbn in W; lia|]. cbn [length] in W.
  assert (Er : tl (removelast (a :: r)) = removelast r) by (destruct r; [cbn in W; lia|reflexivity]). rewrite Er. cbn [tl].
  assert (Ev : hd 0 p :: map (value L p) (removelast (t_cv t)) = removelast (hd 0 p :: map (value L p) (t_cv t))).
  { assert (Ln : length (t_cv t) = ncol t) by reflexivity. destruct (t_cv t) as [|y l] eqn:El using rev_ind; [cbn in Ln; lia|]. clear IHl. rewrite removelast_last, map_app. cbn [map]. rewrite app_comm_cons, removelast_last. reflexivity. }
  rewrite Ev. apply dot_last_zero; cbn [length]; rewrite map_length; change (length (t_cv t)) with (ncol t); [lia|]. intros _.
  replace (S (ncol t) - 1)%nat with (S d) by (unfold d; lia). cbn [nth]. rewrite nth_vals by exact Hd. exact Z0.
Qed.
Lemma dc_ind : independent L t -> independent L t'.
Proof.
  intros I x z. destruct (I x (fun k => if Nat.eqb k d then 0 else z k)) as (k & p & K & Lp & Hh & Cv & G). exists k, p.
  split; [exact K|]. split; [exact Lp|]. split; [exact Hh|]. split.
  - intros j Hj. rewrite dc_ncol in Hj. rewrite dc_colv by exact Hj. rewrite Cv by lia. rewrite (proj2 (Nat.eqb_neq _ _)) by (unfold d; lia). reflexivity.
  - intros v V Gv. apply dc_gone in Gv. destruct Gv as [->|Gv]; [rewrite Cv by exact Hd; rewrite Nat.eqb_refl; ring|apply G; assumption].
Qed.
End DropCol.

(** ** what removing columns changes: [Q] tells which live columns may become zero *)
Record killed (Q : nat -> Prop) (t t' : tab) : Prop := {
  kl_rv : t_rv t' = t_rv t; kl_red : t_red t' = t_red t; kl_nvar : t_nvar t' = t_nvar t; kl_ncon : t_ncon t' = t_ncon t; kl_neq : t_neq t' = t_neq t; kl_rat : t_rat t' = t_rat t; kl_empty : t_empty t' = t_empty t;
  kl_undo : t_undo t' = t_undo t; kl_inundo : t_inundo t' = t_inundo t; kl_preserve : t_preserve t' = t_preserve t; kl_strict : t_strict t' = t_strict t; kl_cone : t_cone t' = t_cone t;
  kl_cst : forall i, (i < nrow t)%nat -> den t' i = den t i /\ cst t' i = cst t i;
  kl_flag : forall u, v_red (t_info t' u) = v_red (t_info t u) /\ v_nonneg (t_info t' u) = v_nonneg (t_info t u) /\ v_frozen (t_info t' u) = v_frozen (t_info t u) /\
                      v_row (t_info t' u) = v_row (t_info t u) /\ v_marked (t_info t' u) = v_marked (t_info t u) /\ v_negated (t_info t' u) = v_negated (t_info t u);
  kl_row : forall u, v_row (t_info t u) = true -> t_info t' u = t_info t u;
  kl_zero : forall u, v_zero (t_info t u) = true -> v_zero (t_info t' u) = true;
  kl_col : forall c', (t_dead t' <= c' < ncol t')%nat -> exists c, (t_dead t <= c < ncol t)%nat /\ colv t c = colv t' c' /\ forall i, (i < nrow t)%nat -> cf t' i c' = cf t i c;
  kl_new : forall u, v_zero (t_info t' u) = true -> v_zero (t_info t u) = true \/ exists c, (t_dead t <= c < ncol t)%nat /\ colv t c = u /\ Q c }.
Lemma killed_refl Q t : killed Q t t.
Proof. constructor; auto 10. intros c Hc. exists c. auto. Qed.
Lemma killed_valid Q t t' v : killed Q t t' -> (valid t' v <-> valid t v).
Proof. intros K. unfold valid. rewrite (kl_nvar _ _ _ K), (kl_ncon _ _ _ K). reflexivity. Qed.
Lemma killed_trans Q Q' t t1 t2 : killed Q t t1 -> killed Q' t1 t2 -> (forall c c', (t_dead t <= c < ncol t)%nat -> (t_dead t1 <= c' < ncol t1)%nat -> (forall i, (i < nrow t)%nat -> cf t1 i c' = cf t i c) -> Q' c' -> Q c) -> killed Q t t2.
Proof.
  intros K1 K2 HQ. assert (Nr : nrow t1 = nrow t) by (unfold nrow; rewrite (kl_rv _ _ _ K1); reflexivity).
  constructor; try match goal with |- _ = _ => etransitivity; [apply K2|apply K1] end.
  - intros i Hi. destruct (kl_cst _ _ _ K1 i Hi) as (<- & <-). apply K2. rewrite Nr. exact Hi.
  - intros u. destruct (kl_flag _ _ _ K1 u) as (<- & <- & <- & <- & <- & <-). apply K2.
  - intros u R. rewrite <- (kl_row _ _ _ K1 u R). apply (kl_row _ _ _ K2). rewrite (kl_row _ _ _ K1 u R). exact R.
  - intros u Z0. apply (kl_zero _ _ _ K2), (kl_zero _ _ _ K1), Z0.
  - intros c2 H2. destruct (kl_col _ _ _ K2 c2 H2) as (c1 & H1 & E1 & F1). destruct (kl_col _ _ _ K1 c1 H1) as (c & H & E & F). exists c. split; [exact H|]. split; [congruence|].
    intros i Hi. rewrite F1 by (rewrite Nr; exact Hi). apply F. exact Hi.
  - intros u Zu. destruct (kl_new _ _ _ K2 u Zu) as [Zu1|(c1 & H1 & E1 & F1)].
    + apply (kl_new _ _ _ K1 u Zu1).
    + right. destruct (kl_col _ _ _ K1 c1 H1) as (c & H & E & F). exists c. split; [exact H|]. split; [congruence|]. apply (HQ c c1 H H1 F F1).
Qed.

Lemma wl_arr t l : arranged t -> arranged (w_log t l). Proof. intros []; constructor; assumption. Qed.
Lemma core_of L t : arranged t -> flagged t -> length L = t_ncon t -> (forall l, List.In l L -> length l = (1 + t_nvar t)%nat) -> related L t -> independent L t -> core L t.
Proof. intros. constructor; assumption. Qed.
(** how isl_tab_kill_col moves the columns *)
Definition moved (t : tab) (c : nat) (t' : tab) : Prop :=
  if t_undo t then
    ncol t' = ncol t /\ t_dead t' = S (t_dead t) /\
    forall k, (S (t_dead t) <= k < ncol t)%nat -> let k0 := if Nat.eqb k c then t_dead t else k in colv t' k = colv t k0 /\ forall i, (i < nrow t)%nat -> cf t' i k = cf t i k0
  else
    ncol t' = (ncol t - 1)%nat /\ t_dead t' = t_dead t /\
    forall k, (t_dead t <= k < ncol t - 1)%nat -> let k0 := if Nat.eqb k c then (ncol t - 1)%nat else k in colv t' k = colv t k0 /\ forall i, (i < nrow t)%nat -> cf t' i k = cf t i k0.
Lemma kill_ok L t c : core L t -> (t_dead t <= c < ncol t)%nat -> colv t c < 0 ->
  wp (kill_col t c) (fun '(t', b) => core L t' /\ killed (fun k => k = c) t t' /\ moved t c t' /\ v_zero (t_info t' (colv t c)) = true /\ b = negb (t_undo t)).
Proof.
  intros C Hc Neg. pose proof (c_arr _ _ C) as A. pose proof (c_flg _ _ C) as F. set (v := colv t c) in *.
  destruct (a_col _ A c) as (V & Iv & Rv); [lia|]. fold v in V, Iv, Rv. unfold kill_col. fold v. set (t1 := upd t v (vs_zero true)).
  assert (S1 : shape t t1) by (apply shape_upd; intros; split; reflexivity). pose proof (arranged_shape _ _ S1 A) as A1.
  assert (I1 : forall u, t_info t1 u = if u =? v then vs_zero true (t_info t u) else t_info t u) by (intros u; unfold t1; cbn; destruct (Z.eqb_spec u v) as [->|]; reflexivity).
  assert (Fl : forall X (f : tvar -> X) u, (forall x, f (vs_zero true x) = f x) -> f (t_info t1 u) = f (t_info t u)) by (intros X f u H; rewrite I1; destruct (u =? v); auto).
  assert (Nz : forall u, u <> v -> t_info t1 u = t_info t u) by (intros u H; rewrite I1, (proj2 (Z.eqb_neq _ _) H); reflexivity).
  assert (Zv : v_zero (t_info t1 v) = true) by (rewrite I1, Z.eqb_refl; reflexivity).
  assert (R1 : related L t1) by (apply (related_shape _ _ S1), (c_rel _ _ C)). assert (In1 : independent L t1) by (apply (independent_shape _ _ S1), (c_ind _ _ C)).
  change (t_undo t1) with (t_undo t). destruct (t_undo t) eqn:U.
  - rewrite push_var_eq; [|exact A1|exact V|rewrite (Fl _ v_idx) by reflexivity; congruence]. cbn [bind]. destruct (push_w t1 (U_zero v)) as (lg & ->).
    set (t2 := w_log t1 lg). change (t_dead t2) with (t_dead t). change (t_dead t1) with (t_dead t).
    assert (A2 : arranged t2) by (apply wl_arr; exact A1). assert (R2 : related L t2) by exact R1. assert (In2 : independent L t2) by exact In1.
    set (t3 := if Nat.eqb c (t_dead t) then t2 else swap_cols t2 c (t_dead t)).
    assert (X : arranged t3 /\ related L t3 /\ independent L t3 /\ ncol t3 = ncol t /\ t_dead t3 = t_dead t /\
      (forall k, colv t3 k = if Nat.eqb k (t_dead t) then v else if Nat.eqb k c then colv t (t_dead t) else colv t k) /\
      (forall i k, (i < nrow t)%nat -> cf t3 i k = if Nat.eqb k (t_dead t) then cf t i c else if Nat.eqb k c then cf t i (t_dead t) else cf t i k) /\
      (forall i, (i < nrow t)%nat -> den t3 i = den t i /\ cst t3 i = cst t i) /\
      (forall u, v_row (t_info t u) = true -> t_info t3 u = t_info t u) /\
      (forall X (f : tvar -> X) u, (forall y x, f (vs_idx y x) = f x) -> f (t_info t3 u) = f (t_info t1 u)) /\ (forall u, gone t3 u <-> gone t u)).
    { unfold t3. destruct (Nat.eqb_spec c (t_dead t)) as [E|N].
      - split; [exact A2|]. split; [exact R2|]. split; [exact In2|]. split; [reflexivity|]. split; [reflexivity|]. split; [|split; [|split; [|split; [|split]]]].
        + intros k. change (colv t2 k) with (colv t k). rewrite <- E. destruct (Nat.eqb_spec k c) as [->|]; reflexivity.
        + intros i k Hi. change (cf t2 i k) with (cf t i k). rewrite <- E. destruct (Nat.eqb_spec k c) as [->|]; reflexivity.
        + intros i Hi. split; reflexivity.
        + intros u Ru. change (t_info t2 u) with (t_info t1 u). apply Nz. congruence.
        + reflexivity.
        + intros u. apply (sh_gone t t1 S1).
      - assert (Hd : (t_dead t < ncol t2)%nat) by (change (ncol t2) with (ncol t); lia). assert (Hc2 : (c < ncol t2)%nat) by (change (ncol t2) with (ncol t); lia).
        split; [apply swc_arr; assumption|]. split; [apply swc_rel; assumption|]. split; [apply swc_ind; assumption|]. split; [exact (swc_ncol t2 c (t_dead t))|]. split; [reflexivity|]. split; [|split; [|split; [|split; [|split]]]].
        + intros k. rewrite swc_colv by assumption. reflexivity.
        + intros i k Hi. unfold cf at 1. rewrite swc_ent by assumption. reflexivity.
        + intros i Hi. unfold den, cst. rewrite !swc_ent by assumption. split; reflexivity.
        + intros u Ru. rewrite swc_rowinfo; [change (t_info t2 u) with (t_info t1 u); apply Nz; congruence|exact A2|exact Hc2|exact Hd| |].
          * exact N.
          * change (t_info t2 u) with (t_info t1 u). rewrite (Fl _ v_row) by reflexivity. exact Ru.
        + intros X f u H. rewrite (swc_flag t2 c (t_dead t)) by assumption. reflexivity.
        + intros u. rewrite swc_gone by assumption. apply (sh_gone t t1 S1). }
    destruct X as (A3 & R3 & In3 & E1 & E2 & Ecv & Ecf & Edc & Erow & Eflag & Egone).
    assert (Nv : t_nvar t3 = t_nvar t /\ t_ncon t3 = t_ncon t /\ t_rv t3 = t_rv t /\ t_red t3 = t_red t) by (unfold t3; destruct (Nat.eqb c (t_dead t)); repeat split; reflexivity).
    destruct Nv as (Nv1 & Nv2 & Nv3 & Nv4). rewrite E2. set (t4 := w_dead t3 (S (t_dead t))).
    assert (Zf : forall u, v_zero (t_info t3 u) = if u =? v then true else v_zero (t_info t u)).
    { intros u. rewrite (Eflag _ v_zero) by reflexivity. rewrite I1. destruct (u =? v); reflexivity. }
    assert (Zc : forall k, (k < ncol t)%nat -> v_zero (t_info t3 (colv t k)) = Nat.eqb k c || Nat.ltb k (t_dead t)).
    { intros k Hk. rewrite Zf. destruct (Nat.eqb_spec k c) as [->|Nk]; [unfold v; rewrite Z.eqb_refl; reflexivity|].
      rewrite (proj2 (Z.eqb_neq _ _)); [apply (f_cols _ F k Hk)|]. intros E. apply Nk, (colv_inj t); [exact A|exact Hk|lia|exact E]. }
    assert (A4 : arranged t4) by (destruct A3; constructor; assumption).
    assert (F4 : flagged t4).
    { constructor.
      - change (S (t_dead t) <= ncol t3)%nat. lia.
      - change (t_red t3 <= nrow t3)%nat. unfold nrow. rewrite Nv3, Nv4. apply (f_red _ F).
      - intros i Hi. change (v_red (t_info t3 (rowv t3 i)) = Nat.ltb i (t_red t3)). unfold rowv. rewrite (Eflag _ v_red) by reflexivity. rewrite (Fl _ v_red) by reflexivity. rewrite Nv3, Nv4. apply (f_rows _ F). change (nrow t4) with (length (t_rv t3)) in Hi. rewrite Nv3 in Hi. exact Hi.
      - intros k Hk. change (ncol t4) with (ncol t3) in Hk. rewrite E1 in Hk. change (t_info t4) with (t_info t3). change (colv t4 k) with (colv t3 k). change (t_dead t4) with (S (t_dead t)). split.
        + rewrite Ecv. destruct (Nat.eqb_spec k (t_dead t)) as [->|Nk]; [rewrite Zf, Z.eqb_refl; symmetry; apply Nat.ltb_lt; lia|].
          destruct (Nat.eqb_spec k c) as [->|Nc]; [rewrite Zc by lia|rewrite Zc by lia].
          * rewrite (proj2 (Nat.eqb_neq _ _)) by congruence. rewrite (proj2 (Nat.ltb_ge _ _)) by lia. symmetry. apply Nat.ltb_ge. lia.
          * rewrite (proj2 (Nat.eqb_neq k c)) by exact Nc. cbn [orb]. destruct (Nat.ltb_spec k (t_dead t)), (Nat.ltb_spec k (S (t_dead t))); lia || reflexivity.
        + rewrite (Eflag _ v_red), (Fl _ v_red) by reflexivity. rewrite Ecv. destruct (Nat.eqb k (t_dead t)); [apply (f_cols _ F c); lia|]. destruct (Nat.eqb k c); apply (f_cols _ F); lia.
      - intros u Vu Iu. change (t_info t4) with (t_info t3) in *. assert (Vu' : valid t u) by (unfold valid in *; change (t_nvar t4) with (t_nvar t3) in Vu; change (t_ncon t4) with (t_ncon t3) in Vu; rewrite Nv1, Nv2 in Vu; exact Vu).
        rewrite (Eflag _ v_row), (Eflag _ v_red) by reflexivity. rewrite (Fl _ v_row), (Fl _ v_red) by reflexivity. destruct (v_row (t_info t u)) eqn:Ru.
        + rewrite Erow in Iu by exact Ru. pose proof (f_gone _ F u Vu' Iu) as H. rewrite Ru in H. exact H.
        + assert (G : gone t u). { apply Egone. split; [exact Iu|]. rewrite (Eflag _ v_row), (Fl _ v_row) by reflexivity. exact Ru. }
          destruct G as (G1 & G2). pose proof (f_gone _ F u Vu' G1) as H. rewrite Ru in H. split; [apply H|]. rewrite Zf. destruct (u =? v); [split; [reflexivity|apply H]|apply H].
      - intros u Vu Pu. change (t_info t4) with (t_info t3) in *. assert (Vu' : valid t u) by (unfold valid in *; change (t_nvar t4) with (t_nvar t3) in Vu; change (t_ncon t4) with (t_ncon t3) in Vu; rewrite Nv1, Nv2 in Vu; exact Vu).
        rewrite Zf, (proj2 (Z.eqb_neq _ _)) by lia. rewrite (Eflag _ v_nonneg), (Eflag _ v_red) by reflexivity. rewrite (Fl _ v_nonneg), (Fl _ v_red) by reflexivity. apply (f_var _ F); assumption. }
    cbn [wp]. split.
    { constructor; [exact A4|exact F4| | |exact R3|exact In3].
      - change (t_ncon t4) with (t_ncon t3). rewrite Nv2. apply C.
      - change (t_nvar t4) with (t_nvar t3). rewrite Nv1. apply C. }
    split; [|split; [|split; [|reflexivity]]].
    + constructor; try assumption; try (unfold t4, t3; destruct (Nat.eqb c (t_dead t)); reflexivity).
      * intros u. change (t_info t4) with (t_info t3). rewrite !(Eflag _ v_red), !(Eflag _ v_nonneg), !(Eflag _ v_frozen), !(Eflag _ v_row), !(Eflag _ v_marked), !(Eflag _ v_negated) by reflexivity.
        rewrite !(Fl _ v_red), !(Fl _ v_nonneg), !(Fl _ v_frozen), !(Fl _ v_row), !(Fl _ v_marked), !(Fl _ v_negated) by reflexivity. auto 10.
      * intros u Zu. change (t_info t4) with (t_info t3). rewrite Zf. destruct (u =? v); auto.
      * intros k Hk. change (t_dead t4) with (S (t_dead t)) in Hk. change (ncol t4) with (ncol t3) in Hk. rewrite E1 in Hk.
        exists (if Nat.eqb k c then t_dead t else k). change (colv t4 k) with (colv t3 k). rewrite Ecv. rewrite (proj2 (Nat.eqb_neq k (t_dead t))) by lia.
        split; [destruct (Nat.eqb k c); lia|]. split; [destruct (Nat.eqb k c); reflexivity|]. intros i Hi. change (cf t4 i k) with (cf t3 i k). rewrite Ecf by exact Hi. rewrite (proj2 (Nat.eqb_neq k (t_dead t))) by lia. destruct (Nat.eqb k c); reflexivity.
      * intros u Zu. change (t_info t4) with (t_info t3) in Zu. rewrite Zf in Zu. destruct (Z.eqb_spec u v) as [Eu|]; [right; exists c; split; [exact Hc|]; split; [symmetry; exact Eu|reflexivity]|left; exact Zu].
    + unfold moved. rewrite U. split; [exact E1|]. split; [reflexivity|]. intros k Hk. cbn zeta. change (colv t4 k) with (colv t3 k). rewrite Ecv. rewrite (proj2 (Nat.eqb_neq k (t_dead t))) by lia.
      split; [destruct (Nat.eqb k c); reflexivity|]. intros i Hi. change (cf t4 i k) with (cf t3 i k). rewrite Ecf by exact Hi. rewrite (proj2 (Nat.eqb_neq k (t_dead t))) by lia. destruct (Nat.eqb k c); reflexivity.
    + change (t_info t4) with (t_info t3). rewrite Zf, Z.eqb_refl. reflexivity.
  - set (d := (ncol t - 1)%nat). change (ncol t1 - 1)%nat with d. cbn zeta.
    set (t3 := if Nat.eqb c d then t1 else swap_cols t1 c d).
    assert (X : arranged t3 /\ related L t3 /\ independent L t3 /\ ncol t3 = ncol t /\ t_dead t3 = t_dead t /\
      (forall k, colv t3 k = if Nat.eqb k d then v else if Nat.eqb k c then colv t d else colv t k) /\
      (forall i k, (i < nrow t)%nat -> cf t3 i k = if Nat.eqb k d then cf t i c else if Nat.eqb k c then cf t i d else cf t i k) /\
      (forall i, (i < nrow t)%nat -> den t3 i = den t i /\ cst t3 i = cst t i) /\
      (forall u, v_row (t_info t u) = true -> t_info t3 u = t_info t u) /\
      (forall X (f : tvar -> X) u, (forall y x, f (vs_idx y x) = f x) -> f (t_info t3 u) = f (t_info t1 u)) /\ (forall u, gone t3 u <-> gone t u)).
    { unfold t3. destruct (Nat.eqb_spec c d) as [E|N].
      - split; [exact A1|]. split; [exact R1|]. split; [exact In1|]. split; [reflexivity|]. split; [reflexivity|]. split; [|split; [|split; [|split; [|split]]]].
        + intros k. change (colv t1 k) with (colv t k). rewrite <- E. destruct (Nat.eqb_spec k c) as [->|]; reflexivity.
        + intros i k Hi. change (cf t1 i k) with (cf t i k). rewrite <- E. destruct (Nat.eqb_spec k c) as [->|]; reflexivity.
        + intros i Hi. split; reflexivity.
        + intros u Ru. apply Nz. congruence.
        + reflexivity.
        + intros u. apply (sh_gone t t1 S1).
      - assert (Hd : (d < ncol t1)%nat) by (change (ncol t1) with (ncol t); unfold d; lia). assert (Hc2 : (c < ncol t1)%nat) by (change (ncol t1) with (ncol t); lia).
        split; [apply swc_arr; assumption|]. split; [apply swc_rel; assumption|]. split; [apply swc_ind; assumption|]. split; [exact (swc_ncol t1 c d)|]. split; [reflexivity|]. split; [|split; [|split; [|split; [|split]]]].
        + intros k. rewrite swc_colv by assumption. reflexivity.
        + intros i k Hi. unfold cf at 1. rewrite swc_ent by assumption. reflexivity.
        + intros i Hi. unfold den, cst. rewrite !swc_ent by assumption. split; reflexivity.
        + intros u Ru. rewrite swc_rowinfo; [apply Nz; congruence|exact A1|exact Hc2|exact Hd| |].
          * exact N.
          * rewrite (Fl _ v_row) by reflexivity. exact Ru.
        + intros X f u H. rewrite (swc_flag t1 c d) by assumption. reflexivity.
        + intros u. rewrite swc_gone by assumption. apply (sh_gone t t1 S1). }
    destruct X as (A3 & R3 & In3 & E1 & E2 & Ecv & Ecf & Edc & Erow & Eflag & Egone).
    assert (Nv : t_nvar t3 = t_nvar t /\ t_ncon t3 = t_ncon t /\ t_rv t3 = t_rv t /\ t_red t3 = t_red t /\ t_undo t3 = t_undo t) by (unfold t3; destruct (Nat.eqb c d); repeat split; reflexivity).
    destruct Nv as (Nv1 & Nv2 & Nv3 & Nv4 & Nv5).
    assert (Hn3 : (0 < ncol t3)%nat) by (rewrite E1; lia).
    assert (Ed : (ncol t3 - 1)%nat = d) by (rewrite E1; reflexivity).
    pose proof (dc_arr t3 A3 Hn3) as A4. pose proof (dc_rel L t3 A3 Hn3 R3) as R4. pose proof (dc_ind L t3 A3 Hn3 In3) as In4.
    pose proof (dc_ncol t3) as D1. pose proof (dc_colv t3) as D2. pose proof (dc_ent t3 A3) as D3. pose proof (dc_info t3) as D4. pose proof (@dc_flag t3) as D5. pose proof (dc_rowinfo t3 A3 Hn3) as D6. pose proof (dc_gone t3 A3 Hn3) as D7.
    cbv zeta in A4, R4, In4, D1, D2, D3, D4, D5, D6, D7. rewrite Ed in A4, R4, In4, D1, D2, D3, D4, D5, D6, D7. rewrite E1 in D3.
    assert (Ev : colv t3 d = v) by (rewrite Ecv, Nat.eqb_refl; reflexivity).
    set (t4 := w_rows (w_cv (upd t3 (colv t3 d) (vs_idx None)) (removelast (t_cv (upd t3 (colv t3 d) (vs_idx None))))) (map (@removelast Z) (t_rows (upd t3 (colv t3 d) (vs_idx None))))) in *.
    assert (Zf : forall u, v_zero (t_info t3 u) = if u =? v then true else v_zero (t_info t u)).
    { intros u. rewrite (Eflag _ v_zero) by reflexivity. rewrite I1. destruct (u =? v); reflexivity. }
    assert (Zf4 : forall u, v_zero (t_info t4 u) = if u =? v then true else v_zero (t_info t u)) by (intros u; rewrite (D5 _ v_zero) by reflexivity; apply Zf).
    assert (Ecv4 : forall k, (k < d)%nat -> colv t4 k = if Nat.eqb k c then colv t d else colv t k).
    { intros k Hk. rewrite D2 by exact Hk. rewrite Ecv. rewrite (proj2 (Nat.eqb_neq k d)) by lia. reflexivity. }
    assert (Nr4 : nrow t3 = nrow t) by (unfold nrow; rewrite Nv3; reflexivity).
    assert (Ecf4 : forall i k, (i < nrow t)%nat -> (k < d)%nat -> cf t4 i k = if Nat.eqb k c then cf t i d else cf t i k).
    { intros i k Hi Hk. unfold cf at 1. rewrite D3 by (rewrite ?Nr4; unfold d in *; lia). fold (cf t3 i k). rewrite Ecf by exact Hi. rewrite (proj2 (Nat.eqb_neq k d)) by lia. reflexivity. }
    assert (F4 : flagged t4).
    { constructor.
      - change (t_dead t4) with (t_dead t3). rewrite E2, D1. unfold d. lia.
      - change (t_red t4) with (t_red t3). change (nrow t4) with (nrow t3). rewrite Nr4, Nv4. apply (f_red _ F).
      - intros i Hi. change (rowv t4 i) with (rowv t3 i). change (t_red t4) with (t_red t3). unfold rowv. rewrite (D5 _ v_red), (Eflag _ v_red), (Fl _ v_red) by reflexivity. rewrite Nv3, Nv4. apply (f_rows _ F). change (nrow t4) with (length (t_rv t3)) in Hi. rewrite Nv3 in Hi. exact Hi.
      - intros k Hk. rewrite D1 in Hk. change (t_dead t4) with (t_dead t3). rewrite E2, Ecv4 by exact Hk. rewrite Zf4. split.
        + destruct (Nat.eqb_spec k c) as [->|Nk].
          * rewrite (proj2 (Z.eqb_neq _ _)); [destruct (f_cols _ F d) as (-> & _); [unfold d; lia|]; rewrite !(proj2 (Nat.ltb_ge _ _)) by lia; reflexivity|]. intros E. apply (colv_inj t) in E; [lia|exact A|unfold d; lia|lia].
          * rewrite (proj2 (Z.eqb_neq _ _)); [apply (f_cols _ F k); unfold d in *; lia|]. intros E. apply Nk, (colv_inj t); [exact A|unfold d in *; lia|lia|exact E].
        + rewrite (D5 _ v_red), (Eflag _ v_red), (Fl _ v_red) by reflexivity. destruct (Nat.eqb k c); apply (f_cols _ F); unfold d in *; lia.
      - intros u Vu Iu. assert (Vu' : valid t u) by (unfold valid in *; change (t_nvar t4) with (t_nvar t3) in Vu; change (t_ncon t4) with (t_ncon t3) in Vu; rewrite Nv1, Nv2 in Vu; exact Vu).
        rewrite (D5 _ v_row), (D5 _ v_red), (Eflag _ v_row), (Eflag _ v_red), (Fl _ v_row), (Fl _ v_red) by reflexivity. destruct (v_row (t_info t u)) eqn:Ru.
        + rewrite D6 in Iu by (rewrite Erow by exact Ru; exact Ru). rewrite Erow in Iu by exact Ru. pose proof (f_gone _ F u Vu' Iu) as H. rewrite Ru in H. exact H.
        + assert (G : gone t4 u). { split; [exact Iu|]. rewrite (D5 _ v_row), (Eflag _ v_row), (Fl _ v_row) by reflexivity. exact Ru. }
          apply D7 in G. rewrite Zf4. destruct (Z.eqb_spec u v) as [->|Nu].
          * split; [exact Neg|]. split; [reflexivity|]. apply (f_cols _ F c). lia.
          * destruct G as [G|G]; [congruence|]. apply Egone in G. destruct G as (G1 & G2). pose proof (f_gone _ F u Vu' G1) as H. rewrite Ru in H. exact H.
      - intros u Vu Pu. assert (Vu' : valid t u) by (unfold valid in *; change (t_nvar t4) with (t_nvar t3) in Vu; change (t_ncon t4) with (t_ncon t3) in Vu; rewrite Nv1, Nv2 in Vu; exact Vu).
        rewrite Zf4, (proj2 (Z.eqb_neq _ _)) by lia. rewrite (D5 _ v_nonneg), (D5 _ v_red), (Eflag _ v_nonneg), (Eflag _ v_red), (Fl _ v_nonneg), (Fl _ v_red) by reflexivity. apply (f_var _ F); assumption. }
    cbn [wp]. split.
    { constructor; [exact A4|exact F4| | |exact R4|exact In4].
      - change (t_ncon t4) with (t_ncon t3). rewrite Nv2. apply C.
      - change (t_nvar t4) with (t_nvar t3). rewrite Nv1. apply C. }
    split; [|split; [|split; [|reflexivity]]].
    + constructor; try assumption; try (unfold t4, t3; destruct (Nat.eqb c d); reflexivity).
      * intros i Hi. unfold den, cst. rewrite !D3 by (rewrite ?Nr4; lia). apply Edc. exact Hi.
      * intros u. rewrite !(D5 _ v_red), !(D5 _ v_nonneg), !(D5 _ v_frozen), !(D5 _ v_row), !(D5 _ v_marked), !(D5 _ v_negated) by reflexivity.
        rewrite !(Eflag _ v_red), !(Eflag _ v_nonneg), !(Eflag _ v_frozen), !(Eflag _ v_row), !(Eflag _ v_marked), !(Eflag _ v_negated) by reflexivity.
        rewrite !(Fl _ v_red), !(Fl _ v_nonneg), !(Fl _ v_frozen), !(Fl _ v_row), !(Fl _ v_marked), !(Fl _ v_negated) by reflexivity. auto 10.
      * intros u Ru. rewrite D6 by (rewrite Erow by exact Ru; exact Ru). apply Erow. exact Ru.
      * intros u Zu. rewrite Zf4. destruct (u =? v); auto.
      * intros k Hk. change (t_dead t4) with (t_dead t3) in Hk. rewrite E2, D1 in Hk.
        exists (if Nat.eqb k c then d else k). rewrite Ecv4 by lia. split; [destruct (Nat.eqb k c); unfold d in *; lia|]. split; [destruct (Nat.eqb k c); reflexivity|]. intros i Hi. rewrite Ecf4 by (exact Hi || lia). destruct (Nat.eqb k c); reflexivity.
      * intros u Zu. rewrite Zf4 in Zu. destruct (Z.eqb_spec u v) as [Eu|]; [right; exists c; split; [exact Hc|]; split; [symmetry; exact Eu|reflexivity]|left; exact Zu].
    + unfold moved. rewrite U. fold d. split; [exact D1|]. split; [exact E2|]. intros k Hk. cbn zeta. rewrite Ecv4 by lia.
      split; [destruct (Nat.eqb k c); reflexivity|]. intros i Hi. rewrite Ecf4 by (exact Hi || lia). destruct (Nat.eqb k c); reflexivity.
    + rewrite Zf4, Z.eqb_refl. reflexivity.
Qed.
