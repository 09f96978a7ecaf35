(** Restoring the redundant rows. *)
From Coq Require Import ZArith List Bool Arith Lia.
From Verif Require Import SeqModel SeqSpec SeqProofs MatModel BMapModel BMapLists BMapGauss2 BElimSpec BElimFM TabModel TabSpec TabBase TabStruct TabMark TabPivot TabStep TabSign TabMin TabKill TabAdd TabClose TabCut TabDetect.
Import ListNotations.
Open Scope Z_scope.

Section Unmark.
Variables (j : bool) (L : list (list Z)) (t : tab) (n : nat).
Hypothesis R : represents j L t.
Hypothesis Hn : t_red t = S n.
Let v := rowv t n.
Let t0 := if 0 <=? v then upd t v (vs_nonneg false) else t.
Let t' := w_red (upd t0 v (vs_red false)) n.
Let C : core L t. Proof. apply R. Qed.
Let A : arranged t. Proof. apply C. Qed.
Let F : flagged t. Proof. apply C. Qed.
Let Hn' : (n < nrow t)%nat. Proof. pose proof (f_red _ F). lia. Qed.
Lemma um_V : valid t v. Proof. apply (a_row _ A n Hn'). Qed.
Lemma um_rd : v_red (t_info t v) = true. Proof. unfold v. rewrite (f_rows _ F n Hn'). apply Nat.ltb_lt. lia. Qed.
Lemma um_info u : t_info t' u = if u =? v then vs_red false (if 0 <=? v then vs_nonneg false (t_info t u) else t_info t u) else t_info t u.
Proof. unfold t', t0. destruct (0 <=? v) eqn:E; cbn; destruct (Z.eqb_spec u v) as [Eu|]; try reflexivity; rewrite Eu, ?Z.eqb_refl; reflexivity. Qed.
Lemma um_flag {X} (f : tvar -> X) u : (forall x, f (vs_red false x) = f x) -> (forall x, f (vs_nonneg false x) = f x) -> f (t_info t' u) = f (t_info t u).
Proof. intros H1 H2. rewrite um_info. destruct (u =? v); [|reflexivity]. rewrite H1. destruct (0 <=? v); auto. Qed.
Lemma um_red u : v_red (t_info t' u) = if u =? v then false else v_red (t_info t u).
Proof. rewrite um_info. destruct (u =? v); reflexivity. Qed.
Lemma um_nonneg u : v_nonneg (t_info t' u) = if (u =? v) && (0 <=? v) then false else v_nonneg (t_info t u).
Proof. rewrite um_info. destruct (u =? v); [|reflexivity]. destruct (0 <=? v); reflexivity. Qed.
Lemma um_valid u : valid t' u <-> valid t u.
Proof. unfold t', t0. destruct (0 <=? v); reflexivity. Qed.
Lemma um_shape : shape t t'.
Proof. unfold t', t0. destruct (0 <=? v) eqn:E; (constructor; try reflexivity); intros u; (split; [apply (um_flag v_idx)|apply (um_flag v_row)]) || idtac; cbn; destruct (Z.eqb_spec u v) as [Eu|]; auto; rewrite ?Eu, ?Z.eqb_refl; auto. Qed.
Lemma um_same : nrow t' = nrow t /\ ncol t' = ncol t /\ t_dead t' = t_dead t /\ t_red t' = n /\ t_rows t' = t_rows t /\ t_rv t' = t_rv t /\ t_cv t' = t_cv t /\ t_nvar t' = t_nvar t /\ t_ncon t' = t_ncon t.
Proof. unfold t', t0. destruct (0 <=? v); repeat split; reflexivity. Qed.
Lemma um_core : core L t'.
Proof.
  destruct um_same as (Nr & Nc & Nd & Nd2 & _ & Erv & Ecv & Nv & Ncn).
  constructor; [apply (arranged_shape _ _ um_shape), A| |rewrite Ncn; apply C|rewrite Nv; apply C|apply (related_shape _ _ um_shape), C|apply (independent_shape _ _ um_shape), C].
  constructor.
  - rewrite Nc, Nd. apply F.
  - rewrite Nr, Nd2. lia.
  - intros i Hi. rewrite Nr in Hi. unfold rowv. rewrite Erv. fold (rowv t i). rewrite Nd2, um_red. destruct (Z.eqb_spec (rowv t i) v) as [E|N].
    + assert (i = n) by (apply (rowv_inj t); auto). symmetry. apply Nat.ltb_ge. lia.
    + rewrite (f_rows _ F i Hi), Hn. assert (i <> n) by (intros ->; apply N; reflexivity). destruct (Nat.ltb_spec i (S n)), (Nat.ltb_spec i n); try reflexivity; lia.
  - intros c Hc. rewrite Nc in Hc. unfold colv. rewrite Ecv. fold (colv t c). rewrite Nd, um_red, (um_flag v_zero) by reflexivity. destruct (f_cols _ F c Hc) as (X & Y). split; [exact X|]. destruct (colv t c =? v); [reflexivity|exact Y].
  - intros u V I. apply um_valid in V. rewrite (um_flag v_idx) in I by reflexivity. destruct (f_gone _ F u V I) as (P & Q). split; [exact P|]. rewrite um_red, (um_flag v_zero), (um_flag v_row) by reflexivity.
    destruct (Z.eqb_spec u v) as [E|N]; [|exact Q]. destruct (a_row _ A n Hn') as (_ & X & _). fold v in X. congruence.
  - intros u V P. apply um_valid in V. rewrite um_red, (um_flag v_zero), um_nonneg by reflexivity. destruct (f_var _ F u V P) as (X & Y). split; [exact X|].
    destruct (Z.eqb_spec u v) as [E|N]; [|exact Y]. rewrite <- E. rewrite (proj2 (Z.leb_le _ _)) by exact P. discriminate.
Qed.
Lemma um_feas p : adm j p -> (feas L t' p <-> feas L t p).
Proof.
  intros Ad. destruct um_same as (_ & _ & _ & _ & _ & _ & _ & Nv & _). split.
  - intros (Lp & H). split; [congruence|]. intros u V. destruct (H u (proj2 (um_valid u) V)) as (H1 & H2). rewrite (um_flag v_zero) in H1 by reflexivity. split; [exact H1|]. intros N1 R1.
    assert (u <> v) by (intros ->; rewrite um_rd in R1; discriminate). apply H2; [rewrite um_nonneg|rewrite um_red]; rewrite (proj2 (Z.eqb_neq _ _)) by assumption; assumption.
  - intros Fe. pose proof Fe as (Lp & H). split; [congruence|]. intros u V. apply um_valid in V. destruct (H u V) as (H1 & H2). rewrite (um_flag v_zero) by reflexivity. split; [exact H1|]. rewrite um_nonneg, um_red.
    destruct (Z.eqb_spec u v) as [E|N]; [|exact H2]. cbn [andb]. destruct (0 <=? v); [discriminate|]. intros N1 _. apply (r_imp _ _ _ R p Ad Fe u V N1).
Qed.
Lemma um_represents : represents j L t'.
Proof.
  destruct um_same as (_ & _ & _ & _ & _ & _ & _ & Nv & _). constructor; [exact um_core| |].
  - intros p Lp H u V Zu. rewrite Nv in Lp. apply um_valid in V. rewrite (um_flag v_zero) in Zu by reflexivity. apply (r_zero _ _ _ R p Lp); [|exact V|exact Zu]. intros x Vx Zx Rx. apply H; [apply um_valid; exact Vx|rewrite (um_flag v_zero) by reflexivity; exact Zx|rewrite (um_flag v_row) by reflexivity; exact Rx].
  - intros p Ad Fe u V Nu. apply um_feas in Fe; [|exact Ad]. apply um_valid in V. rewrite um_nonneg in Nu. destruct ((u =? v) && (0 <=? v)); [discriminate|]. apply (r_imp _ _ _ R p Ad Fe u V Nu).
Qed.
Lemma um_live : live_row t' v n.
Proof. destruct um_same as (Nr & _ & _ & Nd & _ & Erv & _). split; [rewrite Nr, Nd; lia|]. unfold rowv. rewrite Erv. reflexivity. Qed.
Lemma um_sample : sample_ok None t -> sample_ok (Some v) t'.
Proof.
  destruct um_same as (Nr & _ & _ & Nd & Ers & Erv & _). intros D i Hi Nx Nn. rewrite Nr, Nd in Hi. unfold rowv in Nx, Nn. rewrite Erv in Nx, Nn. fold (rowv t i) in Nx, Nn. unfold cst, ent. rewrite Ers. apply D; [|discriminate|].
  - rewrite Hn. assert (i <> n) by (intros ->; apply Nx; reflexivity). lia.
  - rewrite um_nonneg in Nn. destruct ((rowv t i =? v) && (0 <=? v)); [discriminate|exact Nn].
Qed.
Lemma um_kept int : (j = true -> int = true) -> kept int L t t'.
Proof.
  intros Hj. destruct um_same as (_ & _ & _ & _ & _ & _ & _ & Nv & Ncn). constructor; try assumption; try (unfold t', t0; destruct (0 <=? v); reflexivity).
  - intros u V Zu. rewrite (um_flag v_zero) by reflexivity. exact Zu.
  - intros u V Ng Nu. rewrite um_nonneg. destruct (Z.eqb_spec u v) as [E|]; [|exact Nu]. rewrite <- E. rewrite (proj2 (Z.leb_gt _ _)) by exact Ng. exact Nu.
  - intros p (Hp & H1). apply um_feas. split; [exact Hp|]. auto.
  - unfold t', t0. destruct (0 <=? v); auto.
Qed.
Lemma um_marks : marks_ok t -> marks_ok t'.
Proof.
  intros M u V Ng Mk. apply um_valid in V. rewrite (um_flag v_marked) in Mk by reflexivity. rewrite um_nonneg. destruct (Z.eqb_spec u v) as [E|]; [|apply M; assumption]. rewrite <- E. rewrite (proj2 (Z.leb_gt _ _)) by exact Ng. apply M; assumption.
Qed.
End Unmark.

Lemma restore_loop_ok int L : forall fuel t, represents false L t -> sample_ok None t -> marks_ok t -> wp (restore_redundant_loop fuel t) (good false int L t).
Proof.
  induction fuel as [|f IH]; intros t R D M; [exact I|]. cbn [restore_redundant_loop]. destruct (t_red t) as [|n] eqn:Hn.
  { split; [exact R|]. split; [apply kept_refl|]. split; assumption. }
  set (v := rowv t n). set (t0 := if 0 <=? v then upd t v (vs_nonneg false) else t).
  pose proof (um_represents false L t n R Hn) as R1. pose proof (um_live false L t n R Hn) as L1. pose proof (um_sample false L t n R Hn D) as D1. pose proof (um_kept false L t n R Hn int) as K1. pose proof (um_marks t n M) as M1.
  pose proof (fun p => um_feas false L t n R Hn p) as Fe1. cbv zeta in R1, L1, D1, K1, M1, Fe1. fold v in R1, L1, D1, K1, M1, Fe1. fold t0 in R1, L1, D1, K1, M1, Fe1.
  assert (E : restore_last_redundant f t0 = do (t, _) <- restore_row f (w_red (upd t0 v (vs_red false)) n) v ;; Ok t).
  { unfold restore_last_redundant. assert (t_red t0 = S n) as -> by (unfold t0; destruct (0 <=? v); exact Hn). assert (rowv t0 n = v) as -> by (unfold t0; destruct (0 <=? v); reflexivity). reflexivity. }
  rewrite E. clear E. set (t1 := w_red (upd t0 v (vs_red false)) n) in *. apply wp_bind, wp_bind.
  assert (Lv : live_row t1 v n) by exact L1.
  eapply wp_weak; [apply (restore_row_ok false L v f t1 n R1 Lv D1)|]. intros [t2 s] (R2 & E2 & Rd2 & D2 & Neg & Pos). cbn [wp].
  assert (D2' : sample_ok None t2).
  { destruct (Z_lt_le_dec s 0) as [Ls|Ge]; [|apply Pos; exact Ge]. specialize (Neg Ls). destruct (v_nonneg (t_info t2 v)) eqn:Nn; [|apply (sample_free None t2 v D2 Nn)]. exfalso.
    destruct (sample_nonempty false L t R D) as (p & Hp & Fe). assert (Ad : adm false p) by (split; [exact Hp|discriminate]). apply Fe1 in Fe; [|exact Ad]. apply (e_feas _ _ _ E2 p Hp) in Fe.
    pose proof (Neg p Hp Fe). destruct Fe as (_ & Q). destruct (live_row_info t1 v n (c_arr _ _ (r_core _ _ _ R1)) (c_flg _ _ (r_core _ _ _ R1)) Lv) as (V1 & _). destruct (Q v (proj2 (evolve_valid _ _ _ _ E2) V1)) as (_ & Q2). specialize (Q2 Nn Rd2). lia. }
  pose proof (evolve_step int L t1 t2 E2) as P2.
  eapply wp_weak; [apply (IH t2 R2 D2' (step_marks _ _ _ _ P2 M1))|]. intros t3 G. eapply good_trans; [|exact G]. eapply kept_trans; [apply K1; discriminate|apply step_kept; exact P2].
Qed.
Theorem restore_redundant_ok int L fuel t : represents false L t -> sample_ok None t -> marks_ok t -> t_undo t = false -> wp (restore_redundant fuel t) (good false int L t).
Proof. intros R D M U. unfold restore_redundant. rewrite U. apply restore_loop_ok; assumption. Qed.
