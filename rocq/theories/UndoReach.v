(** The records that the operations leave lead back to the snapshot. *)
From Coq Require Import ZArith List Bool Arith Lia.
From Verif Require Import SeqModel SeqSpec MatModel TabModel TabSpec TabBase TabStruct TabMark TabPivot TabStep TabSign TabKill TabAdd TabMin TabCut TabBuild TabMap LpModel LpUndo UndoSpec UndoBase UndoTrail UndoRoll UndoProofs.
Import ListNotations.
Open Scope Z_scope.

Lemma upd_info t v f u : t_info (upd t v f) u = if u =? v then f (t_info t u) else t_info t u.
Proof. cbn [upd w_info t_info]. destruct (Z.eqb_spec u v) as [->|]; reflexivity. Qed.
Lemma core_upd L t v f : core L t -> (forall x, v_idx (f x) = v_idx x /\ v_row (f x) = v_row x) -> (forall x, v_red (f x) = v_red x) ->
  (v < 0 \/ (forall x, v_zero (f x) = v_zero x /\ v_nonneg (f x) = v_nonneg x)) -> ((valid t v /\ v_row (t_info t v) = true) \/ (forall x, v_zero (f x) = v_zero x)) -> core L (upd t v f).
Proof.
  intros C Hs Hr Hn Hz. assert (Sh : shape t (upd t v f)) by (apply shape_upd; exact Hs). pose proof (c_arr _ _ C) as A. pose proof (c_flg _ _ C) as F.
  assert (I : forall u, v_idx (t_info (upd t v f) u) = v_idx (t_info t u) /\ v_row (t_info (upd t v f) u) = v_row (t_info t u) /\ v_red (t_info (upd t v f) u) = v_red (t_info t u)).
  { intros u. rewrite upd_info. destruct (u =? v); [|auto]. destruct (Hs (t_info t u)) as (-> & ->). rewrite Hr. auto. }
  constructor; [apply (arranged_shape _ _ Sh A)| |apply C|apply C|apply (related_shape _ _ Sh), C|apply (independent_shape _ _ Sh), C].
  constructor.
  - apply F.
  - apply F.
  - intros i Hi. change (rowv (upd t v f) i) with (rowv t i). destruct (I (rowv t i)) as (_ & _ & ->). apply F, Hi.
  - intros c Hc. change (colv (upd t v f) c) with (colv t c). destruct (I (colv t c)) as (_ & _ & ->). destruct (f_cols _ F c Hc) as (E1 & E2). split; [|exact E2]. change (t_dead (upd t v f)) with (t_dead t). rewrite <- E1, upd_info.
    destruct (Z.eqb_spec (colv t c) v) as [E|]; [|reflexivity]. destruct Hz as [(_ & Hz)|Hz]; [|apply Hz]. destruct (a_col _ A c Hc) as (_ & _ & X). rewrite E, Hz in X. discriminate.
  - intros u Vu N. destruct (I u) as (E1 & E2 & E3). rewrite E1 in N. rewrite E2, E3. destruct (f_gone _ F u Vu N) as (X1 & X2). split; [exact X1|]. destruct (v_row (t_info t u)) eqn:Ru; [exact X2|]. rewrite upd_info. destruct (Z.eqb_spec u v) as [->|]; [|exact X2].
    destruct Hz as [(_ & Hz)|Hz]; [congruence|]. rewrite Hz. exact X2.
  - intros u Vu P. destruct (I u) as (_ & _ & E3). rewrite E3, upd_info. destruct (Z.eqb_spec u v) as [->|]; [|apply (f_var _ F u Vu P)]. destruct Hn as [Hn|Hn]; [lia|]. destruct (Hn (t_info t v)) as (-> & ->). apply (f_var _ F v Vu P).
Qed.
Lemma same_wlog t l : same t (w_log t l).
Proof. constructor; reflexivity. Qed.
Lemma alike_info t t' : t_rv t' = t_rv t -> t_cv t' = t_cv t -> t_nvar t' = t_nvar t -> t_ncon t' = t_ncon t -> t_red t' = t_red t -> t_dead t' = t_dead t -> t_empty t' = t_empty t -> t_rat t' = t_rat t ->
  (forall u, valid t u -> flags (t_info t' u) = flags (t_info t u) /\ v_idx (t_info t' u) = v_idx (t_info t u) /\ v_row (t_info t' u) = v_row (t_info t u)) -> alike t t'.
Proof.
  intros E1 E2 E3 E4 E5 E6 E7 E8 H. constructor; auto; unfold nrow, ncol, rowv, colv; rewrite ?E1, ?E2; auto; intros v Vv; destruct (H v Vv) as (H1 & H2 & H3); auto. rewrite H2. reflexivity.
Qed.
(** ** marking a row *)
Section Mark.
Variables (L : list (list Z)) (t t' : tab) (i : nat) (b : bool).
Hypothesis C : core L t.
Hypothesis Hi : (t_red t <= i < nrow t)%nat.
Hypothesis Un : t_undo t = true.
Hypothesis Nn : rowv t i < 0 -> v_nonneg (t_info t (rowv t i)) = true.
Hypothesis H : mark_redundant t i = Ok (t', b).
Let v := rowv t i.
Definition undone_mark : tab := let s := w_red (upd t' v (vs_red false)) (t_red t' - 1) in if v <? 0 then s else upd s v (vs_nonneg false).
Lemma mk_all : core L t' /\ swept t t' /\ (forall ex, sample_ok ex t -> sample_ok ex t') /\ t_red t' = S (t_red t) /\ rowv t' (t_red t) = v /\ v_nonneg (t_info t' v) = true /\ valid t' v /\
  t_log t' = (if v <? 0 then [U_redundant v] else [U_redundant v; U_nonneg v]) ++ t_log t /\ alike t undone_mark.
Proof.
  pose proof (c_arr _ _ C) as A. pose proof (c_flg _ _ C) as F. pose proof (mark_ok t i A F Hi) as M. rewrite H in M. cbn [wp] in M. destruct M as ((A' & F' & S' & R' & O' & N') & Hnr & Hrd).
  destruct (mark_log t i t' b A F Hi Un Nn H) as (Eb & l & Lg & St & Rw). subst b. fold v in R', O', N'.
  destruct (a_row _ A i) as (V & Ix & Rv); [lia|]. fold v in V, Ix, Rv. assert (V' : valid t' v) by (apply (swept_valid _ _ _ S'); exact V).
  assert (Sk : forall u, v_zero (t_info t' u) = v_zero (t_info t u) /\ v_frozen (t_info t' u) = v_frozen (t_info t u) /\ v_row (t_info t' u) = v_row (t_info t u)) by (intros u; destruct (s_keep _ _ S' u) as (? & ? & ? & _); auto).
  assert (Ev : rowv t' (t_red t) = v).
  { destruct (Z.eq_dec (rowv t' (t_red t)) v) as [E|N]; [exact E|exfalso]. destruct (a_row _ A' (t_red t)) as (V1 & I1 & R1); [lia|]. set (v1 := rowv t' (t_red t)) in *.
    pose proof (f_rows _ F' (t_red t) ltac:(lia)) as Q. fold v1 in Q. rewrite Hrd, (proj2 (Nat.ltb_lt (t_red t) (S (t_red t)))) in Q by lia. destruct (O' v1 N) as (O1 & _). rewrite O1 in Q.
    pose proof (proj1 (swept_valid _ _ _ S') V1) as V1t. rewrite (proj2 (proj2 (Sk v1))) in R1. destruct (s_rc _ _ S' v1 V1t R1) as (I2 & _); [congruence|].
    destruct (v_idx (t_info t v1)) as [j|] eqn:Ij; [|congruence]. destruct (at_row _ _ _ A V1t Ij R1) as (Hj & Ej). rewrite <- Ej, (f_rows _ F j Hj) in Q. apply Nat.ltb_lt in Q. pose proof (Rw j Q) as X. rewrite Ej in X. apply (rowv_inj t') in X; [lia|exact A'|lia|lia]. }
  assert (Ix' : v_idx (t_info t' v) = Some (t_red t)) by (rewrite <- Ev; apply (a_row _ A'); lia).
  assert (Rd : v_red (t_info t v) = false) by (unfold v; rewrite (f_rows _ F i) by lia; apply Nat.ltb_ge; lia).
  assert (X : v_nonneg (t_info t' v) = true /\ t_log t' = (if v <? 0 then [U_redundant v] else [U_redundant v; U_nonneg v]) ++ t_log t).
  { inversion St as [|k l1 v1 Sg E1 Nv St1|k l1 v1 Sg E1 Nv St1]; subst.
    - exfalso. lia.
    - rewrite Ev in *. split; [exact Nv|]. rewrite (proj2 (Z.ltb_lt v 0) Sg). inversion St1 as [|k2 l2 v2 Y1 Y2 Y3 Y|k2 l2 v2 Y1 Y2 Y3 Y]; [subst; exact Lg| |]; exfalso; pose proof (stack_ge _ _ _ _ Y); lia.
    - rewrite Ev in *. split; [exact Nv|]. rewrite (proj2 (Z.ltb_ge v 0) Sg). inversion St1 as [|k2 l2 v2 Y1 Y2 Y3 Y|k2 l2 v2 Y1 Y2 Y3 Y]; [subst; exact Lg| |]; exfalso; pose proof (stack_ge _ _ _ _ Y); lia. }
  destruct X as (X1 & X2). split; [eapply swept_core; eauto|]. split; [exact S'|]. split; [intros ex Ds; apply (swept_sample ex t t'); auto|]. split; [exact Hrd|]. split; [exact Ev|]. split; [exact X1|]. split; [exact V'|]. split; [exact X2|].
  assert (Iu : forall u, t_info undone_mark u = if u =? v then (if v <? 0 then vs_red false (t_info t' v) else vs_nonneg false (vs_red false (t_info t' v))) else t_info t' u).
  { intros u. unfold undone_mark. destruct (v <? 0); rewrite ?upd_info; cbn [t_info w_red]; rewrite ?upd_info; destruct (Z.eqb_spec u v) as [->|]; rewrite ?Z.eqb_refl; reflexivity. }
  assert (Er : t_red undone_mark = t_red t /\ t_dead undone_mark = t_dead t' /\ t_rv undone_mark = t_rv t' /\ t_cv undone_mark = t_cv t' /\ t_nvar undone_mark = t_nvar t' /\ t_ncon undone_mark = t_ncon t' /\ t_empty undone_mark = t_empty t' /\ t_rat undone_mark = t_rat t').
  { unfold undone_mark. destruct (v <? 0); cbn [t_red w_red upd w_info t_dead t_rv t_cv t_nvar t_ncon t_empty t_rat]; rewrite Hrd; cbn [Nat.sub]; rewrite Nat.sub_0_r; auto 10. }
  destruct Er as (Er1 & Er2 & Er3 & Er4 & Er5 & Er6 & Er7 & Er8).
  constructor; unfold nrow, ncol, rowv, colv; rewrite ?Er1, ?Er2, ?Er3, ?Er4, ?Er5, ?Er6, ?Er7, ?Er8.
  - apply S'.
  - apply S'.
  - exact Hnr.
  - rewrite (s_cv _ _ S'). reflexivity.
  - reflexivity.
  - apply S'.
  - apply S'.
  - apply S'.
  - intros u Vu. rewrite Iu. destruct (Sk u) as (K1 & K2 & K3). destruct (Z.eqb_spec u v) as [->|Nu].
    + unfold flags. destruct (Z.ltb_spec v 0) as [Sg|Sg]; cbn [vs_red vs_nonneg v_nonneg v_zero v_red v_frozen]; rewrite K1, K2, Rd.
      * rewrite N', (proj2 (Z.leb_gt 0 v) Sg), orb_false_r. reflexivity.
      * destruct (v_nonneg (t_info t v)) eqn:E; [|reflexivity]. rewrite (proj2 (f_var _ F v V Sg) E) in Rd. discriminate.
    + destruct (O' u Nu) as (O1 & O2 & _). unfold flags. rewrite K1, K2, O1, O2. reflexivity.
  - intros u Vu. rewrite Iu. destruct (Z.eqb_spec u v) as [->|Nu].
    + destruct (v <? 0); cbn [vs_red vs_nonneg v_idx]; rewrite Ix, Ix'; split; discriminate.
    + destruct (O' u Nu) as (_ & _ & O3). split; intros E.
      * destruct (v_idx (t_info t u)); [exfalso; apply O3; [discriminate|exact E]|reflexivity].
      * destruct (v_row (t_info t u)) eqn:Ru; [|rewrite (s_col _ _ S' u Vu Ru); exact E]. destruct (v_idx (t_info t' u)) eqn:E'; [|reflexivity]. exfalso. apply (s_rc _ _ S' u Vu Ru); [congruence|exact E].
  - intros u Vu _. rewrite Iu. destruct (Sk u) as (_ & _ & K3). destruct (Z.eqb_spec u v) as [->|Nu]; [|exact K3]. destruct (v <? 0); exact K3.
  - intros j Hj. apply Rw, Hj.
  - intros j Hj. rewrite (s_cv _ _ S'). reflexivity.
Qed.
End Mark.
(** ** setting a column to zero *)
Section Kill.
Variables (L : list (list Z)) (t t' : tab) (c : nat) (b : bool).
Hypothesis C : core L t.
Hypothesis Hc : (t_dead t <= c < ncol t)%nat.
Hypothesis Neg : colv t c < 0.
Hypothesis Un : t_undo t = true.
Hypothesis H : kill_col t c = Ok (t', b).
Let v := colv t c.
Lemma kl_all : core L t' /\ (forall ex, sample_ok ex t -> sample_ok ex t') /\ t_undo t' = true /\ t_log t' = U_zero v :: t_log t /\
  valid t' v /\ v_zero (t_info t' v) = true /\ t_dead t' = S (t_dead t) /\ colv t' (t_dead t) = v /\ alike t (pundo t' (U_zero v)).
Proof.
  pose proof (c_arr _ _ C) as A. pose proof (c_flg _ _ C) as F. pose proof (kill_ok L t c C Hc Neg) as K. rewrite H in K. cbn [wp] in K. destruct K as (C' & K & _ & Zv & _). fold v in Zv.
  destruct (a_col _ A c) as (V & Ix & Rv); [lia|]. fold v in V, Ix, Rv.
  split; [exact C'|]. split.
  { intros ex D i Hi Nx Nn. assert (Nr : nrow t' = nrow t) by (unfold nrow; rewrite (kl_rv _ _ _ K); reflexivity). assert (Er : rowv t' i = rowv t i) by (unfold rowv; rewrite (kl_rv _ _ _ K); reflexivity).
    rewrite Nr, (kl_red _ _ _ K) in Hi. rewrite Er in *. destruct (kl_flag _ _ _ K (rowv t i)) as (_ & X & _). rewrite X in Nn. destruct (kl_cst _ _ _ K i) as (_ & ->); [lia|]. apply D; auto. }
  split; [rewrite (kl_undo _ _ _ K); exact Un|].
  unfold kill_col in H. fold v in H. set (t1 := upd t v (vs_zero true)) in *. change (t_undo t1) with (t_undo t) in H. rewrite Un in H.
  assert (S1 : shape t t1) by (apply shape_upd; intros; split; reflexivity). pose proof (arranged_shape _ _ S1 A) as A1.
  destruct (push_var t1 U_zero v) as [t2| | |] eqn:Ep; cbn [bind] in H; try discriminate. apply push_var_log in Ep; [|exact Un|exact A1|exact V]. subst t2. change (t_dead (w_log t1 (U_zero v :: t_log t1))) with (t_dead t) in H.
  set (t2 := w_log t1 (U_zero v :: t_log t1)) in *. injection H as H Hb. assert (A2 : arranged t2) by (apply arranged_wlog; exact A1).
  assert (I2 : forall u, t_info t2 u = if u =? v then vs_zero true (t_info t u) else t_info t u) by (intros u; exact (upd_info t v (vs_zero true) u)).
  set (t3 := if Nat.eqb c (t_dead t) then t2 else swap_cols t2 c (t_dead t)) in *.
  assert (X : t_log t3 = U_zero v :: t_log t /\ t_nvar t3 = t_nvar t /\ t_ncon t3 = t_ncon t /\ t_rv t3 = t_rv t /\ ncol t3 = ncol t /\ t_dead t3 = t_dead t /\ t_red t3 = t_red t /\ t_empty t3 = t_empty t /\ t_rat t3 = t_rat t /\
    colv t3 (t_dead t) = v /\ (forall k, (k < t_dead t)%nat -> colv t3 k = colv t k) /\ (forall u, flags (t_info t3 u) = flags (t_info t2 u) /\ v_row (t_info t3 u) = v_row (t_info t2 u) /\ (v_idx (t_info t3 u) = None <-> v_idx (t_info t2 u) = None))).
  { unfold t3. destruct (Nat.eqb_spec c (t_dead t)) as [E|N].
    - repeat (split; [reflexivity|]). split; [unfold v; rewrite E; reflexivity|]. split; [reflexivity|]. intros u. split; [reflexivity|]. split; reflexivity.
    - assert (Hd : (t_dead t < ncol t2)%nat) by (change (ncol t2) with (ncol t); lia). assert (Hc2 : (c < ncol t2)%nat) by apply Hc.
      repeat (split; [reflexivity|]). split; [exact (swc_ncol t2 c (t_dead t))|]. repeat (split; [reflexivity|]). split; [rewrite swc_colv by assumption; rewrite Nat.eqb_refl; reflexivity|]. split.
      + intros k Hk. rewrite swc_colv by assumption. rewrite (proj2 (Nat.eqb_neq k (t_dead t))), (proj2 (Nat.eqb_neq k c)) by lia. reflexivity.
      + intros u. rewrite !(swc_flag t2 c (t_dead t)) by (assumption || reflexivity). split; [reflexivity|]. split; [reflexivity|]. rewrite swc_info by assumption.
        destruct (a_col _ A2 c Hc2) as (_ & J1 & _). destruct (a_col _ A2 _ Hd) as (_ & J2 & _).
        destruct (Z.eqb_spec u (colv t2 c)) as [->|]; [cbn [vs_idx v_idx]; rewrite J1; split; discriminate|]. destruct (Z.eqb_spec u (colv t2 (t_dead t))) as [->|]; [cbn [vs_idx v_idx]; rewrite J2; split; discriminate|reflexivity]. }
  destruct X as (X1 & X2 & X3 & X4 & X5 & X6 & X7 & X8 & X9 & X10 & X11 & X12). subst t'.
  split; [exact X1|]. split; [unfold valid; cbn [t_ncon t_nvar w_dead]; rewrite X2, X3; exact V|]. split; [exact Zv|]. split; [cbn [t_dead w_dead]; rewrite X6; reflexivity|]. split; [exact X10|].
  assert (Rw3 : v_row (t_info t3 v) = false). { rewrite (proj1 (proj2 (X12 v))), I2, Z.eqb_refl. exact Rv. }
  cbn [pundo]. rewrite upd_info, Z.eqb_refl. cbn [vs_zero v_row]. change (t_info (w_dead t3 (S (t_dead t3)))) with (t_info t3). rewrite Rw3. set (t4 := w_dead _ _).
  assert (I4 : forall u, t_info t4 u = if u =? v then vs_zero false (t_info t3 u) else t_info t3 u) by (intros u; exact (upd_info t3 v (vs_zero false) u)).
  assert (Zf : v_zero (t_info t v) = false). { destruct (f_cols _ F c) as (E & _); [lia|]. fold v in E. rewrite E. apply Nat.ltb_ge. lia. }
  assert (D4 : t_dead t4 = t_dead t) by (unfold t4; cbn [t_dead w_dead upd w_info]; rewrite X6; cbn [Nat.sub]; apply Nat.sub_0_r).
  constructor.
  - exact X2.
  - exact X3.
  - unfold nrow. change (t_rv t4) with (t_rv t3). rewrite X4. reflexivity.
  - exact X5.
  - exact X7.
  - exact D4.
  - exact X8.
  - exact X9.
  - intros u Vu. rewrite I4. destruct (X12 u) as (F3 & _ & _). rewrite I2 in F3. destruct (Z.eqb_spec u v) as [->|]; [|exact F3]. apply fl_eq in F3. destruct F3 as (Y1 & _ & Y3 & Y4). unfold flags. cbn [vs_zero v_nonneg v_zero v_red v_frozen] in *. rewrite Y1, Y3, Y4, Zf. reflexivity.
  - intros u Vu. rewrite I4. destruct (X12 u) as (_ & _ & Y). rewrite I2 in Y. destruct (Z.eqb_spec u v) as [->|]; [|exact Y]. exact Y.
  - intros u Vu _. rewrite I4. destruct (X12 u) as (_ & Y & _). rewrite I2 in Y. destruct (Z.eqb_spec u v) as [->|]; exact Y.
  - intros j Hj. unfold rowv. change (t_rv t4) with (t_rv t3). rewrite X4. reflexivity.
  - intros j Hj. apply X11, Hj.
Qed.
End Kill.
(** ** adding a row *)
Lemma dropped_row t r : arranged t -> flagged t -> dropped t (with_row t r).
Proof.
  intros A F. assert (O : forall v, valid t v -> t_info (with_row t r) v = t_info t v). { intros v V. unfold valid, con in *. cbn [with_row w_ncon w_rows w_rv upd w_info t_info]. unfold con. rewrite (proj2 (Z.eqb_neq _ _)) by lia. reflexivity. }
  constructor; try reflexivity.
  - unfold nrow. cbn [with_row w_ncon w_rows w_rv upd w_info t_rv]. rewrite app_length. cbn [length]. lia.
  - intros v V. rewrite O by exact V. reflexivity.
  - intros v V. rewrite O by exact V. reflexivity.
  - intros v V _. rewrite O by exact V. reflexivity.
  - intros j Hj. unfold rowv. cbn [with_row w_ncon w_rows w_rv upd w_info t_rv]. apply app_nth1. pose proof (f_red _ F). fold (nrow t). lia.
  - cbn [with_row w_ncon w_rows w_rv upd w_info t_info]. rewrite Z.eqb_refl. reflexivity.
  - cbn [with_row w_ncon w_rows w_rv upd w_info t_info]. rewrite Z.eqb_refl. discriminate.
Qed.

(** ** the invariant *)
Section Reach.
Variables (L0 : list (list Z)) (t0 : tab).
Hypothesis R0 : represents false L0 t0.
Hypothesis D0 : sample_ok None t0.
Hypothesis Un0 : t_undo t0 = true.
Record inv (ex : option Z) (L : list (list Z)) (t : tab) : Prop := {
  i_core : core L t; i_samp : sample_ok ex t; i_undo : t_undo t = true; i_ex : forall x, ex = Some x -> x < 0;
  i_log : exists l, t_log t = l ++ t_log t0 /\ trail L0 t0 l ex L t }.
Lemma inv_upd ex L t v f : inv ex L t -> core L (upd t v f) -> (forall x, v_nonneg (f x) = v_nonneg x) -> (forall x, flags (f x) = flags x /\ v_idx (f x) = v_idx x /\ v_row (f x) = v_row x) -> inv ex L (upd t v f).
Proof.
  intros [C D U E (l & Lg & T)] C' Hn Hf. constructor; auto.
  - intros i Hi Nx Nn. apply D; [exact Hi|exact Nx|]. change (rowv (upd t v f) i) with (rowv t i) in *. rewrite upd_info in Nn. destruct (_ =? _); [rewrite Hn in Nn|]; exact Nn.
  - exists l. split; [exact Lg|]. apply (trail_alike L0 t0 l ex L t); auto; [apply C|apply C'|]. apply alike_info; try reflexivity. intros u Vu. rewrite upd_info. destruct (u =? v); auto.
Qed.
(** a flag that is set, with a record *)
Lemma inv_set ex ex' L t v f u : inv ex L t -> core L (upd t v f) -> (forall x, ex' = Some x -> x < 0) -> sample_ok ex' (upd t v f) ->
  (forall l, trail L0 t0 l ex L t -> trail L0 t0 (u v :: l) ex' L (upd t v f)) -> valid t v -> forall t', push_var (upd t v f) u v = Ok t' -> inv ex' L t'.
Proof.
  intros [C D U E (l & Lg & T)] C' E' D' HT V t' Ep. apply push_var_log in Ep; [|exact U|apply C'|exact V]. subst t'. pose proof (same_wlog (upd t v f) (u v :: t_log (upd t v f))) as Sm.
  constructor; auto.
  - apply (same_core _ _ _ Sm C').
  - exists (u v :: l). split; [cbn [t_log w_log upd w_info app]; rewrite Lg; reflexivity|]. apply (trail_alike L0 t0 _ ex' L (upd t v f)); [apply C'|apply (same_core _ _ _ Sm C')|apply alike_info; try reflexivity; auto|apply HT; exact T].
Qed.
Lemma inv_global ex L t t' u : inv ex L t -> same t t' -> t_undo t' = t_undo t -> u = U_empty \/ u = U_rational ->
  (t_log t' = u :: t_log t /\ alike t (pundo t' u)) \/ (t_log t' = t_log t /\ alike t t') -> inv ex L t'.
Proof.
  intros [C D U E (l & Lg & T)] Sm Eu Hu H. pose proof (same_core _ _ _ Sm C) as C'. constructor; [exact C'|apply (same_sample _ _ _ Sm D)|congruence|exact E|].
  destruct H as [(Lg' & Al)|(Lg' & Al)].
  - exists (u :: l). split; [rewrite Lg', Lg; reflexivity|]. assert (X : trail L0 t0 l ex L (pundo t' u)). { apply (trail_alike L0 t0 l ex L t); auto; [apply C|]. apply (arranged_shape t'); [apply pundo_shape|apply C']. }
    destruct Hu as [->| ->]; exact X.
  - exists l. split; [congruence|]. apply (trail_alike L0 t0 l ex L t); auto; [apply C|apply C'].
Qed.
Lemma reach_inv ex L t : reach L0 t0 ex L t -> inv ex L t.
Proof.
  induction 1 as [|ex ex' L t i c Rc IH Rp Hi Hc Nz Ds Ex|ex L t i t' b Rc IH Rp Hi Nn Hm Im|ex L t c t' b Rc IH Hc Neg Hk|L t line t' Rc IH Rp Ll Ha|L t v t' Rc IH V Neg Nf Rf Hp|ex L t v t' Rc IH V Neg Rw Zf Hp|ex L t Rc IH Ds|ex L t v t' Rc IH V Hf|ex L t Rc IH|ex L t Rc IH|ex L t v b Rc IH|L t t' Rc IH R' D' Al' Lg' U'].
  - constructor; [apply R0|exact D0|exact Un0|discriminate|]. exists []. split; [reflexivity|]. cbn [trail]. split; [reflexivity|]. split; [reflexivity|apply alike_refl].
  - destruct IH as [C D U E (l & Lg & T)]. pose proof (st_represents false L t i c Rp Hi Hc Nz) as R1. constructor; [apply R1|exact Ds|exact U| |].
    + intros x ->. destruct Ex as [<-|]; [apply E; reflexivity|discriminate].
    + exists l. split; [exact Lg|]. apply (trail_alike L0 t0 l ex' L t); [apply C|apply R1|apply (alike_step L); assumption|]. destruct Ex as [->| ->]; [exact T|]. destruct ex as [x|]; [|exact T]. apply (trail_settle L0 t0 l x), T.
  - destruct IH as [C D U E (l & Lg & T)]. destruct (mk_all L t t' i b C Hi U Nn Hm) as (C' & S' & Ds & Rd & Ev & Nv & V' & Lg' & Al). set (v := rowv t i) in *.
    constructor; [exact C'|apply Ds, D|rewrite (s_undo _ _ S'); exact U|exact E|].
    exists ((if v <? 0 then [U_redundant v] else [U_redundant v; U_nonneg v]) ++ l). split; [rewrite Lg', Lg, app_assoc; reflexivity|].
    assert (Rz : rz L t').
    { intros p Lp Hz u Vu Zu. rewrite (s_nvar _ _ S') in Lp. apply (swept_valid _ _ _ S') in Vu. destruct (s_keep _ _ S' u) as (Kz & _). rewrite Kz in Zu. apply (r_zero _ _ _ Rp p Lp); auto.
      intros w Vw Zw Rw. destruct (s_keep _ _ S' w) as (K1 & _ & K3 & _). apply Hz; [apply (swept_valid _ _ _ S'); exact Vw|congruence|congruence]. }
    assert (T1 : trail L0 t0 l ex L (undone_mark t t' i)).
    { apply (trail_alike L0 t0 l ex L t); auto; [apply C|]. unfold undone_mark. apply (arranged_shape t'); [|apply C']. fold v. destruct (v <? 0); [exact (pundo_shape t' (U_redundant v))|]. eapply shape_trans; [exact (pundo_shape t' (U_redundant v))|exact (pundo_shape _ (U_nonneg v))]. }
    unfold undone_mark in T1. fold v in T1.
    assert (Hd : valid t' v /\ t_red t' <> 0%nat /\ rowv t' (t_red t' - 1) = v /\ v_nonneg (t_info t' v) = true /\ posed t' /\ rz L t' /\ implied ex L t' v).
    { split; [exact V'|]. split; [lia|]. split; [rewrite Rd; cbn [Nat.sub]; rewrite Nat.sub_0_r; exact Ev|]. split; [exact Nv|]. split; [apply flagged_posed, C'|]. split; [exact Rz|exact Im]. }
    destruct (Z.ltb_spec v 0) as [Sg|Sg]; cbn [app trail]; (split; [exact Hd|]); [exact T1|]. split; [exact V'|]. destruct ex as [x|]; [|exact T1]. rewrite (proj2 (Z.eqb_neq x v)); [exact T1|]. specialize (E x eq_refl). lia.
  - destruct IH as [C D U E (l & Lg & T)]. destruct (kl_all L t t' c b C Hc Neg U Hk) as (C' & Ds & U' & Lg' & V' & Zv & Dd & Ev & Al). constructor; [exact C'|apply Ds, D|exact U'|exact E|].
    exists (U_zero (colv t c) :: l). split; [rewrite Lg', Lg; reflexivity|]. cbn [trail]. split.
    + split; [exact V'|]. split; [exact Zv|]. intros _. rewrite Dd. split; [discriminate|]. cbn [Nat.sub]. rewrite Nat.sub_0_r. exact Ev.
    + apply (trail_alike L0 t0 l ex L t); auto; [apply C|]. apply (arranged_shape t'); [apply pundo_shape|apply C'].
  - destruct IH as [C D U E (l & Lg & T)]. destruct (add_row_ok L t line C Ll) as (r & Er & [Lr Dr Hr]). rewrite Er in Ha. injection Ha as <-.
    assert (Ep : push (with_row t r) (U_allocate (con (t_ncon t))) = w_log (with_row t r) (U_allocate (con (t_ncon t)) :: t_log t)) by (unfold push; change (t_undo (with_row t r)) with (t_undo t); rewrite U; reflexivity).
    rewrite Ep. pose proof (same_wlog (with_row t r) (U_allocate (con (t_ncon t)) :: t_log t)) as Sm.
    constructor; [apply (same_core _ _ _ Sm), wr_core; auto|apply (same_sample _ _ _ Sm), (wr_sample L t line); auto|exact U|discriminate|].
    exists (U_allocate (con (t_ncon t)) :: l). split; [cbn [t_log w_log app]; rewrite Lg; reflexivity|]. cbn [trail]. split; [reflexivity|]. exists L, line, t. split; [reflexivity|]. split; [exact Ll|]. split; [reflexivity|]. split; [exact Rp|]. split; [exact T|].
    apply (dropped_alike t (with_row t r)); [apply dropped_row; apply C|]. apply alike_info; try reflexivity; auto.
  - assert (C' : core L (upd t v (vs_nonneg true))) by (apply core_upd; [apply IH|intros; split; reflexivity|reflexivity|left; exact Neg|right; reflexivity]).
    apply (inv_set None (Some v) L t v (vs_nonneg true) U_nonneg); auto.
    + intros x [= <-]. exact Neg.
    + destruct IH as [C D U E T]. intros i Hi Nx Nn. change (rowv (upd t v (vs_nonneg true)) i) with (rowv t i) in *. rewrite upd_info, (proj2 (Z.eqb_neq (rowv t i) v)) in Nn by congruence. apply D; auto. discriminate.
    + intros l T. cbn [trail]. split; [exact V|]. rewrite Z.eqb_refl. apply (trail_alike L0 t0 l None L t); [apply IH| | |exact T]; [apply (arranged_shape _ _ (pundo_shape _ _)), C'|].
      apply alike_info; try reflexivity. intros u Vu. cbn [pundo]. rewrite !upd_info. destruct (Z.eqb_spec u v) as [->|]; [|auto]. unfold flags. cbn. rewrite Nf. auto.
  - assert (C' : core L (upd t v (vs_zero true))) by (apply core_upd; [apply IH|intros; split; reflexivity|reflexivity|left; exact Neg|left; auto]).
    apply (inv_set ex ex L t v (vs_zero true) U_zero); auto.
    + apply IH.
    + destruct IH as [C D U E T]. intros i Hi Nx Nn. change (rowv (upd t v (vs_zero true)) i) with (rowv t i) in *. rewrite upd_info in Nn. apply D; auto. destruct (_ =? _); exact Nn.
    + intros l T. cbn [trail]. split.
      * split; [exact V|]. rewrite upd_info, Z.eqb_refl. cbn [vs_zero v_zero v_row]. split; [reflexivity|congruence].
      * apply (trail_alike L0 t0 l ex L t); [apply IH| | |exact T]; [apply (arranged_shape _ _ (pundo_shape _ _)), C'|].
        cbn [pundo]. rewrite !upd_info, Z.eqb_refl. cbn [vs_zero v_row]. rewrite Rw. apply alike_info; try reflexivity. intros u Vu. rewrite !upd_info. destruct (Z.eqb_spec u v) as [->|]; [|auto]. unfold flags. cbn. rewrite Zf. auto.
  - destruct IH as [C D U E (l & Lg & T)]. constructor; auto; [discriminate|]. exists l. split; [exact Lg|]. destruct ex as [x|]; [|exact T]. apply (trail_settle L0 t0 l x), T.
  - unfold freeze in Hf. destruct (v_frozen (t_info t v)) eqn:Fz; [injection Hf as <-; exact IH|]. destruct (v_idx (t_info t v)); [|injection Hf as <-; exact IH]. change (t_undo (upd t v (vs_frozen true))) with (t_undo t) in Hf. rewrite (i_undo _ _ _ IH) in Hf.
    assert (C' : core L (upd t v (vs_frozen true))) by (apply core_upd; [apply IH|intros; split; reflexivity|reflexivity|right; intros; split; reflexivity|right; reflexivity]).
    apply (inv_set ex ex L t v (vs_frozen true) U_freeze); auto.
    + apply IH.
    + destruct IH as [C D U E T]. intros i Hi Nx Nn. change (rowv (upd t v (vs_frozen true)) i) with (rowv t i) in *. rewrite upd_info in Nn. apply D; auto. destruct (_ =? _); exact Nn.
    + intros l T. cbn [trail]. split; [exact V|]. apply (trail_alike L0 t0 l ex L t); [apply IH| | |exact T]; [apply (arranged_shape _ _ (pundo_shape _ _)), C'|].
      apply alike_info; try reflexivity. intros u Vu. cbn [pundo]. rewrite !upd_info. destruct (Z.eqb_spec u v) as [->|]; [|auto]. unfold flags. cbn. rewrite Fz. auto.
  - unfold mark_empty, push. rewrite (i_undo _ _ _ IH). apply (inv_global ex L t _ U_empty IH); auto.
    + destruct (t_empty t); constructor; reflexivity.
    + destruct (t_empty t); reflexivity.
    + destruct (t_empty t) eqn:Q; [right|left]; (split; [reflexivity|]); apply alike_info; auto.
  - unfold mark_rational, push. rewrite (i_undo _ _ _ IH). apply (inv_global ex L t _ U_rational IH); auto.
    + destruct (t_rat t); constructor; reflexivity.
    + destruct (t_rat t); reflexivity.
    + destruct (t_rat t) eqn:Q; [right|left]; (split; [reflexivity|]); apply alike_info; auto.
  - apply inv_upd; auto. apply core_upd; [apply IH|intros; split; reflexivity|reflexivity|right; intros; split; reflexivity|right; reflexivity].
  - destruct IH as [C D U E (l & Lg & T)]. constructor; [apply R'|exact D'|exact U'|discriminate|]. exists l. split; [congruence|]. apply (trail_alike L0 t0 l None L t); [apply C|apply R'|exact Al'|exact T].
Qed.

Lemma rollback_ok fuel ex L t : reach L0 t0 ex L t ->
  exists t', rollback (S fuel) t (length (t_log t0)) = Ok t' /\ represents false L0 t' /\ sample_ok None t' /\ alike t0 t' /\ (forall p, feas L0 t' p <-> feas L0 t0 p) /\
    t_log t' = t_log t0 /\ t_undo t' = true.
Proof.
  intros Rc. destruct (reach_inv _ _ _ Rc) as [C D U E (l & Lg & T)]. set (t1 := w_inundo t true).
  assert (Sm : same t t1) by (constructor; reflexivity). pose proof (same_core _ _ _ Sm C) as C1.
  assert (T1 : trail L0 t0 l ex L t1) by (apply (trail_alike L0 t0 l ex L t); [apply C|apply C1|apply alike_info; auto|exact T]).
  destruct (undo_all L0 t0 fuel l ex L t1) as (t2 & E2 & A2 & Re2 & In2 & Al2 & D2 & _ & Lg2 & U2); auto; try apply C1.
  unfold rollback. rewrite Lg, app_length. replace (length l + length (t_log t0) - length (t_log t0))%nat with (length l) by lia.
  rewrite firstn_app, firstn_all, Nat.sub_diag, firstn_O, app_nil_r, skipn_app, skipn_all, Nat.sub_diag. cbn [app skipn]. fold t1. rewrite E2. cbn [bind]. eexists. split; [reflexivity|].
  set (t3 := w_log _ _). assert (Sm3 : same t2 t3) by (constructor; reflexivity).
  pose proof (alike_represents L0 t0 t2 R0 Al2 A2 Re2 In2) as R2. split; [apply (same_represents _ _ _ _ Sm3 R2)|]. split; [apply (same_sample _ _ _ Sm3 D2)|].
  assert (Al3 : alike t0 t3) by (apply (alike_trans t0 t2 t3 Al2); apply alike_info; auto).
  split; [exact Al3|]. split; [|split; [reflexivity|exact (eq_trans U2 U)]].
  intros p. rewrite <- !feasx_feas. apply alike_feasx. exact Al3.
Qed.
End Reach.
