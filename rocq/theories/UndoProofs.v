(** Rolling back, and the records that the operations leave. *)
From Coq Require Import ZArith List Bool Arith Lia.
From Verif Require Import SeqModel SeqSpec MatModel TabModel TabSpec TabBase TabStruct TabMark TabPivot TabStep TabSign TabKill TabAdd TabMin TabCut TabBuild TabMap LpModel LpUndo UndoSpec UndoBase UndoTrail UndoRoll.
Import ListNotations.
Open Scope Z_scope.

Section Undo.
Variables (L0 : list (list Z)) (t0 : tab) (fuel : nat).
Definition restored (t t' : tab) : Prop :=
  arranged t' /\ related L0 t' /\ independent L0 t' /\ alike t0 t' /\ sample_ok None t' /\ t_inundo t' = true /\ t_log t' = t_log t /\ t_undo t' = t_undo t.
Lemma undo_all : forall l ex L t, arranged t -> related L t -> independent L t -> trail L0 t0 l ex L t -> sample_ok ex t -> t_inundo t = true ->
  exists t', rollback_loop (S fuel) t l = Ok t' /\ restored t t'.
Proof.
  induction l as [|u l IH]; intros ex L t A Re In T D Iu.
  { cbn [trail] in T. destruct T as (-> & -> & Al). exists t. split; [reflexivity|]. repeat (split; [assumption|]). auto. }
  pose proof (pundo_shape t u) as Sh. pose proof (arranged_shape _ _ Sh A) as A'. pose proof (related_shape _ _ Sh _ Re) as Re'. pose proof (independent_shape _ _ Sh _ In) as In'.
  assert (Ig : t_inundo (pundo t u) = true /\ t_log (pundo t u) = t_log t /\ t_undo (pundo t u) = t_undo t).
  { destruct u; cbn [pundo]; auto. destruct (v_row _); auto. }
  destruct Ig as (I1 & I2 & I3).
  assert (Go : forall ex', perform_undo (S fuel) t u = Ok (pundo t u) -> sample_ok ex' (pundo t u) -> trail L0 t0 l ex' L (pundo t u) -> exists t', rollback_loop (S fuel) t (u :: l) = Ok t' /\ restored t t').
  { intros ex' Ep Ds T'. cbn [rollback_loop]. rewrite Ep. cbn [bind]. destruct (IH ex' L (pundo t u)) as (t' & E & X1 & X2 & X3 & X4 & X5 & X6 & X7 & X8); auto.
    exists t'. split; [exact E|]. unfold restored. rewrite <- I2, <- I3. auto 10. }
  assert (Up : forall v f, (forall x, v_nonneg (f x) = v_nonneg x) -> sample_ok ex (upd t v f)).
  { intros v f Hf i Hi Nx Nn. apply D; [exact Hi|exact Nx|]. change (rowv (upd t v f) i) with (rowv t i) in *. cbn [t_info upd w_info] in Nn. destruct (Z.eqb_spec (rowv t i) v) as [<-|]; [rewrite Hf in Nn|]; exact Nn. }
  cbn [trail] in T. destruct u; try contradiction.
  - apply (Go ex); auto.
  - apply (Go ex); auto.
  - destruct T as (Vv & T). apply (Go _ eq_refl) with (2 := T). intros i Hi Nx Nn. cbn [pundo] in *. change (rowv (upd t v (vs_nonneg false)) i) with (rowv t i) in *. cbn [t_info upd w_info] in Nn. destruct (Z.eqb_spec (rowv t i) v) as [E|N]; [discriminate|].
    apply (D i Hi); [|exact Nn]. destruct ex as [x|]; [|discriminate]. destruct (Z.eqb_spec x v) as [->|]; [congruence|exact Nx].
  - destruct T as ((Vv & Nz & Ev & Nn & P & Z0 & Im) & T). destruct (t_red t) as [|n] eqn:Hn; [congruence|]. replace (S n - 1)%nat with n in Ev by lia. pose proof (p_red _ P) as Fr. assert (Hi : (n < nrow t)%nat) by lia.
    destruct (a_row _ A n Hi) as (_ & Ix & Rw). rewrite Ev in Ix, Rw.
    destruct (sample_px ex L t A Re In P Z0 D) as (k & p & K & Hp & Fe & Rv). assert (Cp : 0 <= cst t n).
    { pose proof (Im p ltac:(lia) Fe) as X. specialize (Rv n Hi). rewrite Ev in Rv. pose proof (a_den _ A n Hi). nia. }
    assert (Ep : pundo t (U_redundant v) = w_red (upd t v (vs_red false)) n) by (cbn [pundo]; rewrite Hn; f_equal; lia).
    apply (Go ex); [| |exact T].
    + rewrite Ep. unfold perform_undo. rewrite Rw, Ix, Hn, Nat.eqb_refl. cbn [andb]. unfold restore_last_redundant. rewrite Hn, Ev. set (t1 := w_red (upd t v (vs_red false)) n).
      assert (Ro : row_of t1 v = Ok n). { unfold row_of, t1. cbn [t_info w_red upd w_info]. rewrite Z.eqb_refl. cbn [vs_red v_idx]. rewrite Ix. change (nrow (w_red (upd t v (vs_red false)) n)) with (nrow t). rewrite (proj2 (Nat.ltb_lt _ _) Hi). reflexivity. }
      rewrite (restore_noop fuel t1 v n Ro) by exact Cp. reflexivity.
    + rewrite Ep. intros i Hi' Nx Nn'. destruct (Nat.eq_dec i n) as [->|Nn0]; [exact Cp|]. apply (Up v (vs_red false)); auto. change (nrow (w_red (upd t v (vs_red false)) n)) with (nrow t) in Hi'. change (t_red (upd t v (vs_red false))) with (t_red t). cbn [t_red w_red] in Hi'. change (nrow (upd t v (vs_red false))) with (nrow t). lia.
  - destruct T as (Vv & T). apply (Go ex); auto. cbn [pundo]. apply Up. reflexivity.
  - destruct T as (_ & T). apply (Go ex); auto. cbn [pundo]. destruct (v_row _); apply Up; reflexivity.
  - destruct T as (-> & L1 & l0 & h & -> & Ll & -> & R & T & Dr).
    destruct (undo_alloc L1 l0 h t (S fuel) R Dr A Ll Re In D Iu) as (t1 & E1 & A1 & Re1 & In1 & Al1 & D1 & Iu1 & Lg1 & Un1).
    cbn [rollback_loop]. rewrite E1. cbn [bind]. destruct (IH None L1 t1) as (t' & E & X1 & X2 & X3 & X4 & X5 & X6 & X7 & X8); auto.
    { apply (trail_alike L0 t0 l None L1 h); auto. apply R. }
    exists t'. split; [exact E|]. unfold restored. rewrite <- Lg1, <- Un1. auto 10.
Qed.
End Undo.
