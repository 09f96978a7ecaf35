(** The undo records of a tableau, and replaying them. *)
From Coq Require Import ZArith List Bool Arith Lia.
From Verif Require Import SeqModel SeqSpec MatModel TabModel TabSpec TabBase TabStruct TabMark TabPivot TabStep TabSign TabKill TabAdd TabCut TabBuild LpModel LpUndo UndoSpec UndoBase.
Import ListNotations.
Open Scope Z_scope.

(** what a record undoes, if no pivots are needed *)
Definition pundo (t : tab) (u : undo_rec) : tab :=
  match u with
  | U_rational => w_rat t false
  | U_empty => w_empty t false
  | U_nonneg v => upd t v (vs_nonneg false)
  | U_redundant v => w_red (upd t v (vs_red false)) (t_red t - 1)
  | U_freeze v => upd t v (vs_frozen false)
  | U_zero v => let t := upd t v (vs_zero false) in if v_row (t_info t v) then t else w_dead t (t_dead t - 1)
  | _ => t
  end.
Lemma pundo_shape t u : shape t (pundo t u).
Proof.
  assert (X : forall v (f : tvar -> tvar), (forall x, v_idx (f x) = v_idx x /\ v_row (f x) = v_row x) -> shape t (upd t v f)) by (intros; apply shape_upd; assumption).
  destruct u; cbn [pundo]; try (constructor; auto; fail); try (apply X; intros; split; reflexivity).
  - destruct (X v (vs_red false)) as [X1 X2 X3 X4 X5 X6]; [intros; split; reflexivity|]. constructor; assumption.
  - destruct (X v (vs_zero false)) as [X1 X2 X3 X4 X5 X6]; [intros; split; reflexivity|]. destruct (v_row _); constructor; assumption.
Qed.
(** [t] has one constraint more than [h], without any flags *)
Record dropped (h t : tab) : Prop := {
  d_nvar : t_nvar t = t_nvar h;
  d_ncon : t_ncon t = S (t_ncon h);
  d_nrow : nrow t = S (nrow h);
  d_ncol : ncol t = ncol h;
  d_red : t_red t = t_red h;
  d_dead : t_dead t = t_dead h;
  d_empty : t_empty t = t_empty h;
  d_rat : t_rat t = t_rat h;
  d_flag : forall v, valid h v -> flags (t_info t v) = flags (t_info h v);
  d_gone : forall v, valid h v -> (v_idx (t_info t v) = None <-> v_idx (t_info h v) = None);
  d_zrow : forall v, valid h v -> v_zero (t_info h v) = true \/ v_idx (t_info h v) = None -> v_row (t_info t v) = v_row (t_info h v);
  d_rows : forall j, (j < t_red h)%nat -> rowv t j = rowv h j;
  d_cols : forall c, (c < t_dead h)%nat -> colv t c = colv h c;
  d_new : flags (t_info t (con (t_ncon h))) = (false, false, false, false);
  d_idx : v_idx (t_info t (con (t_ncon h))) <> None }.
Lemma dropped_alike h t t' : dropped h t -> alike t t' -> dropped h t'.
Proof.
  intros D E. assert (V : forall v, valid h v -> valid t v) by (intros v; unfold valid; rewrite (d_nvar _ _ D), (d_ncon _ _ D); lia).
  assert (Vw : valid t (con (t_ncon h))) by (unfold valid, con; rewrite (d_ncon _ _ D); lia). constructor.
  1-8: etransitivity; [apply E|apply D].
  - intros v Vv. rewrite (al_flag _ _ E v (V v Vv)). apply D, Vv.
  - intros v Vv. rewrite (al_gone _ _ E v (V v Vv)). apply D, Vv.
  - intros v Vv H. rewrite (al_zrow _ _ E v (V v Vv)); [apply D; assumption|]. destruct H as [H|H]; [left|right].
    + destruct (fl_eq _ _ (d_flag _ _ D v Vv)) as (_ & -> & _). exact H.
    + apply (d_gone _ _ D v Vv). exact H.
  - intros j Hj. rewrite (al_rows _ _ E) by (rewrite (d_red _ _ D); exact Hj). apply D, Hj.
  - intros j Hj. rewrite (al_cols _ _ E) by (rewrite (d_dead _ _ D); exact Hj). apply D, Hj.
  - rewrite (al_flag _ _ E _ Vw). apply D.
  - intros H. apply (al_gone _ _ E _ Vw) in H. revert H. apply D.
Qed.

Section Trail.
Variables (L0 : list (list Z)) (t0 : tab).
(** the records [l] lead from [t] back to [t0] *)
Fixpoint trail (l : list undo_rec) (ex : option Z) (L : list (list Z)) (t : tab) : Prop :=
  match l with
  | [] => ex = None /\ L = L0 /\ alike t0 t
  | u :: l =>
    match u with
    | U_redundant v => (valid t v /\ t_red t <> 0%nat /\ rowv t (t_red t - 1) = v /\ v_nonneg (t_info t v) = true /\ posed t /\ rz L t /\ implied ex L t v) /\ trail l ex L (pundo t u)
    | U_nonneg v => valid t v /\ trail l (match ex with Some x => if x =? v then None else ex | None => None end) L (pundo t u)
    | U_zero v => (valid t v /\ v_zero (t_info t v) = true /\ (v_row (t_info t v) = false -> t_dead t <> 0%nat /\ colv t (t_dead t - 1) = v)) /\ trail l ex L (pundo t u)
    | U_freeze v => valid t v /\ trail l ex L (pundo t u)
    | U_empty | U_rational => trail l ex L (pundo t u)
    | U_allocate v => ex = None /\ exists L1 l0 h, L = L1 ++ [l0] /\ length l0 = (1 + t_nvar t)%nat /\ v = con (t_ncon h) /\ represents false L1 h /\ trail l None L1 h /\ dropped h t
    | _ => False
    end
  end.

Lemma pundo_upd t t' f g v : alike t t' -> valid t v -> (forall x, v_idx (f x) = v_idx x /\ v_row (f x) = v_row x) -> (forall x, v_zero (f x) = true -> v_zero x = true) ->
  (forall x, flags (f x) = g (flags x)) -> alike (upd t v f) (upd t' v f).
Proof.
  intros E V Hf Hz Hg. assert (I : forall s u, t_info (upd s v f) u = if u =? v then f (t_info s u) else t_info s u) by (intros s u; cbn; destruct (Z.eqb_spec u v) as [->|]; reflexivity).
  destruct E as [E1 E2 E3 E4 E5 E6 E7 E8 E9 E10 E11 E12 E13]. constructor; auto.
  - intros u Vu. rewrite !I. destruct (u =? v); [rewrite !Hg|]; rewrite ?E9 by exact Vu; reflexivity.
  - intros u Vu. rewrite !I. destruct (u =? v); [rewrite !(proj1 (Hf _))|]; apply E10, Vu.
  - intros u Vu. rewrite !I. destruct (u =? v); [rewrite !(proj1 (Hf _)), !(proj2 (Hf _))|]; intros H; apply E11; auto. destruct H as [H|H]; [left; apply Hz; exact H|right; exact H].
Qed.
(** pivots do not matter *)
Lemma trail_alike : forall l ex L t t', arranged t -> arranged t' -> alike t t' -> trail l ex L t -> trail l ex L t'.
Proof.
  induction l as [|u l IH]; intros ex L t t' A A' E.
  { cbn [trail]. intros (H1 & H2 & H3). split; [exact H1|]. split; [exact H2|]. eapply alike_trans; eassumption. }
  pose proof (fun v => al_valid t t' v E) as V. pose proof (arranged_shape _ _ (pundo_shape t u) A) as B. pose proof (arranged_shape _ _ (pundo_shape t' u) A') as B'.
  cbn [trail]. destruct u; try tauto.
  - (* rational *) intros H. apply (IH ex L (pundo t U_rational)); auto. destruct E. constructor; auto.
  - (* empty *) intros H. apply (IH ex L (pundo t U_empty)); auto. destruct E. constructor; auto.
  - (* nonneg *) intros (Vv & H). split; [apply V, Vv|]. revert H. apply IH; auto.
    cbn [pundo]. apply (pundo_upd t t' _ (fun '(_, b, c, d) => (false, b, c, d))); auto.
  - (* redundant *) intros ((Vv & Nz & Rn & Nn & P & Z0 & Im) & H). split.
    + split; [apply V, Vv|]. rewrite (al_red _ _ E). split; [exact Nz|]. split; [rewrite (al_rows _ _ E) by lia; exact Rn|]. split; [destruct (fl_eq _ _ (al_flag _ _ E v Vv)) as (-> & _); exact Nn|].
      split; [apply (alike_posed t); auto|]. split; [apply (alike_rz L t); auto|apply (alike_implied ex L t); auto].
    + revert H. apply IH; auto. cbn [pundo]. pose proof (pundo_upd t t' (vs_red false) (fun '(a, b, _, d) => (a, b, false, d)) v E Vv) as X.
      destruct X as [X1 X2 X3 X4 X5 X6 X7 X8 X9 X10 X11 X12 X13]; auto. constructor; auto; cbn [t_red w_red t_rat t_empty t_info]; auto.
      * intros j Hj. apply X12. change (t_red (upd t v (vs_red false))) with (t_red t). lia.
  - (* freeze *) intros (Vv & H). split; [apply V, Vv|]. revert H. apply IH; auto. cbn [pundo]. apply (pundo_upd t t' _ (fun '(a, b, c, _) => (a, b, c, false))); auto.
  - (* zero *) intros ((Vv & Zv & Cv) & H). pose proof (al_zrow _ _ E v Vv (or_introl Zv)) as Rw. split.
    + split; [apply V, Vv|]. split; [destruct (fl_eq _ _ (al_flag _ _ E v Vv)) as (_ & -> & _); exact Zv|]. rewrite Rw. intros Nr. destruct (Cv Nr) as (D0 & Ec). rewrite (al_dead _ _ E). split; [exact D0|]. rewrite (al_cols _ _ E) by lia. exact Ec.
    + revert H. apply IH; auto. cbn [pundo]. pose proof (pundo_upd t t' (vs_zero false) (fun '(a, _, c, d) => (a, false, c, d)) v E Vv) as X.
      cbn [t_info upd w_info]. rewrite Z.eqb_refl. cbn [vs_zero v_row]. rewrite Rw. destruct (v_row (t_info t v)); [apply X; auto; discriminate|].
      destruct X as [X1 X2 X3 X4 X5 X6 X7 X8 X9 X10 X11 X12 X13]; auto; [discriminate|]. constructor; auto; cbn [t_dead w_dead t_rat t_empty t_info]; auto.
      * intros j Hj. apply X13. change (t_dead (upd t v (vs_zero false))) with (t_dead t) in *. lia.
  - (* allocate *) intros (Ex & L1 & l0 & h & H1 & H2 & H3 & H4 & H5 & H6). split; [exact Ex|]. exists L1, l0, h. rewrite (al_nvar _ _ E). split; [exact H1|]. split; [exact H2|]. split; [exact H3|]. split; [exact H4|]. split; [exact H5|]. eapply dropped_alike; eassumption.
Qed.
Lemma trail_settle : forall l v L t, trail l (Some v) L t -> trail l None L t.
Proof.
  induction l as [|u l IH]; intros v L t; cbn [trail]; [intros (X & _); discriminate|]. destruct u; try tauto; try apply IH.
  - intros (V & H). split; [exact V|]. destruct (v =? v0); [exact H|]. eapply IH. exact H.
  - intros ((V & H1 & H2 & H3 & H4 & H5 & H6) & H). split; [|eapply IH; exact H]. split; [exact V|]. repeat (split; [assumption|]). intros p Hp Fe. apply (H6 p Hp). destruct Fe as (Lp & Q). split; [exact Lp|]. intros x Vx. destruct (Q x Vx) as (Q1 & Q2). split; [exact Q1|]. intros N1 N2 _. apply Q2; auto. discriminate.
  - intros (V & H). split; [exact V|]. eapply IH. exact H.
  - intros (V & H). split; [exact V|]. eapply IH. exact H.
Qed.
End Trail.
