(** Marking rows of a tableau redundant. *)
From Coq Require Import ZArith List Bool Arith Lia.
From Verif Require Import SeqModel SeqSpec SeqProofs MatModel BMapModel BMapLists BMapGauss2 BElimFM TabModel TabSpec TabBase TabStruct.
Import ListNotations.
Open Scope Z_scope.

Lemma swept_swap t i j : arranged t -> (i < nrow t)%nat -> (j < nrow t)%nat -> i <> j -> swept t (swap_rows t i j).
Proof.
  intros A Hi Hj N. constructor; try reflexivity; intros u.
  - rewrite !(fun X f => swr_flag t i j A Hi Hj N (X:=X) f u) by reflexivity. auto.
  - rewrite !(fun X f => swr_flag t i j A Hi Hj N (X:=X) f u) by reflexivity. auto.
  - intros V R. rewrite (swr_info t i j A Hi Hj N). destruct (Z.eqb_spec u (rowv t i)) as [->|]; [destruct (a_row _ A _ Hi) as (_ & _ & X); congruence|].
    destruct (Z.eqb_spec u (rowv t j)) as [->|]; [destruct (a_row _ A _ Hj) as (_ & _ & X); congruence|]. reflexivity.
  - intros V R I. split; [|apply (swr_rc t i j A Hi Hj N); assumption]. rewrite <- (swr_idx t i j A Hi Hj N). exact I.
  - intros V R I. rewrite (swr_idx t i j A Hi Hj N). exact I.
  - intros V P N1. rewrite (swr_flag t i j A Hi Hj N v_nonneg) by reflexivity. congruence.
Qed.
Lemma swept_drop t : arranged t -> (0 < nrow t)%nat -> v_red (t_info t (rowv t (nrow t - 1))) = true ->
  swept t (let t1 := upd t (rowv t (nrow t - 1)) (vs_idx None) in w_rows (w_rv t1 (removelast (t_rv t1))) (removelast (t_rows t1))).
Proof.
  intros A Hn Rd. assert (Hl : (nrow t - 1 < nrow t)%nat) by lia. constructor; try reflexivity; intros u.
  - rewrite !(fun X f => dl_flag t (X:=X) f u) by reflexivity. auto.
  - rewrite !(fun X f => dl_flag t (X:=X) f u) by reflexivity. auto.
  - intros V R. rewrite dl_info. destruct (Z.eqb_spec u (rowv t (nrow t - 1))) as [->|]; [destruct (a_row _ A _ Hl) as (_ & _ & X); congruence|]. reflexivity.
  - intros V R I. rewrite dl_info in I. destruct (Z.eqb_spec u (rowv t (nrow t - 1))) as [E|E]; [cbn in I; congruence|]. split; [exact I|]. apply (dl_rc t A Hn); assumption.
  - intros V R I. rewrite dl_info in *. destruct (Z.eqb_spec u (rowv t (nrow t - 1))) as [->|]; [cbn in R; congruence|exact I].
  - intros V P N1. rewrite (dl_flag t v_nonneg) by reflexivity. congruence.
Qed.
Lemma swept_wred t n : swept t (w_red t n).
Proof. destruct (swept_refl t). constructor; auto. Qed.
Lemma swept_wlog t l : swept t (w_log t l).
Proof. destruct (swept_refl t). constructor; auto. Qed.
Lemma arranged_wlog t l : arranged t -> arranged (w_log t l).
Proof. intros A. destruct A. constructor; auto. Qed.
Lemma flagged_wlog t l : flagged t -> flagged (w_log t l).
Proof. intros A. destruct A. constructor; auto. Qed.

(** the tableau [t] in which the row variable [v] has been marked redundant *)
Definition red_mark (v : Z) (x : tvar) : tvar := vs_red true (if 0 <=? v then vs_nonneg true x else x).
Definition premark (t : tab) (v : Z) (t2 : tab) : Prop := exists l g, t2 = w_log (w_info t g) l /\ forall u, g u = if u =? v then red_mark v (t_info t v) else t_info t u.
Lemma premark_flag t v t2 u : premark t v t2 ->
  v_idx (t_info t2 u) = v_idx (t_info t u) /\ v_row (t_info t2 u) = v_row (t_info t u) /\ v_zero (t_info t2 u) = v_zero (t_info t u) /\
  v_marked (t_info t2 u) = v_marked (t_info t u) /\ v_frozen (t_info t2 u) = v_frozen (t_info t u) /\ v_negated (t_info t2 u) = v_negated (t_info t u) /\
  v_red (t_info t2 u) = (v_red (t_info t u) || (u =? v)) /\ v_nonneg (t_info t2 u) = (v_nonneg (t_info t u) || ((u =? v) && (0 <=? v))).
Proof.
  intros (l & f & -> & F). cbn. rewrite F. destruct (Z.eqb_spec u v) as [->|]; [|cbn; rewrite !orb_false_r; auto 10].
  unfold red_mark. destruct (0 <=? v); cbn; rewrite ?orb_true_r, ?orb_false_r; auto 10.
Qed.
Lemma premark_shape t v t2 : premark t v t2 -> shape t t2.
Proof. intros P. constructor; try (destruct P as (l & f & -> & F); reflexivity). intros u. destruct (premark_flag _ _ _ u P) as (-> & -> & _). auto. Qed.
Lemma premark_swept t v t2 : arranged t -> premark t v t2 -> v_row (t_info t v) = true -> swept t t2.
Proof.
  intros A P Rv. pose proof (fun u => premark_flag _ _ _ u P) as F. pose proof (premark_shape _ _ _ P) as S.
  constructor; try (destruct P as (l & f & -> & _); reflexivity).
  - intros u. destruct (F u) as (_ & -> & -> & -> & -> & -> & _). auto.
  - intros u. destruct (F u) as (_ & _ & _ & _ & _ & _ & -> & ->). split; [intros ->; reflexivity|]. split; [intros ->; reflexivity|]. intros E. apply orb_false_elim in E. destruct E as (_ & ->). cbn. apply orb_false_r.
  - intros u V R. destruct P as (l & f & -> & Hf). cbn. rewrite Hf. destruct (Z.eqb_spec u v) as [->|]; [congruence|reflexivity].
  - intros u V R I. rewrite (proj1 (F u)) in I. split; [exact I|]. apply sh_rc. exact S.
  - intros u V R I. rewrite (proj1 (F u)). exact I.
  - intros u V Pu Nn. destruct (F u) as (_ & _ & _ & _ & _ & _ & -> & ->). rewrite Nn. cbn. intros X. apply andb_prop in X. destruct X as (-> & _). apply orb_true_r.
Qed.

Definition marked (t : tab) (v : Z) (t' : tab) : Prop :=
  arranged t' /\ flagged t' /\ swept t t' /\ v_red (t_info t' v) = true /\
  (forall u, u <> v -> v_red (t_info t' u) = v_red (t_info t u) /\ v_nonneg (t_info t' u) = v_nonneg (t_info t u) /\ (v_idx (t_info t u) <> None -> v_idx (t_info t' u) <> None)) /\
  v_nonneg (t_info t' v) = (v_nonneg (t_info t v) || (0 <=? v)).
Section Mark.
Variables (t : tab) (i : nat).
Hypothesis A : arranged t.
Hypothesis F : flagged t.
Hypothesis Hi : (t_red t <= i < nrow t)%nat.
Let v := rowv t i.
Lemma keep_marked t2 : premark t v t2 ->
  marked t v (w_red (if Nat.eqb i (t_red t2) then t2 else swap_rows t2 i (t_red t2)) (S (t_red t2))).
Proof.
  intros P. pose proof (premark_shape _ _ _ P) as S. pose proof (fun u => premark_flag _ _ _ u P) as G.
  pose proof (arranged_shape _ _ S A) as A2. assert (Rv : v_row (t_info t v) = true) by (apply (a_row _ A); lia).
  pose proof (premark_swept _ _ _ A P Rv) as S2.
  assert (Er : t_red t2 = t_red t) by (destruct P as (l & f & -> & _); reflexivity). rewrite Er.
  assert (En : nrow t2 = nrow t) by (unfold nrow; rewrite (sh_rv _ _ S); reflexivity).
  assert (Ev : forall k, rowv t2 k = rowv t k) by (intros k; unfold rowv; rewrite (sh_rv _ _ S); reflexivity).
  set (t3 := if Nat.eqb i (t_red t) then t2 else swap_rows t2 i (t_red t)).
  assert (X : arranged t3 /\ swept t2 t3 /\ nrow t3 = nrow t /\
    (forall k, rowv t3 k = if Nat.eqb k (t_red t) then v else if Nat.eqb k i then rowv t (t_red t) else rowv t k) /\
    (forall u, v_red (t_info t3 u) = v_red (t_info t2 u) /\ v_nonneg (t_info t3 u) = v_nonneg (t_info t2 u)) /\
    (forall u, v_idx (t_info t3 u) = None <-> v_idx (t_info t2 u) = None) /\ t_red t3 = t_red t).
  { unfold t3. destruct (Nat.eqb_spec i (t_red t)) as [E|N].
    - split; [exact A2|]. split; [apply swept_refl|]. split; [exact En|]. split; [|split; [auto|split; [reflexivity|exact Er]]].
      intros k. rewrite Ev. destruct (Nat.eqb_spec k (t_red t)) as [->|]; [unfold v; rewrite E; reflexivity|]. rewrite E. rewrite (proj2 (Nat.eqb_neq k (t_red t))) by assumption. reflexivity.
    - assert (H1 : (i < nrow t2)%nat) by lia. assert (H2 : (t_red t < nrow t2)%nat) by lia.
      split; [apply (swr_arr t2 i (t_red t) A2 H1 H2 N)|]. split; [apply swept_swap; assumption|]. split; [rewrite (swr_nrow t2); exact En|].
      split; [|split; [|split; [|exact Er]]].
      + intros k. rewrite (swr_rowv t2 i (t_red t) H1 H2 k). rewrite !Ev. reflexivity.
      + intros u. rewrite !(fun X f => swr_flag t2 i (t_red t) A2 H1 H2 N (X:=X) f u) by reflexivity. auto.
      + intros u. apply (swr_idx t2 i (t_red t) A2 H1 H2 N). }
  destruct X as (A3 & S3 & N3 & V3 & G3 & I3 & _).
  assert (S4 : swept t (w_red t3 (Datatypes.S (t_red t)))) by (eapply swept_trans; [exact S2|]; eapply swept_trans; [exact S3|]; apply swept_wred).
  split; [destruct A3; constructor; assumption|]. split; [|split; [exact S4|]].
  2: { split; [destruct (G3 v) as (X & _); change (v_red (t_info t3 v) = true); rewrite X; destruct (G v) as (_ & _ & _ & _ & _ & _ & -> & _); rewrite Z.eqb_refl; apply orb_true_r|].
       split.
       - intros u Nu. change (v_red (t_info t3 u) = v_red (t_info t u) /\ v_nonneg (t_info t3 u) = v_nonneg (t_info t u) /\ (v_idx (t_info t u) <> None -> v_idx (t_info t3 u) <> None)).
         destruct (G3 u) as (-> & ->). rewrite I3. destruct (G u) as (-> & _ & _ & _ & _ & _ & -> & ->). rewrite (proj2 (Z.eqb_neq u v) Nu). rewrite !orb_false_r. auto.
       - change (v_nonneg (t_info t3 v) = (v_nonneg (t_info t v) || (0 <=? v))). destruct (G3 v) as (_ & ->). destruct (G v) as (_ & _ & _ & _ & _ & _ & _ & ->). rewrite Z.eqb_refl. reflexivity. }
  pose proof (swept_trans _ _ _ S2 S3) as S23.
  constructor.
  - change (t_dead t3 <= ncol t3)%nat. unfold ncol. rewrite (s_dead _ _ S23), (s_cv _ _ S23). apply (f_dead _ F).
  - change (Datatypes.S (t_red t) <= nrow t3)%nat. lia.
  - intros k Hk. change (nrow (w_red t3 (Datatypes.S (t_red t)))) with (nrow t3) in Hk. change (v_red (t_info t3 (rowv t3 k)) = Nat.ltb k (Datatypes.S (t_red t))).
    destruct (G3 (rowv t3 k)) as (-> & _). destruct (G (rowv t3 k)) as (_ & _ & _ & _ & _ & _ & -> & _). rewrite V3.
    destruct (Nat.eqb_spec k (t_red t)) as [->|]; [rewrite Z.eqb_refl, orb_true_r; symmetry; apply Nat.ltb_lt; lia|].
    destruct (Nat.eqb_spec k i) as [->|].
    + rewrite (f_rows _ F) by lia. rewrite (proj2 (Z.eqb_neq (rowv t (t_red t)) v)) by (intros E; apply (rowv_inj t) in E; [lia|assumption|lia|lia]).
      rewrite orb_false_r. rewrite !(proj2 (Nat.ltb_ge _ _)) by lia. reflexivity.
    + rewrite (f_rows _ F) by lia. rewrite (proj2 (Z.eqb_neq (rowv t k) v)) by (intros E; apply (rowv_inj t) in E; [lia|assumption|lia|lia]).
      rewrite orb_false_r. apply eq_true_iff_eq. rewrite !Nat.ltb_lt. lia.
  - intros c Hc. change (ncol (w_red t3 (Datatypes.S (t_red t)))) with (ncol t3) in Hc. change (v_zero (t_info t3 (colv t3 c)) = Nat.ltb c (t_dead t3) /\ v_red (t_info t3 (colv t3 c)) = false).
    assert (Ec : colv t3 c = colv t c) by (unfold colv; rewrite (s_cv _ _ S23); reflexivity). unfold ncol in Hc. rewrite (s_cv _ _ S23) in Hc.
    destruct (a_col _ A c Hc) as (Vc & _ & Rc). rewrite Ec, (s_dead _ _ S23), (s_col _ _ S23 _ Vc Rc). apply (f_cols _ F). exact Hc.
  - intros u V I. change (valid t3 u) in V. change (v_idx (t_info t3 u) = None) in I. change (u < 0 /\ if v_row (t_info t3 u) then v_red (t_info t3 u) = true else v_zero (t_info t3 u) = true /\ v_red (t_info t3 u) = false).
    apply (swept_valid _ _ _ S23) in V. rewrite I3 in I. rewrite (proj1 (G u)) in I. destruct (f_gone _ F u V I) as (Nu & X). split; [exact Nu|].
    destruct (s_keep _ _ S23 u) as (-> & _ & -> & _). destruct (G3 u) as (-> & _). destruct (G u) as (_ & _ & _ & _ & _ & _ & -> & _).
    destruct (v_row (t_info t u)) eqn:R; [rewrite X; reflexivity|]. destruct X as (-> & ->). split; [reflexivity|]. cbn. apply Z.eqb_neq. intros ->. congruence.
  - intros u V Pu. change (valid t3 u) in V. change (v_zero (t_info t3 u) = false /\ (v_nonneg (t_info t3 u) = true -> v_red (t_info t3 u) = true)).
    apply (swept_valid _ _ _ S23) in V. destruct (s_keep _ _ S23 u) as (-> & _). destruct (f_var _ F u V Pu) as (-> & X). split; [reflexivity|].
    destruct (G3 u) as (-> & ->). destruct (G u) as (_ & _ & _ & _ & _ & _ & -> & ->). intros Y. apply orb_prop in Y. destruct Y as [Y|Y]; [rewrite (X Y); reflexivity|]. apply andb_prop in Y. destruct Y as (-> & _). apply orb_true_r.
Qed.
Lemma drop_marked t2 : v < 0 -> premark t v t2 ->
  marked t v (let last := (nrow t2 - 1)%nat in
    let t3 := if Nat.eqb i last then t2 else swap_rows t2 i last in
    let t4 := upd t3 (rowv t3 last) (vs_idx None) in
    w_rows (w_rv t4 (removelast (t_rv t4))) (removelast (t_rows t4))).
Proof.
  intros Neg P. pose proof (premark_shape _ _ _ P) as S. pose proof (fun u => premark_flag _ _ _ u P) as G.
  pose proof (arranged_shape _ _ S A) as A2. assert (Rv : v_row (t_info t v) = true) by (apply (a_row _ A); lia).
  pose proof (premark_swept _ _ _ A P Rv) as S2.
  assert (Er : t_red t2 = t_red t) by (destruct P as (l & f & -> & _); reflexivity).
  assert (En : nrow t2 = nrow t) by (unfold nrow; rewrite (sh_rv _ _ S); reflexivity).
  assert (Ev : forall k, rowv t2 k = rowv t k) by (intros k; unfold rowv; rewrite (sh_rv _ _ S); reflexivity).
  rewrite En. set (last := (nrow t - 1)%nat). cbn zeta. set (t3 := if Nat.eqb i last then t2 else swap_rows t2 i last).
  assert (X : arranged t3 /\ swept t2 t3 /\ nrow t3 = nrow t /\
    (forall k, rowv t3 k = if Nat.eqb k last then v else if Nat.eqb k i then rowv t last else rowv t k) /\
    (forall u, v_red (t_info t3 u) = v_red (t_info t2 u) /\ v_nonneg (t_info t3 u) = v_nonneg (t_info t2 u)) /\
    (forall u, v_idx (t_info t3 u) = None <-> v_idx (t_info t2 u) = None) /\ t_red t3 = t_red t).
  { unfold t3. destruct (Nat.eqb_spec i last) as [E|N].
    - split; [exact A2|]. split; [apply swept_refl|]. split; [exact En|]. split; [|split; [auto|split; [reflexivity|exact Er]]].
      intros k. rewrite Ev. destruct (Nat.eqb_spec k last) as [->|]; [unfold v; rewrite E; reflexivity|]. rewrite E. rewrite (proj2 (Nat.eqb_neq k last)) by assumption. reflexivity.
    - assert (H1 : (i < nrow t2)%nat) by lia. assert (H2 : (last < nrow t2)%nat) by (unfold last; lia).
      split; [apply (swr_arr t2 i last A2 H1 H2 N)|]. split; [apply swept_swap; assumption|]. split; [rewrite (swr_nrow t2); exact En|].
      split; [|split; [|split; [|exact Er]]].
      + intros k. rewrite (swr_rowv t2 i last H1 H2 k). rewrite !Ev. reflexivity.
      + intros u. rewrite !(fun X f => swr_flag t2 i last A2 H1 H2 N (X:=X) f u) by reflexivity. auto.
      + intros u. apply (swr_idx t2 i last A2 H1 H2 N). }
  destruct X as (A3 & S3 & N3 & V3 & G3 & I3 & R3).
  assert (El : rowv t3 last = v) by (rewrite V3, Nat.eqb_refl; reflexivity).
  assert (Rl : v_red (t_info t3 v) = true) by (destruct (G3 v) as (-> & _); destruct (G v) as (_ & _ & _ & _ & _ & _ & -> & _); rewrite Z.eqb_refl; apply orb_true_r).
  assert (H3 : (0 < nrow t3)%nat) by lia.
  assert (S4 := swept_drop t3 A3 H3). assert (A4 := dl_arr t3 A3 H3). assert (In4 := dl_info t3). assert (Nr4 := dl_nrow t3). assert (Rv4 := dl_rowv t3).
  rewrite N3 in *. fold last in S4, A4, In4, Nr4, Rv4. rewrite El in *. specialize (S4 Rl).
  set (t4 := w_rows _ _). change (swept t3 t4) in S4. change (arranged t4) in A4.
  assert (Nr : nrow t4 = (nrow t - 1)%nat) by exact Nr4.
  assert (Rw : forall k, (k < nrow t - 1)%nat -> rowv t4 k = rowv t3 k) by exact Rv4.
  assert (In : forall u, t_info t4 u = if u =? v then vs_idx None (t_info t3 u) else t_info t3 u) by exact In4.
  assert (Er4 : t_red t4 = t_red t3) by reflexivity.
  clearbody t4. clear Nr4 Rv4 In4.
  pose proof (swept_trans _ _ _ S2 S3) as S23. pose proof (swept_trans _ _ _ S23 S4) as S24.
  assert (Fl : forall {X} (f : tvar -> X) u, (forall x, f (vs_idx None x) = f x) -> f (t_info t4 u) = f (t_info t3 u)).
  { intros X f u Hf. rewrite In. destruct (_ =? _); auto. }
  assert (F4 : flagged t4).
  { constructor.
  - unfold ncol. rewrite (s_dead _ _ S24), (s_cv _ _ S24). apply (f_dead _ F).
  - lia.
  - intros k Hk. rewrite Nr in Hk. rewrite Rw by exact Hk. rewrite (Fl _ v_red) by reflexivity. rewrite V3. rewrite (proj2 (Nat.eqb_neq k last)) by (unfold last; lia).
    destruct (G3 (if Nat.eqb k i then rowv t last else rowv t k)) as (-> & _). destruct (G (if Nat.eqb k i then rowv t last else rowv t k)) as (_ & _ & _ & _ & _ & _ & -> & _).
    rewrite Er4, R3. destruct (Nat.eqb_spec k i) as [->|].
    + rewrite (f_rows _ F) by (unfold last; lia). rewrite (proj2 (Z.eqb_neq (rowv t last) v)) by (intros E; apply (rowv_inj t) in E; unfold last in *; [lia|assumption|lia|lia]).
      rewrite orb_false_r. rewrite !(proj2 (Nat.ltb_ge _ _)) by (unfold last; lia). reflexivity.
    + rewrite (f_rows _ F) by lia. rewrite (proj2 (Z.eqb_neq (rowv t k) v)) by (intros E; apply (rowv_inj t) in E; [lia|assumption|lia|lia]).
      apply orb_false_r.
  - intros c Hc. assert (Ec : colv t4 c = colv t c) by (unfold colv; rewrite (s_cv _ _ S24); reflexivity). unfold ncol in Hc. rewrite (s_cv _ _ S24) in Hc.
    destruct (a_col _ A c Hc) as (Vc & _ & Rc). rewrite Ec, (s_dead _ _ S24), (s_col _ _ S24 _ Vc Rc). apply (f_cols _ F). exact Hc.
  - intros u V I. apply (swept_valid _ _ _ S24) in V.
    destruct (s_keep _ _ S24 u) as (-> & _ & -> & _). rewrite (Fl _ v_red) by reflexivity. destruct (G3 u) as (-> & _). destruct (G u) as (_ & _ & _ & _ & _ & _ & -> & _).
    rewrite In in I. destruct (Z.eqb_spec u v) as [->|Nu]; [rewrite Rv, orb_true_r; auto|]. rewrite I3 in I. rewrite (proj1 (G u)) in I. destruct (f_gone _ F u V I) as (Nu' & X). split; [exact Nu'|].
    rewrite orb_false_r. exact X.
  - intros u V Pu. apply (swept_valid _ _ _ S24) in V. destruct (s_keep _ _ S24 u) as (-> & _). destruct (f_var _ F u V Pu) as (-> & X). split; [reflexivity|].
    rewrite (Fl _ v_red), (Fl _ v_nonneg) by reflexivity.
    destruct (G3 u) as (-> & ->). destruct (G u) as (_ & _ & _ & _ & _ & _ & -> & ->). rewrite (proj2 (Z.eqb_neq u v)) by lia. cbn. rewrite !orb_false_r. exact X. }
  split; [exact A4|]. split; [exact F4|]. split; [exact S24|]. split; [rewrite (Fl _ v_red) by reflexivity; exact Rl|]. split.
  - intros u Nu. rewrite In, (proj2 (Z.eqb_neq u v) Nu). destruct (G3 u) as (-> & ->). rewrite I3. destruct (G u) as (-> & _ & _ & _ & _ & _ & -> & ->).
    rewrite (proj2 (Z.eqb_neq u v) Nu). rewrite !orb_false_r. auto.
  - rewrite (Fl _ v_nonneg) by reflexivity. destruct (G3 v) as (_ & ->). destruct (G v) as (_ & _ & _ & _ & _ & _ & _ & ->). rewrite Z.eqb_refl. reflexivity.
Qed.

Lemma marked_wlog t' l : marked t v t' -> marked t v (w_log t' l).
Proof. intros (A' & F' & S' & R). split; [apply arranged_wlog; exact A'|]. split; [apply flagged_wlog; exact F'|]. split; [eapply swept_trans; [exact S'|apply swept_wlog]|exact R]. Qed.
Lemma mark_ok : wp (mark_redundant t i) (fun '(t', b) => marked t v t' /\ nrow t' = (if b then nrow t - 1 else nrow t)%nat /\ t_red t' = (if b then t_red t else S (t_red t))).
Proof.
  unfold mark_redundant. fold v. set (t1 := upd t v (vs_red true)). change (t_red t1) with (t_red t). rewrite (proj2 (Nat.ltb_ge i (t_red t))) by lia.
  assert (Hv : valid t v /\ v_idx (t_info t v) = Some i /\ v_row (t_info t v) = true) by (apply (a_row _ A); lia). destruct Hv as (V & Ix & Rv).
  assert (E1 : t_info t1 v = vs_red true (t_info t v)) by (cbn; rewrite Z.eqb_refl; reflexivity).
  assert (P1 : (0 <=? v) && negb (v_nonneg (t_info t1 v)) = false -> premark t v t1).
  { rewrite E1. intros H. exists (t_log t), (t_info t1). split; [destruct t; reflexivity|]. intros u. cbn. destruct (u =? v); [|reflexivity]. unfold red_mark. destruct (0 <=? v); [|reflexivity].
    cbn in H. apply negb_false_iff in H. destruct (t_info t v). cbn in *. rewrite H. reflexivity. }
  destruct (t_preserve t1 || t_undo t1 || (0 <=? v)) eqn:B.
  - apply wp_bind. apply (wp_weak _ (fun t2 => premark t v t2 /\ t_red t2 = t_red t /\ nrow t2 = nrow t)).
    + destruct ((0 <=? v) && negb (v_nonneg (t_info t1 v))) eqn:C; [|cbn; split; [apply P1; reflexivity|auto]].
      rewrite push_var_eq.
      * cbn [wp]. destruct (push_w (upd t1 v (vs_nonneg true)) (U_nonneg v)) as (l & ->). split; [|auto].
        exists l, (t_info (upd t1 v (vs_nonneg true))). split; [reflexivity|]. intros u. cbn. rewrite Z.eqb_refl. apply andb_prop in C. destruct C as (C & _). unfold red_mark. rewrite C.
        destruct (u =? v); reflexivity.
      * apply (arranged_shape t); [|exact A]. apply (shape_trans _ t1); apply shape_upd; auto.
      * exact V.
      * cbn. rewrite !Z.eqb_refl. cbn. rewrite Ix. discriminate.
    + intros t2 (P & Er & En). pose proof (keep_marked t2 P) as M. cbn zeta.
      set (t3 := if Nat.eqb i (t_red t2) then t2 else swap_rows t2 i (t_red t2)) in *.
      assert (R3 : t_red t3 = t_red t /\ nrow t3 = nrow t) by (unfold t3; destruct (Nat.eqb i (t_red t2)); [auto|]; rewrite (swr_nrow t2); auto).
      destruct R3 as (R3 & N3). rewrite R3. rewrite Er in M. destruct M as (A4 & F4 & S4 & M).
      rewrite push_var_eq.
      * cbn [bind wp]. destruct (push_w (w_red t3 (S (t_red t))) (U_redundant v)) as (l & ->). split; [|split; [exact N3|reflexivity]].
        apply marked_wlog. split; [exact A4|]. split; [exact F4|]. split; [exact S4|exact M].
      * exact A4.
      * apply (swept_valid _ _ _ S4). exact V.
      * pose proof (premark_flag _ _ _ v P) as (I2 & _). pose proof (arranged_shape _ _ (premark_shape _ _ _ P) A) as A2.
        change (v_idx (t_info t3 v) <> None). unfold t3. destruct (Nat.eqb_spec i (t_red t2)); [rewrite I2, Ix; discriminate|].
        rewrite (swr_idx t2 i (t_red t2) A2) by lia. rewrite I2, Ix. discriminate.
  - apply orb_false_elim in B. destruct B as (_ & B). rewrite B in P1. cbn [andb] in P1. specialize (P1 eq_refl). cbn [wp].
    pose proof (drop_marked t1 ltac:(lia) P1) as M. cbn zeta in M. set (t3 := if Nat.eqb i (nrow t1 - 1) then t1 else swap_rows t1 i (nrow t1 - 1)) in *.
    assert (R3 : t_red t3 = t_red t /\ nrow t3 = nrow t) by (unfold t3; destruct (Nat.eqb i (nrow t1 - 1)); [auto|]; rewrite (swr_nrow t1); auto).
    destruct R3 as (R3 & N3). split; [exact M|]. split; [|exact R3]. unfold nrow at 1. cbn. rewrite removelast_length. fold (nrow t3). lia.
Qed.
End Mark.
