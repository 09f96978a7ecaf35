(** Detecting implicit equalities and redundant constraints. *)
From Coq Require Import ZArith List Bool Arith Lia.
From Verif Require Import SeqModel SeqSpec SeqProofs MatModel BMapModel BMapLists BMapGauss2 BElimSpec BElimFM TabModel TabSpec TabBase TabStruct TabMark TabPivot TabStep TabSign TabMin TabKill TabAdd TabClose TabCut.
Import ListNotations.
Open Scope Z_scope.

(** like [step], but new marks may appear *)
Record kept (int : bool) (L : list (list Z)) (t t' : tab) : Prop := {
  k_nvar : t_nvar t' = t_nvar t; k_ncon : t_ncon t' = t_ncon t; k_rat : t_rat t' = t_rat t; k_undo : t_undo t' = t_undo t; k_cone : t_cone t' = t_cone t; k_neq : t_neq t' = t_neq t;
  k_zero : forall u, valid t u -> v_zero (t_info t u) = true -> v_zero (t_info t' u) = true;
  k_nonneg : forall u, valid t u -> u < 0 -> v_nonneg (t_info t u) = true -> v_nonneg (t_info t' u) = true;
  k_feas : forall p, adm int p -> (feas L t' p <-> feas L t p);
  k_empty : t_empty t' = true -> t_empty t = true \/ forall p, adm int p -> ~ feas L t' p }.
Lemma kept_valid int L t t' u : kept int L t t' -> (valid t' u <-> valid t u).
Proof. intros S. unfold valid. rewrite (k_nvar _ _ _ _ S), (k_ncon _ _ _ _ S). reflexivity. Qed.
Lemma kept_refl int L t : kept int L t t. Proof. constructor; auto; try reflexivity. Qed.
Lemma kept_trans int L t t1 t2 : kept int L t t1 -> kept int L t1 t2 -> kept int L t t2.
Proof.
  intros S1 S2. constructor; try match goal with |- _ = _ => etransitivity; [apply S2|apply S1] end.
  - intros u V Z0. apply (k_zero _ _ _ _ S2); [apply (kept_valid _ _ _ _ _ S1); exact V|]. apply (k_zero _ _ _ _ S1); assumption.
  - intros u V N Z0. apply (k_nonneg _ _ _ _ S2); [apply (kept_valid _ _ _ _ _ S1); exact V|exact N|]. apply (k_nonneg _ _ _ _ S1); assumption.
  - intros p Ad. rewrite (k_feas _ _ _ _ S2 p Ad). apply (k_feas _ _ _ _ S1 p Ad).
  - intros E. destruct (k_empty _ _ _ _ S2 E) as [E1|N]; [|right; exact N]. destruct (k_empty _ _ _ _ S1 E1) as [E0|N]; [left; exact E0|]. right. intros p Ad Fe. apply (N p Ad). apply (k_feas _ _ _ _ S2 p Ad). exact Fe.
Qed.
Lemma step_kept int L t t' : step int L t t' -> kept int L t t'.
Proof. intros S. destruct S. constructor; auto. Qed.

(** ** marks *)
Definition marks_ok (t : tab) : Prop := forall v, valid t v -> v < 0 -> v_marked (t_info t v) = true -> v_nonneg (t_info t v) = true.
Lemma step_marks int L t t' : step int L t t' -> marks_ok t -> marks_ok t'.
Proof.
  intros S M v V N Mk. apply (step_valid _ _ _ _ _ S) in V. apply (p_nonneg _ _ _ _ S v V). apply (M v V N). apply (p_marked _ _ _ _ S v V). exact Mk.
Qed.
Section SetMark.
Variables (int : bool) (L : list (list Z)) (t : tab) (v : Z) (m : bool).
Let t' := upd t v (vs_marked m).
Lemma sm_flag {X} (f : tvar -> X) u : (forall x, f (vs_marked m x) = f x) -> f (t_info t' u) = f (t_info t u).
Proof. intros H. cbn. destruct (Z.eqb_spec u v) as [->|]; auto. Qed.
Lemma sm_feas p : feas L t' p <-> feas L t p.
Proof.
  unfold feas. change (t_nvar t') with (t_nvar t). split; intros (Lp & H); (split; [exact Lp|]); intros u V; specialize (H u V); rewrite ?(sm_flag v_zero), ?(sm_flag v_nonneg), ?(sm_flag v_red) in * by reflexivity; exact H.
Qed.
Lemma sm_represents : represents int L t -> represents int L t'.
Proof.
  intros R. pose proof (r_core _ _ _ R) as C. pose proof (c_flg _ _ C) as F. assert (S : shape t t') by (apply shape_upd; intros; split; reflexivity).
  constructor; [constructor; [apply (arranged_shape _ _ S), C| |apply C|apply C|apply (related_shape _ _ S), C|apply (independent_shape _ _ S), C]| |].
  - constructor; try apply F.
    + intros i Hi. rewrite (sm_flag v_red) by reflexivity. apply (f_rows _ F i Hi).
    + intros c Hc. rewrite (sm_flag v_red), (sm_flag v_zero) by reflexivity. apply (f_cols _ F c Hc).
    + intros u Vu Iu. rewrite (sm_flag v_idx) in Iu by reflexivity. rewrite (sm_flag v_red), (sm_flag v_zero), (sm_flag v_row) by reflexivity. apply (f_gone _ F u Vu Iu).
    + intros u Vu Pu. rewrite (sm_flag v_red), (sm_flag v_zero), (sm_flag v_nonneg) by reflexivity. apply (f_var _ F u Vu Pu).
  - intros p Lp H u Vu Zu. rewrite (sm_flag v_zero) in Zu by reflexivity. apply (r_zero _ _ _ R p Lp); [|exact Vu|exact Zu]. intros x Vx Zx Rx. apply H; [exact Vx|rewrite (sm_flag v_zero) by reflexivity; exact Zx|rewrite (sm_flag v_row) by reflexivity; exact Rx].
  - intros p Ad Fe u Vu Nu. apply sm_feas in Fe. rewrite (sm_flag v_nonneg) in Nu by reflexivity. apply (r_imp _ _ _ R p Ad Fe u Vu Nu).
Qed.
Lemma sm_sample ex : sample_ok ex t -> sample_ok ex t'.
Proof. intros D i Hi Nx Nn. rewrite (sm_flag v_nonneg) in Nn by reflexivity. apply D; assumption. Qed.
Lemma sm_kept : kept int L t t'.
Proof.
  constructor; try reflexivity.
  - intros u V Z0. rewrite (sm_flag v_zero) by reflexivity. exact Z0.
  - intros u V _ Z0. rewrite (sm_flag v_nonneg) by reflexivity. exact Z0.
  - intros p Ad. apply sm_feas.
  - auto.
Qed.
Lemma sm_marks : marks_ok t -> (m = true -> v_nonneg (t_info t v) = true) -> marks_ok t'.
Proof.
  intros M H u V N Mk. rewrite (sm_flag v_nonneg) by reflexivity. cbn in Mk. destruct (Z.eqb_spec u v) as [->|]; [|apply M; assumption]. apply H. exact Mk.
Qed.
Lemma sm_live u : live t u -> live t' u. Proof. exact (fun H => H). Qed.
End SetMark.
Lemma sm_step int L t v : step int L t (upd t v (vs_marked false)).
Proof.
  pose proof (sm_kept int L t v false) as [K1 K2 K3 K4 K5 K6 K7 K8 K9 K10]. constructor; auto; [intros u V N0; rewrite (sm_flag t v false v_nonneg) by reflexivity; exact N0|]. intros u V Mk. cbn in Mk. destruct (u =? v); [discriminate|exact Mk].
Qed.

Lemma set_marks_ok j int L : forall l t n, represents j L t -> (marks_ok t) -> (forall v, List.In (v, true) l -> v_nonneg (t_info t v) = true) ->
  represents j L (fst (set_marks t l n)) /\ kept int L t (fst (set_marks t l n)) /\ marks_ok (fst (set_marks t l n)) /\ forall ex, sample_ok ex t -> sample_ok ex (fst (set_marks t l n)).
Proof.
  induction l as [|(v, m) l IH]; intros t n R M H; cbn [set_marks]; [split; [exact R|]; split; [apply kept_refl|]; split; auto|].
  destruct (IH (upd t v (vs_marked m)) (if m then S n else n)) as (R' & K' & M' & D').
  - apply sm_represents. exact R.
  - apply sm_marks; [exact M|]. intros ->. apply H. left. reflexivity.
  - intros u Hu. rewrite (sm_flag t v m v_nonneg) by reflexivity. apply H. right. exact Hu.
  - split; [exact R'|]. split; [eapply kept_trans; [apply sm_kept|exact K']|]. split; [exact M'|]. intros ex D. apply D', sm_sample, D.
Qed.
Lemma clear_marks_ok j int L : forall l t n, represents j L t ->
  represents j L (fst (clear_marks t l n)) /\ step int L t (fst (clear_marks t l n)) /\ forall ex, sample_ok ex t -> sample_ok ex (fst (clear_marks t l n)).
Proof.
  induction l as [|(v, m) l IH]; intros t n R; cbn [clear_marks]; [split; [exact R|]; split; [apply step_refl|auto]|].
  destruct (v_marked (t_info t v) && m); [|apply IH; exact R].
  destruct (IH (upd t v (vs_marked false)) (n - 1)%nat (sm_represents _ _ _ _ _ R)) as (R' & S' & D'). split; [exact R'|]. split; [eapply step_trans; [apply sm_step|exact S']|]. intros ex D. apply D', sm_sample, D.
Qed.
Lemma select_from_ok int L t : represents int L t -> forall n v, (n <= t_ncon t)%nat -> select_marked_from t n = Some v -> valid t v /\ v < 0 /\ v_marked (t_info t v) = true /\ live t v.
Proof.
  intros R. pose proof (c_arr _ _ (r_core _ _ _ R)) as A.
  induction n as [|n IH]; intros v Hn; cbn [select_marked_from]; [discriminate|]. assert (Hn' : (n <= t_ncon t)%nat) by lia. specialize (IH v Hn').
  assert (V : valid t (con n)) by (unfold valid, con; lia).
  destruct (v_idx (t_info t (con n))) as [i|] eqn:Ix; [|exact IH]. destruct (v_row (t_info t (con n))) eqn:Rw; cbn [andb negb].
  - destruct (Nat.ltb_spec i (t_red t)) as [|Ge]; [exact IH|]. destruct (v_marked (t_info t (con n))) eqn:Mk; [|exact IH]. intros [= <-]. split; [exact V|]. split; [unfold con; lia|]. split; [exact Mk|].
    left. exists i. pose proof (a_inv _ A _ _ V Ix) as H. rewrite Rw in H. destruct H as (H1 & H2). split; [lia|exact H2].
  - destruct (Nat.ltb_spec i (t_dead t)) as [|Ge]; [exact IH|]. destruct (v_marked (t_info t (con n))) eqn:Mk; [|exact IH]. intros [= <-]. split; [exact V|]. split; [unfold con; lia|]. split; [exact Mk|].
    right. exists i. pose proof (a_inv _ A _ _ V Ix) as H. rewrite Rw in H. destruct H as (H1 & H2). split; [lia|exact H2].
Qed.
Lemma select_ok int L t v : represents int L t -> select_marked t = Some v -> valid t v /\ v < 0 /\ v_marked (t_info t v) = true /\ live t v.
Proof. intros R H. apply (select_from_ok int L t R (t_ncon t) v (le_n _) H). Qed.

(** ** implicit equalities *)
Definition good (j int : bool) (L : list (list Z)) (t t' : tab) : Prop := represents j L t' /\ kept int L t t' /\ sample_ok None t' /\ marks_ok t'.
Lemma detect_eq_loop_ok j int L again :
  (forall t, represents j L t -> sample_ok None t -> marks_ok t -> (t_rat t = false -> int = true) -> wp (again t) (good j int L t)) ->
  forall fuel t n, represents j L t -> sample_ok None t -> marks_ok t -> (t_rat t = false -> int = true) -> wp (detect_eq_loop fuel again t n) (good j int L t).
Proof.
  intros Ag. induction fuel as [|f IH]; intros t n R D M Hr; [exact I|]. cbn [detect_eq_loop].
  assert (Done : wp (Ok t) (good j int L t)) by (split; [exact R|]; split; [apply kept_refl|]; split; assumption).
  destruct n as [|n]; [exact Done|]. destruct (select_marked t) as [v|] eqn:Sel; [|exact Done]. clear Done.
  destruct (select_ok j L t v R Sel) as (V & Ng & Mk & Lv). pose proof (M v V Ng Mk) as Nn.
  set (t1 := upd t v (vs_marked false)).
  pose proof (sm_represents j L t v false R) as R1. pose proof (sm_sample t v false None D) as D1. pose proof (sm_step int L t v) as S1. pose proof (step_marks _ _ _ _ S1 M) as M1. fold t1 in R1, D1, S1, M1.
  assert (V1 : valid t1 v) by exact V.
  assert (Nn1 : v_nonneg (t_info t1 v) = true) by (apply (p_nonneg _ _ _ _ S1 v V Nn)).
  apply wp_bind. eapply wp_weak; [apply (sign_of_max_ok j L v f t1 R1 Lv D1)|]. intros [t2 s] (R2 & E2 & D2 & Rd2 & S2).
  pose proof (evolve_step int L t1 t2 E2) as P2. pose proof (step_marks _ _ _ _ P2 M1) as M2. pose proof (p_nonneg _ _ _ _ P2 v V1 Nn1) as Nn2. pose proof (proj2 (step_valid _ _ _ _ v P2) V1) as V2.
  assert (Hr2 : t_rat t2 = false -> int = true) by (rewrite (p_rat _ _ _ _ P2); exact Hr).
  assert (Ss : s = 1 /\ v_zero (t_info t2 v) = false \/ s = 0 /\ exists i, live_row t2 v i /\ at_max t2 i /\ cst t2 i = 0).
  { destruct S2 as [(-> & p & Hp & (_ & Fe) & Pv)|(Le & i & Lr & Es & Mx)]; [left; split; [reflexivity|]; destruct (v_zero (t_info t2 v)) eqn:Z0; [|reflexivity]; rewrite (proj1 (Fe v V2) Z0) in Pv; lia|right]. assert (0 <= cst t2 i). { destruct Lr as (Hi & Ei). apply D2; [exact Hi|discriminate|rewrite Ei; exact Nn2]. }
    assert (cst t2 i = 0) by (destruct (cst t2 i); cbn in Es; lia). split; [rewrite Es; replace (cst t2 i) with 0 by congruence; reflexivity|]. exists i. auto. }
  destruct (Z.ltb_spec s 0) as [X|_]; [lia|].
  assert (Rest : forall t3, represents j L t3 -> step int L t t3 -> sample_ok None t3 -> marks_ok t3 -> (t_rat t3 = false -> int = true) ->
    wp (let '(t, n) := clear_marks t3 (map (fun i => (rowv t3 i, negb (may_be_equality t3 i))) (live_rows t3)) n in detect_eq_loop f again t n) (good j int L t)).
  { intros t3 R3 P3 D3 M3 Hr3. set (l := map _ _). destruct (clear_marks_ok j int L l t3 n R3) as (R4 & P4 & D4). destruct (clear_marks t3 l n) as [t4 n4]. cbn [fst] in *.
    eapply wp_weak; [apply IH; [exact R4|apply D4, D3|apply (step_marks _ _ _ _ P4 M3)|rewrite (p_rat _ _ _ _ P4); exact Hr3]|].
    intros t5 (R5 & K5 & D5 & M5). split; [exact R5|]. split; [|split; assumption]. eapply kept_trans; [apply step_kept; eapply step_trans; [exact P3|exact P4]|exact K5]. }
  assert (P12 : step int L t t2) by (eapply step_trans; eassumption).
  destruct Ss as [(-> & Z2) | (-> & i & Lr & Mx & C0)].
  - change (1 =? 0) with false. cbv iota. destruct (t_rat t2) eqn:Rt; cbn [negb]; [apply Rest; auto; rewrite Rt; exact Hr2|]. pose proof (Hr2 eq_refl) as Ei. subst int.
    assert (Lv2 : live t2 v).
    { apply live_of; [apply R2|apply R2|exact V2|exact Rd2|exact Z2]. }
    apply wp_bind. eapply wp_weak; [apply (at_least_one_ok j L v f t2 R2 Lv2 D2)|]. intros [t3 b] (R3 & E3 & D3 & Rd3 & H3).
    pose proof (evolve_step true L t2 t3 E3) as P3. pose proof (step_marks _ _ _ _ P3 M2) as M3. assert (P13 : step true L t t3) by (eapply step_trans; eassumption).
    destruct b; cbn [negb]; [apply Rest; auto|].
    apply wp_bind. eapply wp_weak.
    + apply (cut_ok j L v f t3 R3).
      * apply (step_valid _ _ _ _ v P3). exact V2.
      * exact Ng.
      * exact Rd3.
      * destruct (e_keep _ _ _ E3 v) as (-> & _). exact Z2.
      * apply (p_nonneg _ _ _ _ P3 v V2 Nn2).
      * exact D3.
      * rewrite (p_rat _ _ _ _ P3). exact Rt.
      * apply H3. reflexivity.
    + intros t4 (R4 & P4 & D4). eapply wp_weak; [apply Ag; [exact R4|exact D4|apply (step_marks _ _ _ _ P4 M3)|reflexivity]|].
      intros t5 (R5 & K5 & D5 & M5). split; [exact R5|]. split; [|split; assumption]. eapply kept_trans; [apply step_kept; eapply step_trans; [exact P13|exact P4]|exact K5].
  - change (0 =? 0) with true. cbv iota. apply wp_bind. eapply wp_weak; [apply (close_row_ok j int L t2 v i R2 Lr Mx C0 Nn2 Hr2)|]. intros t3 (R3 & P3 & D3).
    apply Rest; [exact R3|eapply step_trans; eassumption|apply D3, D2|apply (step_marks _ _ _ _ P3 M2)|rewrite (p_rat _ _ _ _ P3); exact Hr2].
Qed.
Lemma good_trans j int L t t1 t2 : kept int L t t1 -> good j int L t1 t2 -> good j int L t t2.
Proof. intros K (R & K' & D & M). split; [exact R|]. split; [eapply kept_trans; eassumption|]. split; assumption. Qed.
Theorem detect_eq_ok j int L : forall fuel t, represents j L t -> sample_ok None t -> marks_ok t -> (t_rat t = false -> int = true) ->
  wp (detect_implicit_equalities fuel t) (good j int L t).
Proof.
  induction fuel as [|f IH]; intros t R D M Hr; [exact I|]. cbn [detect_implicit_equalities].
  assert (Done : wp (Ok t) (good j int L t)) by (split; [exact R|]; split; [apply kept_refl|]; split; assumption).
  destruct (t_empty t); [exact Done|]. destruct (Nat.eqb (t_dead t) (ncol t)); [exact Done|]. clear Done.
  set (l := _ ++ _). destruct (set_marks_ok j int L l t 0%nat R M) as (R1 & K1 & M1 & D1).
  { intros v Hv. unfold l in Hv. apply in_app_or in Hv. destruct Hv as [Hv|Hv]; apply in_map_iff in Hv; destruct Hv as (i & E & _); cbv zeta in E; injection E as E1 E2; rewrite E1 in E2; apply andb_true_iff in E2; destruct E2 as (E2 & E3); [apply andb_true_iff in E2; apply E2|exact E3]. }
  destruct (set_marks t l 0) as [t1 n]. cbn [fst] in *. eapply wp_weak; [apply (detect_eq_loop_ok j int L (detect_implicit_equalities f) IH f t1 n R1 (D1 None D) M1)|].
  - rewrite (k_rat _ _ _ _ K1). exact Hr.
  - intros t2 G. eapply good_trans; eassumption.
Qed.

(** ** redundant constraints *)
Lemma detect_red_loop_ok int L : forall fuel t n, represents int L t -> sample_ok None t -> marks_ok t -> (t_rat t = false -> int = true) -> wp (detect_red_loop fuel t n) (good int int L t).
Proof.
  induction fuel as [|f IH]; intros t n R D M Hr; [exact I|]. cbn [detect_red_loop].
  assert (Done : wp (Ok t) (good int int L t)) by (split; [exact R|]; split; [apply kept_refl|]; split; assumption).
  destruct n as [|n]; [exact Done|]. destruct (select_marked t) as [v|] eqn:Sel; [|exact Done]. clear Done.
  destruct (select_ok int L t v R Sel) as (V & Ng & Mk & Lv). pose proof (M v V Ng Mk) as Nn.
  set (t1 := upd t v (vs_marked false)).
  pose proof (sm_represents int L t v false R) as R1. pose proof (sm_sample t v false None D) as D1. pose proof (sm_step int L t v) as S1. pose proof (step_marks _ _ _ _ S1 M) as M1. fold t1 in R1, D1, S1, M1.
  assert (V1 : valid t1 v) by exact V.
  assert (Nn1 : v_nonneg (t_info t1 v) = true) by (apply (p_nonneg _ _ _ _ S1 v V Nn)).
  apply wp_bind.
  assert (CR : wp (con_is_redundant f t1 v) (fun '(t2, b) => represents int L t2 /\ evolve L t1 t2 /\ sample_ok (Some v) t2 /\ (b = false -> sample_ok None t2) /\
     (b = true -> v_red (t_info t2 v) = true \/ exists i, live_row t2 v i /\ forall p, adm int p -> ok_cols L t2 p -> 0 <= value L p v))).
  { unfold con_is_redundant. destruct (t_rat t1) eqn:Rt; apply wp_bind.
    - eapply wp_weak; [apply (sign_of_min_ok int L v f t1 R1 Lv D1)|]. intros [t2 s] (R2 & E2 & D2 & H2). cbn [wp]. split; [exact R2|]. split; [exact E2|]. split; [apply sample_weak, D2|]. split; [auto|].
      intros E. apply Z.leb_le in E. destruct (H2 E) as [X|(i & Lr & Mn & C0)]; [left; exact X|right]. exists i. split; [exact Lr|]. intros p (Hp & _) O. pose proof (r_core _ _ _ R2) as C2. pose proof (c_arr _ _ C2) as A2.
      destruct Lr as (Hi & Ei). pose proof (row_lower L t2 p i A2 (c_rel _ _ C2) O (proj2 Hi) Mn) as Lo. rewrite Ei in Lo. pose proof (a_den _ A2 i (proj2 Hi)) as Dn. clear - C0 Hp Lo Dn. nia.
    - pose proof (Hr Rt) as Ei. eapply wp_weak; [apply (min_at_most_neg_one_ok int L v f t1 R1 Lv D1 Nn1)|]. intros [t2 b] (R2 & E2 & D2 & D2' & H2). cbn [wp]. split; [exact R2|]. split; [exact E2|]. split; [exact D2'|].
      split; [intros B; apply D2; destruct b; [reflexivity|discriminate]|]. intros B. assert (b = false) by (destruct b; [discriminate|reflexivity]). destruct (H2 H) as [X|(i & Lr & Mn & C0)]; [left; exact X|right]. exists i. split; [exact Lr|].
      intros p (Hp & H1) O. specialize (H1 Ei). pose proof (r_core _ _ _ R2) as C2. pose proof (c_arr _ _ C2) as A2. destruct Lr as (Hi & Er). pose proof (row_lower L t2 p i A2 (c_rel _ _ C2) O (proj2 Hi) Mn) as Lo. rewrite Er, H1 in Lo. pose proof (a_den _ A2 i (proj2 Hi)) as Dn.
      clear - C0 Lo Dn. nia. }
  eapply wp_weak; [exact CR|]. clear CR. intros [t2 b] (R2 & E2 & D2 & Db & H2).
  pose proof (evolve_step int L t1 t2 E2) as P2. pose proof (step_marks _ _ _ _ P2 M1) as M2. pose proof (p_nonneg _ _ _ _ P2 v V1 Nn1) as Nn2.
  assert (P12 : step int L t t2) by (eapply step_trans; eassumption).
  apply wp_bind.
  assert (MK : wp (if b && negb (v_red (t_info t2 v)) then do i <- row_of t2 v ;; do (t, _) <- mark_redundant t2 i ;; Ok t else Ok t2) (fun t3 => represents int L t3 /\ step int L t2 t3 /\ sample_ok None t3)).
  { destruct b; cbn [andb].
    - destruct (v_red (t_info t2 v)) eqn:Rd; cbn [negb].
      + cbn [wp]. split; [exact R2|]. split; [apply step_refl|]. apply (sample_nored None t2 v); [apply R2|exact D2|exact Rd].
      + destruct (H2 eq_refl) as [X|(i & Lr & J)]; [congruence|]. rewrite (live_row_of t2 v i) by (try exact Lr; apply R2). cbn [bind]. apply wp_bind.
        eapply wp_weak; [apply (mark_step int L t2 v i R2 Lr Nn2 J)|]. intros [t3 b3] (R3 & P3 & D3 & Rd3). cbn [wp]. split; [exact R3|]. split; [exact P3|]. apply (sample_nored None t3 v); [apply R3|apply D3, D2|exact Rd3].
    - cbn [wp]. split; [exact R2|]. split; [apply step_refl|]. apply Db. reflexivity. }
  eapply wp_weak; [exact MK|]. clear MK. intros t3 (R3 & P3 & D3). pose proof (step_marks _ _ _ _ P3 M2) as M3.
  set (l := map _ _). destruct (clear_marks_ok int int L l t3 n R3) as (R4 & P4 & D4). destruct (clear_marks t3 l n) as [t4 n4]. cbn [fst] in *.
  eapply wp_weak; [apply IH; [exact R4|apply D4, D3|apply (step_marks _ _ _ _ P4 M3)|rewrite (p_rat _ _ _ _ P4), (p_rat _ _ _ _ P3), (p_rat _ _ _ _ P12); exact Hr]|].
  intros t5 G. eapply good_trans; [|exact G]. apply step_kept. eapply step_trans; [exact P12|]. eapply step_trans; eassumption.
Qed.
Theorem detect_red_ok int L fuel t : represents int L t -> sample_ok None t -> marks_ok t -> (t_rat t = false -> int = true) ->
  wp (detect_redundant fuel t) (good int int L t).
Proof.
  intros R D M Hr. unfold detect_redundant.
  assert (Done : wp (Ok t) (good int int L t)) by (split; [exact R|]; split; [apply kept_refl|]; split; assumption).
  destruct (t_empty t); [exact Done|]. destruct (Nat.eqb (t_red t) (nrow t)); [exact Done|]. clear Done.
  set (l := _ ++ _). destruct (set_marks_ok int int L l t 0%nat R M) as (R1 & K1 & M1 & D1).
  { intros v Hv. unfold l in Hv. apply in_app_or in Hv. destruct Hv as [Hv|Hv]; apply in_map_iff in Hv; destruct Hv as (i & E & _); cbv zeta in E; injection E as E1 E2; rewrite E1 in E2; apply andb_true_iff in E2; destruct E2 as (E2 & E3); [exact E3|apply andb_true_iff in E2; apply E2]. }
  destruct (set_marks t l 0) as [t1 n]. cbn [fst] in *. eapply wp_weak; [apply (detect_red_loop_ok int L fuel t1 n R1 (D1 None D) M1)|].
  - rewrite (k_rat _ _ _ _ K1). exact Hr.
  - intros t2 G. eapply good_trans; eassumption.
Qed.
