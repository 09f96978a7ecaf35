(** Every implicit equality and every redundant constraint is detected. *)
From Coq Require Import ZArith List Bool Arith Lia.
From Verif Require Import SeqModel SeqSpec SeqProofs MatModel BMapModel BMapLists BMapGauss2 BElimSpec BElimFM TabModel TabSpec TabBase TabStruct TabMark TabPivot TabStep TabSign TabMin TabKill TabAdd TabClose TabCut TabDetect.
Import ListNotations.
Open Scope Z_scope.

Lemma wp_and {A} (r : res A) (P Q : A -> Prop) : wp r P -> wp r Q -> wp r (fun a => P a /\ Q a).
Proof. destruct r; cbn; auto. Qed.

(** ** flags that change in one direction only *)
Record flow (t t' : tab) : Prop := {
  fl_nvar : t_nvar t' = t_nvar t; fl_ncon : t_ncon t' = t_ncon t;
  fl_marked : forall u, v_marked (t_info t' u) = v_marked (t_info t u);
  fl_frozen : forall u, v_frozen (t_info t' u) = v_frozen (t_info t u);
  fl_red : forall u, v_red (t_info t' u) = false -> v_red (t_info t u) = false;
  fl_zero : forall u, v_zero (t_info t' u) = false -> v_zero (t_info t u) = false;
  fl_col : forall u, v_zero (t_info t u) = true -> v_row (t_info t u) = false -> v_row (t_info t' u) = false;
  fl_nonneg : forall u, v_red (t_info t' u) = false -> v_nonneg (t_info t' u) = v_nonneg (t_info t u) }.
Lemma flow_refl t : flow t t. Proof. constructor; auto. Qed.
Lemma flow_trans t t1 t2 : flow t t1 -> flow t1 t2 -> flow t t2.
Proof.
  intros A B. constructor.
  - rewrite (fl_nvar _ _ B). apply A.
  - rewrite (fl_ncon _ _ B). apply A.
  - intros u. rewrite (fl_marked _ _ B). apply A.
  - intros u. rewrite (fl_frozen _ _ B). apply A.
  - intros u H. apply (fl_red _ _ A), (fl_red _ _ B), H.
  - intros u H. apply (fl_zero _ _ A), (fl_zero _ _ B), H.
  - intros u Z0 R0. pose proof (fl_col _ _ A u Z0 R0) as R1. apply (fl_col _ _ B); [|exact R1]. destruct (v_zero (t_info t1 u)) eqn:E; [reflexivity|]. rewrite (fl_zero _ _ A u E) in Z0. discriminate.
  - intros u H. rewrite (fl_nonneg _ _ B u H). apply A. apply B. exact H.
Qed.
Lemma grow_false (a b : bool) : (a = true -> b = true) -> b = false -> a = false.
Proof. destruct a, b; auto. intros H. discriminate (H eq_refl). Qed.
Lemma evolve_flow L t t' : evolve L t t' -> flow t t'.
Proof.
  intros E. constructor; try (apply E).
  - intros u. exact (grow_false _ _ (proj1 (e_grow _ _ _ E u))).
  - intros u. destruct (e_keep _ _ _ E u) as (-> & _). auto.
Qed.
Lemma swept_flow t t' : swept t t' -> flow t t'.
Proof.
  intros S. constructor; try (apply S).
  - intros u. exact (grow_false _ _ (proj1 (s_grow _ _ S u))).
  - intros u. destruct (s_keep _ _ S u) as (-> & _). auto.
  - intros u _. destruct (s_keep _ _ S u) as (_ & _ & -> & _). auto.
Qed.
Lemma shut_flow L t v t' : shut L t v t' -> flow t t'.
Proof.
  intros S. pose proof (h_flag _ _ _ _ S) as H. constructor.
  - apply S.
  - apply S.
  - intros u. destruct (H u) as (_ & _ & _ & ->). reflexivity.
  - apply (h_frozen _ _ _ _ S).
  - intros u. destruct (H u) as (-> & _). auto.
  - intros u. exact (grow_false _ _ (h_zero _ _ _ _ S u)).
  - intros u _. destruct (H u) as (_ & _ & -> & _). auto.
  - intros u _. destruct (H u) as (_ & -> & _). reflexivity.
Qed.
Lemma close_flow j L t v i : represents j L t -> live_row t v i -> at_max t i -> cst t i = 0 -> v_nonneg (t_info t v) = true ->
  wp (close_row t v false) (fun t' => flow t t' /\ v_zero (t_info t' v) = true /\ forall p, 0 < hd 0 p -> feas L t p -> feas L t' p).
Proof.
  intros R Lr M C0 Nn. pose proof (r_core _ _ _ R) as C. pose proof (c_arr _ _ C) as A. pose proof (c_flg _ _ C) as F. destruct (live_row_info t v i A F Lr) as (V & Rw & Rd & Ix).
  unfold close_row. rewrite Nn. cbn [negb andb].
  assert (P : exists l, (if t_undo (upd t v (vs_zero true)) then push_var (upd t v (vs_zero true)) U_zero v else Ok (upd t v (vs_zero true))) = Ok (w_log (upd t v (vs_zero true)) l)).
  { assert (S1 : shape t (upd t v (vs_zero true))) by (apply shape_upd; intros; split; reflexivity). destruct (t_undo (upd t v (vs_zero true))).
    - rewrite push_var_eq; [|apply (arranged_shape _ _ S1 A)|exact V|destruct (sh_info _ _ S1 v) as (-> & _); congruence]. destruct (push_w (upd t v (vs_zero true)) (U_zero v)) as (l & ->). exists l. reflexivity.
    - exists (t_log t). destruct t; reflexivity. }
  destruct P as (l & ->). cbn [bind]. apply wp_bind.
  eapply wp_weak; [apply (shut_ok j L t v i R Lr M C0 Nn l)|]. intros t2 (Al & Sh).
  rewrite (live_row_of t2 v i); [|apply (al_core _ _ _ _ _ Al)|apply (al_row _ _ _ _ _ Al)]. cbn [bind]. apply wp_bind, wp_bind.
  destruct (h_flag _ _ _ _ Sh v) as (_ & N2 & _).
  eapply wp_weak; [apply (almost_mark j L v i t2 Al); congruence|]. intros [t3 b] (R3 & S3 & Fe3 & D3 & Nn3). cbn [wp].
  assert (X : flow t t3 /\ v_zero (t_info t3 v) = true /\ forall p, 0 < hd 0 p -> feas L t p -> feas L t3 p).
  { split; [eapply flow_trans; [apply (shut_flow _ _ _ _ Sh)|apply (swept_flow _ _ S3)]|]. split; [destruct (s_keep _ _ S3 v) as (-> & _); apply (h_self _ _ _ _ Sh)|].
    intros p Hp Fe. rewrite Fe3, (h_feas _ _ _ _ Sh). split; [exact Fe|]. pose proof (at_max_le j L t v i p R Lr M Fe) as X. rewrite C0 in X. destruct Lr as (Hi & _). pose proof (a_den _ A i ltac:(lia)).
    destruct Fe as (_ & Q). destruct (Q v V) as (_ & Y). specialize (Y Nn Rd). nia. }
  destruct (manifestly_empty t3); [|exact X]. destruct (mark_empty_w t3) as (l3 & ->). destruct X as (X1 & X2 & X3). split; [destruct X1; constructor; assumption|]. split; assumption.
Qed.

(** ** the number of marked variables that are still in the tableau *)
Definition pend (t : tab) (u : Z) : bool := let x := t_info t u in v_marked x && negb (v_red x) && (v_row x || negb (v_zero x)).
Definition vars (t : tab) : list Z := map con (seq 0 (t_ncon t)) ++ map Z.of_nat (seq 0 (t_nvar t)).
Definition cnt (t : tab) : nat := length (filter (pend t) (vars t)).
Lemma in_vars t u : List.In u (vars t) <-> valid t u.
Proof.
  unfold vars, valid. rewrite in_app_iff, !in_map_iff. split.
  - intros [(c & <- & Hc)|(c & <- & Hc)]; apply in_seq in Hc; unfold con; lia.
  - intros H. destruct (Z_lt_le_dec u 0); [left; exists (Z.to_nat (- 1 - u))|right; exists (Z.to_nat u)]; (split; [unfold con; lia|apply in_seq; lia]).
Qed.
Lemma nodup_join {X} (a b : list X) : NoDup a -> NoDup b -> (forall x, List.In x a -> ~ List.In x b) -> NoDup (a ++ b).
Proof.
  induction a as [|x a IH]; intros Na Nb D; [exact Nb|]. cbn [app]. inversion Na as [|? ? N1 N2]; subst. constructor.
  - intros H. apply in_app_or in H. destruct H as [H|H]; [apply N1; exact H|apply (D x (or_introl eq_refl) H)].
  - apply IH; [exact N2|exact Nb|]. intros y Hy. apply D. right. exact Hy.
Qed.
Lemma nodup_vars t : NoDup (vars t).
Proof.
  unfold vars. apply nodup_join.
  - apply FinFun.Injective_map_NoDup; [|apply seq_NoDup]. intros a b E. unfold con in E. lia.
  - apply FinFun.Injective_map_NoDup; [|apply seq_NoDup]. intros a b E. lia.
  - intros x Hx Hy. apply in_map_iff in Hx. apply in_map_iff in Hy. destruct Hx as (a & <- & _), Hy as (b & E & _). unfold con in E. lia.
Qed.
Lemma filter_le {X} (f g : X -> bool) l : (forall x, List.In x l -> f x = true -> g x = true) -> (length (filter f l) <= length (filter g l))%nat.
Proof.
  induction l as [|x l IH]; intros H; cbn [filter]; [reflexivity|]. specialize (IH (fun y Hy => H y (or_intror Hy))). pose proof (H x (or_introl eq_refl)) as Hx.
  destruct (f x); [rewrite Hx by reflexivity|destruct (g x)]; cbn [length]; lia.
Qed.
Lemma filter_lt {X} (f g : X -> bool) l v : (forall x, List.In x l -> f x = true -> g x = true) -> List.In v l -> f v = false -> g v = true -> (S (length (filter f l)) <= length (filter g l))%nat.
Proof.
  induction l as [|x l IH]; intros H Hv F G; cbn [filter]; [destruct Hv|]. pose proof (filter_le f g l (fun y Hy => H y (or_intror Hy))) as Le. pose proof (H x (or_introl eq_refl)) as Hx.
  destruct Hv as [->|Hv].
  - rewrite F, G. cbn [length]. lia.
  - specialize (IH (fun y Hy => H y (or_intror Hy)) Hv F G). destruct (f x); [rewrite Hx by reflexivity|destruct (g x)]; cbn [length]; lia.
Qed.
Lemma flow_valid t t' u : flow t t' -> (valid t' u <-> valid t u).
Proof. intros S. unfold valid. rewrite (fl_nvar _ _ S), (fl_ncon _ _ S). reflexivity. Qed.
Lemma flow_pend t t' u : flow t t' -> pend t' u = true -> pend t u = true.
Proof.
  intros S. unfold pend. rewrite (fl_marked _ _ S). intros H. apply andb_prop in H. destruct H as (H & H3). apply andb_prop in H. destruct H as (H1 & H2). rewrite H1. apply negb_true_iff in H2. rewrite (fl_red _ _ S _ H2). cbn [negb andb].
  destruct (v_row (t_info t u)) eqn:R; [reflexivity|]. destruct (v_zero (t_info t u)) eqn:Z0; [|reflexivity]. rewrite (fl_col _ _ S u Z0 R) in H3. cbn [orb] in H3. apply negb_true_iff in H3. rewrite (fl_zero _ _ S _ H3) in Z0. discriminate.
Qed.
Lemma flow_cnt t t' : flow t t' -> (cnt t' <= cnt t)%nat.
Proof.
  intros S. unfold cnt, vars. rewrite (fl_ncon _ _ S), (fl_nvar _ _ S). apply filter_le. intros u _. apply flow_pend. exact S.
Qed.
Lemma unmark_cnt t v : valid t v -> pend t v = true -> (S (cnt (upd t v (vs_marked false))) <= cnt t)%nat.
Proof.
  intros V P. unfold cnt. change (vars (upd t v (vs_marked false))) with (vars t). apply (filter_lt _ _ _ v); [|apply in_vars; exact V| |exact P].
  - intros u _. unfold pend. cbn. destruct (Z.eqb_spec u v) as [->|]; [cbn; discriminate|auto].
  - unfold pend. cbn. rewrite Z.eqb_refl. reflexivity.
Qed.
Lemma live_pend t v : arranged t -> flagged t -> live t v -> v_marked (t_info t v) = true -> valid t v /\ pend t v = true.
Proof.
  intros A F [(i & Lr)|(c & (Hc & Ec))] Mk; unfold pend; rewrite Mk; cbn [andb].
  - destruct (live_row_info t v i A F Lr) as (V & -> & -> & _). auto.
  - destruct (a_col _ A c ltac:(lia)) as (V & _ & R). destruct (f_cols _ F c ltac:(lia)) as (Z0 & Rd). rewrite Ec in *. split; [exact V|]. rewrite Rd, Z0. rewrite (proj2 (Nat.ltb_ge c (t_dead t))) by lia. rewrite orb_true_r. reflexivity.
Qed.

(** ** setting and clearing marks *)
Definition same_but (t t' : tab) : Prop :=
  t' = w_info t (t_info t') /\ forall u, exists m, t_info t' u = vs_marked m (t_info t u).
Lemma vs_marked_id x : vs_marked (v_marked x) x = x. Proof. destruct x; reflexivity. Qed.
Lemma same_refl t : same_but t t.
Proof. split; [destruct t; reflexivity|]. intros u. exists (v_marked (t_info t u)). symmetry. apply vs_marked_id. Qed.
Lemma same_trans t t1 t2 : same_but t t1 -> same_but t1 t2 -> same_but t t2.
Proof.
  intros (E1 & H1) (E2 & H2). split; [rewrite E2, E1; reflexivity|]. intros u. destruct (H1 u) as (m1 & A1), (H2 u) as (m2 & A2). exists m2. rewrite A2, A1. destruct (t_info t u); reflexivity.
Qed.
Lemma same_upd t v m : same_but t (upd t v (vs_marked m)).
Proof.
  split; [reflexivity|]. intros u. cbn. destruct (Z.eqb_spec u v) as [->|]; [exists m; reflexivity|]. exists (v_marked (t_info t u)). symmetry. apply vs_marked_id.
Qed.
Lemma same_flag {X} (f : tvar -> X) t t' u : same_but t t' -> (forall m x, f (vs_marked m x) = f x) -> f (t_info t' u) = f (t_info t u).
Proof. intros (_ & H) E. destruct (H u) as (m & ->). apply E. Qed.
Lemma same_feas L t t' p : same_but t t' -> feas L t p -> feas L t' p.
Proof.
  intros S (Lp & H). pose proof S as (E & _). split; [rewrite E; exact Lp|]. intros u V. assert (V0 : valid t u) by (unfold valid in *; rewrite E in V; exact V). specialize (H u V0).
  rewrite (same_flag v_zero t t' u S), (same_flag v_nonneg t t' u S), (same_flag v_red t t' u S) by reflexivity. exact H.
Qed.
Lemma set_marks_same l : forall t n, same_but t (fst (set_marks t l n)).
Proof. induction l as [|(v, m) l IH]; intros t n; cbn [set_marks]; [apply same_refl|]. eapply same_trans; [apply (same_upd t v m)|apply IH]. Qed.
Lemma clear_marks_same l : forall t n, same_but t (fst (clear_marks t l n)).
Proof.
  induction l as [|(v, m) l IH]; intros t n; cbn [clear_marks]; [apply same_refl|]. destruct (v_marked (t_info t v) && m); [|apply IH]. eapply same_trans; [apply (same_upd t v false)|apply IH].
Qed.
Lemma set_marks_n l : forall t n, snd (set_marks t l n) = (n + length (filter snd l))%nat.
Proof. induction l as [|(v, m) l IH]; intros t n; cbn [set_marks filter snd]; [cbn; lia|]. rewrite IH. destruct m; cbn [length]; lia. Qed.
(** a variable of the list is marked if it appears with true, and only then *)
Lemma set_marks_in u l : forall t n, v_marked (t_info (fst (set_marks t l n)) u) = true -> List.In (u, true) l \/ v_marked (t_info t u) = true /\ ~ List.In u (map fst l).
Proof.
  induction l as [|(v, m) l IH]; intros t n; cbn [set_marks]; [right; auto|]. intros H. destruct (IH _ _ H) as [K|(K1 & K2)]; [left; right; exact K|]. cbn in K1. destruct (Z.eqb_spec u v) as [->|N].
  - cbn in K1. subst m. left. left. reflexivity.
  - right. split; [exact K1|]. cbn. intros [E|E]; [congruence|apply K2; exact E].
Qed.
Lemma set_marks_out u l : forall t n, v_marked (t_info t u) = true \/ List.In u (map fst l) -> v_marked (t_info (fst (set_marks t l n)) u) = true \/ List.In (u, false) l.
Proof.
  induction l as [|(v, m) l IH]; intros t n H; cbn [set_marks].
  - destruct H as [H|[]]. left. exact H.
  - destruct (Z.eqb_spec u v) as [->|N].
    + destruct m; [|right; left; reflexivity]. destruct (IH (upd t v (vs_marked true)) (S n)) as [K|K]; [left; cbn; rewrite Z.eqb_refl; reflexivity|left; exact K|right; right; exact K].
    + destruct (IH (upd t v (vs_marked m)) (if m then S n else n)) as [K|K]; [|left; exact K|right; right; exact K]. cbn. rewrite (proj2 (Z.eqb_neq u v) N). destruct H as [H|[H|H]]; [left; exact H|cbn in H; congruence|right; exact H].
Qed.
Lemma clear_marks_out u l : forall t n, v_marked (t_info t u) = true -> v_marked (t_info (fst (clear_marks t l n)) u) = true \/ List.In (u, true) l.
Proof.
  induction l as [|(v, m) l IH]; intros t n H; cbn [clear_marks]; [left; exact H|]. destruct (v_marked (t_info t v) && m) eqn:E.
  - apply andb_prop in E. destruct E as (E & ->). destruct (Z.eqb_spec u v) as [->|N]; [right; left; reflexivity|]. destruct (IH (upd t v (vs_marked false)) (n - 1)%nat) as [K|K]; [cbn; rewrite (proj2 (Z.eqb_neq u v) N); exact H|left; exact K|right; right; exact K].
  - destruct (IH t n H) as [K|K]; [left; exact K|right; right; exact K].
Qed.
Definition present (t : tab) (u : Z) : Prop := valid t u /\ v_red (t_info t u) = false /\ (v_row (t_info t u) = true \/ v_zero (t_info t u) = false).
Lemma present_pend t u : present t u -> v_marked (t_info t u) = true -> pend t u = true.
Proof. intros (_ & R & H) M. unfold pend. rewrite M, R. destruct H as [->| ->]; [reflexivity|]. rewrite orb_true_r. reflexivity. Qed.
Lemma pend_present t u : valid t u -> pend t u = true -> present t u /\ v_marked (t_info t u) = true.
Proof.
  intros V H. unfold pend in H. apply andb_prop in H. destruct H as (H & H3). apply andb_prop in H. destruct H as (H1 & H2). apply negb_true_iff in H2. split; [|exact H1]. split; [exact V|]. split; [exact H2|]. apply orb_prop in H3. destruct H3 as [H3|H3]; [left; exact H3|right; apply negb_true_iff; exact H3].
Qed.
Lemma present_same t t' u : same_but t t' -> present t u -> present t' u.
Proof.
  intros S (V & H). pose proof S as (E & _). unfold present. rewrite (same_flag v_red t t' u S), (same_flag v_row t t' u S), (same_flag v_zero t t' u S) by reflexivity. split; [unfold valid in *; rewrite E; exact V|exact H].
Qed.
Lemma clear_marks_cnt l : forall t n, (forall v m, List.In (v, m) l -> present t v) -> (cnt t <= n)%nat -> (cnt (fst (clear_marks t l n)) <= snd (clear_marks t l n))%nat.
Proof.
  induction l as [|(v, m) l IH]; intros t n P H; cbn [clear_marks]; [exact H|]. destruct (v_marked (t_info t v) && m) eqn:E.
  - apply IH.
    + intros u k Hu. eapply present_same; [apply same_upd|]. apply (P u k). right. exact Hu.
    + apply andb_prop in E. destruct E as (E & _). pose proof (P v m (or_introl eq_refl)) as Pv. pose proof (unmark_cnt t v (proj1 Pv) (present_pend t v Pv E)). lia.
  - apply IH; [|exact H]. intros u k Hu. apply (P u k). right. exact Hu.
Qed.
Lemma set_marks_cnt l t : (forall u, present t u -> List.In u (map fst l)) -> (cnt (fst (set_marks t l 0)) <= snd (set_marks t l 0))%nat.
Proof.
  intros P. rewrite set_marks_n. cbn [Nat.add]. pose proof (set_marks_same l t 0) as S. set (t1 := fst (set_marks t l 0)) in *. rewrite <- (map_length fst (filter snd l)). apply NoDup_incl_length; [apply NoDup_filter, nodup_vars|].
  intros u Hu. apply filter_In in Hu. destruct Hu as (V & Pu). apply in_vars in V. destruct (pend_present t1 u V Pu) as (Pr & Mk).
  apply in_map_iff. exists (u, true). split; [reflexivity|]. apply filter_In. split; [|reflexivity]. destruct (set_marks_in u l t 0 Mk) as [H|(_ & H)]; [exact H|]. exfalso. apply H, P.
  pose proof S as (E & _). destruct Pr as (V1 & Pr). split; [unfold valid in *; rewrite E in V1; exact V1|]. rewrite (same_flag v_red t t1 u S), (same_flag v_row t t1 u S), (same_flag v_zero t t1 u S) in Pr by reflexivity. exact Pr.
Qed.
Lemma present_live t u : arranged t -> flagged t -> present t u -> live t u.
Proof.
  intros A F (V & R & H). destruct (v_row (t_info t u)) eqn:Rw; [left; apply live_row_at; assumption|]. destruct H as [H|H]; [discriminate|]. apply live_of; assumption.
Qed.

(** ** the constraints that the loops have to look at *)
Definition open (t : tab) (u : Z) : Prop :=
  valid t u /\ u < 0 /\ v_nonneg (t_info t u) = true /\ v_frozen (t_info t u) = false /\ v_red (t_info t u) = false /\ v_zero (t_info t u) = false.
Definition inv (Q : tab -> Z -> Prop) (t : tab) (n : nat) : Prop :=
  (cnt t <= n)%nat /\ forall u, open t u -> v_marked (t_info t u) = true \/ Q t u.
Lemma open_flow t t' u : flow t t' -> open t' u -> open t u.
Proof.
  intros S (V & N & Nn & Fz & Rd & Z0). split; [apply (flow_valid _ _ _ S); exact V|]. split; [exact N|]. split; [rewrite <- (fl_nonneg _ _ S u Rd); exact Nn|]. split; [rewrite <- (fl_frozen _ _ S u); exact Fz|].
  split; [apply (fl_red _ _ S); exact Rd|apply (fl_zero _ _ S); exact Z0].
Qed.
Lemma inv_flow (Q : tab -> Z -> Prop) t t' n : flow t t' -> (forall u, Q t u -> Q t' u) -> inv Q t n -> inv Q t' n.
Proof.
  intros S HQ (C & H). split; [pose proof (flow_cnt _ _ S); lia|]. intros u O. rewrite (fl_marked _ _ S). destruct (H u (open_flow _ _ _ S O)) as [K|K]; auto.
Qed.
Lemma open_present t u : open t u -> present t u.
Proof. intros (V & _ & _ & _ & Rd & Z0). split; [exact V|]. auto. Qed.
Lemma cnt_zero t u : cnt t = 0%nat -> valid t u -> pend t u = false.
Proof.
  intros C V. unfold cnt in C. destruct (pend t u) eqn:E; [|reflexivity]. apply in_vars in V. assert (X : List.In u (filter (pend t) (vars t))) by (apply filter_In; auto). destruct (filter (pend t) (vars t)); [destruct X|discriminate C].
Qed.
Lemma select_none t : arranged t -> flagged t -> forall n, select_marked_from t n = None -> forall c, (c < n)%nat -> present t (con c) -> v_marked (t_info t (con c)) = false.
Proof.
  intros A F. induction n as [|n IH]; intros H c Hc P; [lia|]. cbn [select_marked_from] in H.
  destruct (Nat.eq_dec c n) as [->|N].
  - destruct (present_live t _ A F P) as [(i & Lr)|(i & (Hi & Ei))].
    + destruct (live_row_info t _ i A F Lr) as (V & Rw & Rd & Ix). rewrite Ix, Rw in H. cbn [andb negb] in H. rewrite (proj2 (Nat.ltb_ge i (t_red t))) in H by (destruct Lr; lia). destruct (v_marked (t_info t (con n))); [discriminate|reflexivity].
    + destruct (a_col _ A i ltac:(lia)) as (V & Ix & Rw). rewrite Ei in *. rewrite Ix, Rw in H. cbn [andb negb] in H. rewrite (proj2 (Nat.ltb_ge i (t_dead t))) in H by lia. destruct (v_marked (t_info t (con n))); [discriminate|reflexivity].
  - apply IH; [|lia|exact P]. destruct (v_idx (t_info t (con n))); [|exact H]. destruct (v_row (t_info t (con n)) && Nat.ltb n0 (t_red t)); [exact H|]. destruct (negb (v_row (t_info t (con n))) && Nat.ltb n0 (t_dead t)); [exact H|]. destruct (v_marked (t_info t (con n))); [discriminate|exact H].
Qed.
Lemma inv_done Q t n : arranged t -> flagged t -> inv Q t n -> n = 0%nat \/ select_marked t = None -> forall u, open t u -> Q t u.
Proof.
  intros A F (C & H) D u O. destruct (H u O) as [M|K]; [|exact K]. exfalso. pose proof (open_present t u O) as P. destruct D as [->|D].
  - pose proof (present_pend t u P M). pose proof (cnt_zero t u ltac:(lia) (proj1 P)). congruence.
  - destruct O as (V & Ng & _). assert (E : u = con (Z.to_nat (- 1 - u))) by (unfold con; lia). rewrite E in P, M. rewrite (select_none t A F _ D (Z.to_nat (- 1 - u))) in M; [discriminate| |exact P]. unfold valid in V. lia.
Qed.
(** a marked variable is selected *)
Lemma inv_select (Q : tab -> Z -> Prop) L int t v n : represents int L t -> (forall u t', same_but t t' -> Q t u -> Q t' u) -> select_marked t = Some v -> inv Q t (S n) ->
  (cnt (upd t v (vs_marked false)) <= n)%nat /\ forall u, open (upd t v (vs_marked false)) u -> u = v \/ v_marked (t_info (upd t v (vs_marked false)) u) = true \/ Q (upd t v (vs_marked false)) u.
Proof.
  intros R HQ Sel (C & H). destruct (select_ok int L t v R Sel) as (V & Ng & Mk & Lv). destruct (live_pend t v) as (_ & P); [apply R|apply R|exact Lv|exact Mk|].
  split; [pose proof (unmark_cnt t v V P); lia|]. intros u O. destruct (Z.eq_dec u v) as [->|N]; [left; reflexivity|right]. cbn. rewrite (proj2 (Z.eqb_neq u v) N).
  assert (O' : open t u). { unfold open in *. cbn in O. rewrite (proj2 (Z.eqb_neq u v) N) in O. exact O. }
  destruct (H u O') as [K|K]; [left; exact K|right]. apply (HQ u); [apply same_upd|exact K].
Qed.

(** ** implicit equalities *)
Definition positive (L : list (list Z)) (t : tab) (u : Z) : Prop := exists p, 0 < hd 0 p /\ feas L t p /\ 0 < value L p u.
Lemma positive_keep L t t' u : (forall p, 0 < hd 0 p -> feas L t p -> feas L t' p) -> positive L t u -> positive L t' u.
Proof. intros H (p & Hp & Fe & P). exists p. auto. Qed.
(** a row that cannot be an equality *)
Lemma not_equality_positive int L t i : represents int L t -> sample_ok None t -> (t_red t <= i < nrow t)%nat -> v_nonneg (t_info t (rowv t i)) = true -> cst t i <> 0 -> positive L t (rowv t i).
Proof.
  intros R D Hi Nn C. destruct (sample_point int L t R D) as (k & p & K & Hh & Fe & Rw). exists p. split; [lia|]. split; [exact Fe|]. specialize (Rw i ltac:(lia)).
  assert (0 <= cst t i) by (apply D; [exact Hi|discriminate|exact Nn]). pose proof (a_den _ (c_arr _ _ (r_core _ _ _ R)) i ltac:(lia)). nia.
Qed.
Lemma may_not t i : 0 < den t i -> may_be_equality t i = false -> cst t i <> 0.
Proof. unfold may_be_equality. intros Dn H E. rewrite E in H. destruct (t_rat t); [discriminate|]. apply Z.ltb_ge in H. lia. Qed.
(** a constraint that isl_tab_is_equality says is not an equality *)
Definition eq_row (t : tab) (u : Z) : bool := v_row (t_info t u) && match v_idx (t_info t u) with Some i => row_zero t i | None => false end.
Definition complete (L : list (list Z)) (t : tab) : Prop := t_empty t = false -> forall u, open t u -> eq_row t u = false -> positive L t u.
Lemma complete_loop j int L again :
  (forall t, represents j L t -> sample_ok None t -> marks_ok t -> (t_rat t = false -> int = true) -> wp (again t) (complete L)) ->
  forall fuel t n, represents j L t -> sample_ok None t -> marks_ok t -> (t_rat t = false -> int = true) -> inv (positive L) t n -> wp (detect_eq_loop fuel again t n) (complete L).
Proof.
  intros Ag. induction fuel as [|f IH]; intros t n R D M Hr In; [exact I|]. cbn [detect_eq_loop].
  assert (Done : n = 0%nat \/ select_marked t = None -> wp (Ok t) (complete L)).
  { intros X _ u O _. apply (inv_done _ t n); auto; apply R. }
  destruct n as [|n]; [apply Done; left; reflexivity|]. destruct (select_marked t) as [v|] eqn:Sel; [|apply Done; right; reflexivity]. clear Done.
  destruct (select_ok j L t v R Sel) as (V & Ng & Mk & Lv). pose proof (M v V Ng Mk) as Nn.
  assert (Sp : forall u t', same_but t t' -> positive L t u -> positive L t' u) by (intros u t' Sm; apply positive_keep; intros p _; apply same_feas; exact Sm).
  destruct (inv_select (positive L) L j t v n R Sp Sel In) as (Cn & Iv). clear Sp.
  set (t1 := upd t v (vs_marked false)) in *.
  pose proof (sm_represents j L t v false R) as R1. pose proof (sm_sample t v false None D) as D1. pose proof (sm_step int L t v) as S1. pose proof (step_marks _ _ _ _ S1 M) as M1. fold t1 in R1, D1, S1, M1.
  assert (V1 : valid t1 v) by exact V.
  assert (Nn1 : v_nonneg (t_info t1 v) = true) by (apply (p_nonneg _ _ _ _ S1 v V Nn)).
  apply wp_bind. eapply wp_weak; [apply (sign_of_max_ok j L v f t1 R1 Lv D1)|]. intros [t2 s] (R2 & E2 & D2 & Rd2 & S2).
  pose proof (evolve_flow L t1 t2 E2) as F2.
  pose proof (evolve_step int L t1 t2 E2) as P2. pose proof (step_marks _ _ _ _ P2 M1) as M2. pose proof (p_nonneg _ _ _ _ P2 v V1 Nn1) as Nn2. pose proof (proj2 (step_valid _ _ _ _ v P2) V1) as V2.
  assert (Hr2 : t_rat t2 = false -> int = true) by (rewrite (p_rat _ _ _ _ P2); exact Hr).
  assert (Cn2 : (cnt t2 <= n)%nat) by (pose proof (flow_cnt _ _ F2); lia).
  assert (Iv2 : forall u, open t2 u -> u = v \/ v_marked (t_info t2 u) = true \/ positive L t2 u).
  { intros u O. rewrite (fl_marked _ _ F2). destruct (Iv u (open_flow _ _ _ F2 O)) as [K|[K|K]]; [left; exact K|right; left; exact K|right; right]. apply (positive_keep L t1); [|exact K]. intros p Hp. apply (e_feas _ _ _ E2 p Hp). }
  assert (Ss : s = 1 /\ v_zero (t_info t2 v) = false /\ positive L t2 v \/ s = 0 /\ exists i, live_row t2 v i /\ at_max t2 i /\ cst t2 i = 0).
  { destruct S2 as [(-> & p & Hp & (Lp & Fe) & Pv)|(Le & i & Lr & Es & Mx)].
    - left. split; [reflexivity|]. split; [destruct (v_zero (t_info t2 v)) eqn:Z0; [|reflexivity]; rewrite (proj1 (Fe v V2) Z0) in Pv; lia|]. exists p. split; [exact Hp|]. split; [split; assumption|exact Pv].
    - right. assert (0 <= cst t2 i). { destruct Lr as (Hi & Ei). apply D2; [exact Hi|discriminate|rewrite Ei; exact Nn2]. }
      assert (cst t2 i = 0) by (destruct (cst t2 i); cbn in Es; lia). split; [rewrite Es; replace (cst t2 i) with 0 by congruence; reflexivity|]. exists i. auto. }
  destruct (Z.ltb_spec s 0) as [X|_]; [lia|].
  assert (Rest : forall t3, represents j L t3 -> sample_ok None t3 -> marks_ok t3 -> (t_rat t3 = false -> int = true) -> inv (positive L) t3 n ->
    wp (let '(t, n) := clear_marks t3 (map (fun i => (rowv t3 i, negb (may_be_equality t3 i))) (live_rows t3)) n in detect_eq_loop f again t n) (complete L)).
  { intros t3 R3 D3 M3 Hr3 (Cn3 & Iv3). set (l := map _ _). destruct (clear_marks_ok j int L l t3 n R3) as (R4 & P4 & D4). pose proof (clear_marks_same l t3 n) as Sm. pose proof (fun u => clear_marks_out u l t3 n) as Ou.
    assert (Pr : forall u m, List.In (u, m) l -> exists i, (t_red t3 <= i < nrow t3)%nat /\ rowv t3 i = u /\ m = negb (may_be_equality t3 i)).
    { intros u m Hu. apply in_map_iff in Hu. destruct Hu as (i & E & Hi). injection E as E1 E2'. apply in_live_rows in Hi. exists i. split; [lia|]. auto. }
    pose proof (clear_marks_cnt l t3 n) as Cc. destruct (clear_marks t3 l n) as [t4 n4]. cbn [fst snd] in *.
    apply IH; [exact R4|apply D4, D3|apply (step_marks _ _ _ _ P4 M3)|rewrite (p_rat _ _ _ _ P4); exact Hr3|]. split.
    - apply Cc; [|exact Cn3]. intros u m Hu. destruct (Pr u m Hu) as (i & Hi & <- & _). destruct (live_row_info t3 (rowv t3 i) i) as (Vi & Ri & Rdi & _); [apply R3|apply R3|split; [exact Hi|reflexivity]|]. split; [exact Vi|]. auto.
    - intros u O. assert (O3 : open t3 u).
      { pose proof Sm as (E & _). unfold open in *. rewrite (same_flag v_nonneg t3 t4 u Sm), (same_flag v_frozen t3 t4 u Sm), (same_flag v_red t3 t4 u Sm), (same_flag v_zero t3 t4 u Sm) in O by reflexivity. destruct O as (Vu & O). split; [unfold valid in *; rewrite E in Vu; exact Vu|exact O]. }
      assert (Kp : positive L t3 u -> positive L t4 u) by (apply positive_keep; intros p _; apply same_feas; exact Sm).
      destruct (Iv3 u O3) as [K|K]; [|right; apply Kp; exact K]. destruct (Ou u K) as [K'|K']; [left; exact K'|right]. apply Kp.
      destruct (Pr u true K') as (i & Hi & <- & Em). apply (not_equality_positive j L t3 i R3 D3 Hi); [apply O3|]. apply may_not; [apply (a_den _ (c_arr _ _ (r_core _ _ _ R3))); lia|]. apply negb_true_iff. symmetry. exact Em. }
  destruct Ss as [(-> & Z2 & Pv) | (-> & i & Lr & Mx & C0)].
  - change (1 =? 0) with false. cbv iota.
    assert (In2 : inv (positive L) t2 n). { split; [exact Cn2|]. intros u O. destruct (Iv2 u O) as [->|K]; [right; exact Pv|exact K]. }
    destruct (t_rat t2) eqn:Rt; cbn [negb]; [apply Rest; auto; rewrite Rt; exact Hr2|]. pose proof (Hr2 eq_refl) as Ei. subst int.
    assert (Lv2 : live t2 v) by (apply live_of; [apply R2|apply R2|exact V2|exact Rd2|exact Z2]).
    apply wp_bind. eapply wp_weak; [apply (at_least_one_ok j L v f t2 R2 Lv2 D2)|]. intros [t3 b] (R3 & E3 & D3 & Rd3 & H3).
    pose proof (evolve_step true L t2 t3 E3) as P3. pose proof (step_marks _ _ _ _ P3 M2) as M3.
    destruct b; cbn [negb].
    + apply Rest; auto. apply (inv_flow _ t2 t3 n (evolve_flow _ _ _ E3)); [|exact In2]. intros u. apply positive_keep. intros p Hp. apply (e_feas _ _ _ E3 p Hp).
    + apply wp_bind. eapply wp_weak.
      * apply (cut_ok j L v f t3 R3).
        -- apply (step_valid _ _ _ _ v P3). exact V2.
        -- exact Ng.
        -- exact Rd3.
        -- destruct (e_keep _ _ _ E3 v) as (-> & _). exact Z2.
        -- apply (p_nonneg _ _ _ _ P3 v V2 Nn2).
        -- exact D3.
        -- rewrite (p_rat _ _ _ _ P3). exact Rt.
        -- apply H3. reflexivity.
      * intros t4 (R4 & P4 & D4). apply Ag; [exact R4|exact D4|apply (step_marks _ _ _ _ P4 M3)|reflexivity].
  - change (0 =? 0) with true. cbv iota. apply wp_bind. eapply wp_weak; [apply (wp_and _ _ _ (close_row_ok j int L t2 v i R2 Lr Mx C0 Nn2 Hr2) (close_flow j L t2 v i R2 Lr Mx C0 Nn2))|]. intros t3 ((R3 & P3 & D3) & F3 & Z3 & Fe3).
    apply Rest; [exact R3|apply D3, D2|apply (step_marks _ _ _ _ P3 M2)|rewrite (p_rat _ _ _ _ P3); exact Hr2|].
    split; [pose proof (flow_cnt _ _ F3); lia|]. intros u O. destruct (Iv2 u (open_flow _ _ _ F3 O)) as [->|[K|K]].
    + exfalso. destruct O as (_ & _ & _ & _ & _ & X). congruence.
    + left. rewrite (fl_marked _ _ F3). exact K.
    + right. apply (positive_keep L t2); [exact Fe3|exact K].
Qed.
Theorem detect_eq_complete j int L : forall fuel t, represents j L t -> sample_ok None t -> marks_ok t -> (t_rat t = false -> int = true) ->
  wp (detect_implicit_equalities fuel t) (complete L).
Proof.
  induction fuel as [|f IH]; intros t R D M Hr; [exact I|]. cbn [detect_implicit_equalities].
  pose proof (c_arr _ _ (r_core _ _ _ R)) as A. pose proof (c_flg _ _ (r_core _ _ _ R)) as F.
  destruct (t_empty t) eqn:Em; [cbn [wp]; intros X; congruence|]. destruct (Nat.eqb_spec (t_dead t) (ncol t)) as [Ed|_].
  { cbn [wp]. intros _ u O E. destruct (present_live t u A F (open_present t u O)) as [(i & Lr)|(c & (Hc & _))]; [|lia]. destruct (live_row_info t u i A F Lr) as (_ & Rw & _ & Ix). destruct Lr as (Hi & Ei).
    unfold eq_row in E. rewrite Rw, Ix in E. cbn [andb] in E. unfold row_zero, first_live, live_cols in E. rewrite Ed, Nat.sub_diag in E. cbn [seq find] in E. rewrite andb_true_r in E. apply Z.eqb_neq in E.
    rewrite <- Ei. apply (not_equality_positive j L t i R D Hi); [rewrite Ei; apply O|exact E]. }
  set (l := _ ++ _). destruct (set_marks_ok j int L l t 0%nat R M) as (R1 & K1 & M1 & D1).
  { intros v Hv. unfold l in Hv. apply in_app_or in Hv. destruct Hv as [Hv|Hv]; apply in_map_iff in Hv; destruct Hv as (i & E & _); cbv zeta in E; injection E as E1 E2; rewrite E1 in E2; apply andb_true_iff in E2; destruct E2 as (E2 & E3); [apply andb_true_iff in E2; apply E2|exact E3]. }
  assert (Co : forall u, present t u -> List.In u (map fst l)).
  { intros u P. unfold l. rewrite map_app, !map_map. cbn [fst]. apply in_or_app. destruct (present_live t u A F P) as [(i & (Hi & <-))|(c & (Hc & <-))]; [left|right]; apply in_map_iff; eexists; (split; [reflexivity|]); [apply in_live_rows|apply in_live_cols]; lia. }
  pose proof (set_marks_cnt l t Co) as Cn. pose proof (set_marks_same l t 0) as Sm. pose proof (fun u => set_marks_out u l t 0) as Ou.
  destruct (set_marks t l 0) as [t1 n]. cbn [fst snd] in *. apply (complete_loop j int L (detect_implicit_equalities f) IH f t1 n R1 (D1 None D) M1).
  - rewrite (k_rat _ _ _ _ K1). exact Hr.
  - split; [exact Cn|]. intros u O.
    assert (O3 : open t u).
    { pose proof Sm as (E & _). unfold open in *. rewrite (same_flag v_nonneg t t1 u Sm), (same_flag v_frozen t t1 u Sm), (same_flag v_red t t1 u Sm), (same_flag v_zero t t1 u Sm) in O by reflexivity. destruct O as (Vu & O). split; [unfold valid in *; rewrite E in Vu; exact Vu|exact O]. }
    destruct (Ou u (or_intror (Co u (open_present t u O3)))) as [K|K]; [left; exact K|right]. apply (positive_keep L t); [intros p _; apply same_feas; exact Sm|].
    pose proof O3 as (_ & _ & Nn & Fz & _). unfold l in K. apply in_app_or in K. destruct K as [K|K]; apply in_map_iff in K; destruct K as (i & E & Hi); cbv zeta in E; injection E as E1 E2; rewrite E1, Nn, Fz in E2; cbn [negb andb] in E2; [|discriminate].
    apply in_live_rows in Hi. rewrite <- E1. apply (not_equality_positive j L t i R D); [lia|rewrite E1; exact Nn|]. apply may_not; [apply (a_den _ A); lia|exact E2].
Qed.
