(** isl_tab_relax. *)
From Coq Require Import ZArith List Bool Arith Lia.
From Verif Require Import SeqModel SeqSpec SeqProofs MatModel BMapModel BMapLists BMapGauss2 BElimSpec BElimFM TabModel TabSpec TabBase TabStruct TabMark TabPivot TabStep TabSign TabMin TabKill TabAdd TabClose TabCut TabBuild TabMap TabRelaxModel TabRelax.
Import ListNotations.
Open Scope Z_scope.

(** ** rows are not removed if undo information is kept *)
Definition stays (t t' : tab) : Prop := t_undo t' = t_undo t /\ forall u, v_idx (t_info t u) <> None -> v_idx (t_info t' u) <> None.
Lemma stays_refl t : stays t t. Proof. split; auto. Qed.
Lemma stays_trans t t1 t2 : stays t t1 -> stays t1 t2 -> stays t t2.
Proof. intros (E1 & H1) (E2 & H2). split; [congruence|auto]. Qed.
Lemma stays_upd t u f : (forall x, v_idx x <> None -> v_idx (f x) <> None) -> stays t (upd t u f).
Proof. intros H. split; [reflexivity|]. intros x Hx. change (t_info (upd t u f) x) with (if x =? u then f (t_info t u) else t_info t x). destruct (Z.eqb_spec x u) as [->|]; auto. Qed.
Lemma stays_same t t' : t_undo t' = t_undo t -> t_info t' = t_info t -> stays t t'.
Proof. intros E1 E2. split; [exact E1|]. intros u. rewrite E2. auto. Qed.
Lemma stays_swap t i j : stays t (swap_rows t i j).
Proof.
  unfold swap_rows. match goal with |- stays _ (w_rows ?x _) => apply (stays_trans _ x); [|apply stays_same; reflexivity] end. eapply stays_trans; [|apply stays_upd; intros; discriminate].
  eapply stays_trans; [|apply stays_upd; intros; discriminate]. apply stays_same; reflexivity.
Qed.
Lemma stays_push t u : stays t (push t u).
Proof. unfold push. destruct (t_undo t) eqn:E; [|apply stays_refl]. apply stays_same; reflexivity. Qed.
Lemma stays_push_var t u v t' : push_var t u v = Ok t' -> stays t t'.
Proof. unfold push_var. destruct (v_row (t_info t v)); intros H; apply bind_ok in H; destruct H as (i & _ & [= <-]); apply stays_push. Qed.
Lemma stays_mark t i t' b : t_undo t = true -> mark_redundant t i = Ok (t', b) -> stays t t'.
Proof.
  intros Un H. unfold mark_redundant in H. set (v := rowv t i) in *. set (t1 := upd t v (vs_red true)) in *. assert (S1 : stays t t1) by (apply stays_upd; auto).
  destruct (Nat.ltb i (t_red t1)); [discriminate|]. change (t_undo t1) with (t_undo t) in H. rewrite Un, orb_true_r in H. cbn [orb] in H.
  apply bind_ok in H. destruct H as (t2 & H2 & H). apply bind_ok in H. destruct H as (t3 & H3 & [= <- _]).
  assert (S2 : stays t1 t2).
  { destruct ((0 <=? v) && negb (v_nonneg (t_info t1 v))); [|injection H2 as <-; apply stays_refl].
    eapply stays_trans; [|eapply stays_push_var; exact H2]. apply stays_upd. auto. }
  pose proof (stays_push_var _ _ _ _ H3) as S3. eapply stays_trans; [exact S1|]. eapply stays_trans; [exact S2|]. eapply stays_trans; [|exact S3].
  apply (stays_trans _ (if Nat.eqb i (t_red t2) then t2 else swap_rows t2 i (t_red t2))); [|apply stays_same; reflexivity]. destruct (Nat.eqb i (t_red t2)); [apply stays_refl|apply stays_swap].
Qed.
Lemma stays_sweep c : forall k i t t', t_undo t = true -> sweep k i c t = Ok t' -> stays t t'.
Proof.
  induction k as [|k IH]; intros i t t' Un H; cbn [sweep] in H; [injection H as <-; apply stays_refl|].
  destruct (cf t i c =? 0); [eauto|]. destruct (negb (v_frozen (t_info t (rowv t i))) && row_is_redundant t i); [|eauto].
  apply bind_ok in H. destruct H as ([t1 b] & H1 & H). pose proof (stays_mark t i t1 b Un H1) as S1. eapply stays_trans; [exact S1|]. eapply IH; [|exact H]. rewrite (proj1 S1). exact Un.
Qed.
Lemma stays_pivot t i c t' : t_undo t = true -> pivot t i c = Ok t' -> stays t t'.
Proof.
  intros Un H. unfold pivot in H. assert (S1 : stays t (pivot_step t i c)).
  { unfold pivot_step. eapply stays_trans; [|apply stays_upd; intros; discriminate]. eapply stays_trans; [|apply stays_upd; intros; discriminate]. apply stays_same; reflexivity. }
  destruct (t_inundo (pivot_step t i c)); [injection H as <-; exact S1|]. eapply stays_trans; [exact S1|]. eapply stays_sweep; [|exact H]. rewrite (proj1 S1). exact Un.
Qed.

(** ** the marks that a pivot adds do not depend on the constraint, if it is in a row *)
Section Marks.
Variables (int : bool) (L : list (list Z)) (c : nat) (t t1 : tab).
Let w := con c.
Let L' := relaxed L c.
Hypothesis C : core L t.
Hypothesis Cl : clean t t1.
Hypothesis Hc : (c < t_ncon t)%nat.
Hypothesis Rw : v_row (t_info t w) = true.
Let A : arranged t := c_arr _ _ C.
Let F : flagged t := c_flg _ _ C.
Let val p u : value L' p u = if u =? w then value L p u + hd 0 p else value L p u := core_value L c t C Hc p u.
Lemma mk_cols p : ok_cols L' t p -> ok_cols L t p.
Proof.
  intros [O1 O2 O3 O4]. constructor; auto.
  - intros u V G. specialize (O2 u V G). rewrite val in O2. destruct (Z.eqb_spec u w) as [E|]; [destruct G; congruence|exact O2].
  - intros j Hj Hd. specialize (O3 j Hj Hd). rewrite val in O3. destruct (Z.eqb_spec (colv t j) w) as [E|]; [destruct (a_col _ A j Hj) as (_ & _ & X); congruence|exact O3].
  - intros j Hj Hn. specialize (O4 j Hj Hn). rewrite val in O4. destruct (Z.eqb_spec (colv t j) w) as [E|]; [destruct (a_col _ A j Hj) as (_ & _ & X); congruence|exact O4].
Qed.
Lemma mk_new p u : 0 < hd 0 p -> feas L' t1 p -> valid t u -> redrow t u -> v_row (t_info t u) = true -> v_idx (t_info t u) <> None -> 0 <= value L' p u.
Proof.
  intros Hp Fe V Rd Ru Iu. pose proof Cl as (A1 & F1 & S & X). pose proof (mk_cols p (clean_cols L' t t1 p A Cl (feas_cols _ _ _ A1 F1 Fe))) as O.
  pose proof (redrow_ge0 L t p u A (c_rel _ _ C) O Hp V Ru Iu Rd). rewrite val. destruct (u =? w); lia.
Qed.
Lemma mk_feas p : 0 < hd 0 p -> (feas L' t1 p <-> feas L' t p).
Proof.
  intros Hp. pose proof Cl as (A1 & F1 & S & X). split; [|apply swept_feas; exact S]. intros Fe. pose proof Fe as (Lp & H). rewrite (s_nvar _ _ S) in Lp. split; [exact Lp|].
  intros v V. destruct (H v (proj2 (swept_valid _ _ _ S) V)) as (H1 & H2). destruct (s_keep _ _ S v) as (E & _). rewrite E in H1. split; [exact H1|].
  intros N R. destruct (v_red (t_info t1 v)) eqn:R'.
  - destruct (X v V) as (P & Q & W & _); [left; auto|]. apply (mk_new p v Hp Fe V P Q W).
  - apply H2; [|reflexivity]. rewrite (proj2 (proj2 (s_grow _ _ S v)) R'). exact N.
Qed.
Lemma mk_stay : marks_stay int L' t -> marks_stay int L' t1.
Proof.
  intros Hm p Ad Fe u V Nu Rd. pose proof Cl as (A1 & F1 & S & X). apply (swept_valid _ _ _ S) in V. destruct (v_red (t_info t u)) eqn:R0.
  - destruct (v_nonneg (t_info t u)) eqn:N0.
    + apply (Hm p Ad); auto. apply mk_feas; [apply Ad|exact Fe].
    + destruct (X u V) as (P & Q & W & Y); [right; auto|]. congruence.
  - destruct (X u V) as (P & Q & W & _); [left; auto|]. apply (mk_new p u (proj1 Ad) Fe V P Q W).
Qed.
End Marks.

(** ** moving the constraint to a row *)
Record moved (int : bool) (L : list (list Z)) (c : nat) (t t1 : tab) : Prop := {
  mv_rep : represents int L t1; mv_ev : evolve L t t1; mv_sample : sample_ok (Some (con c)) t1; mv_marks : marks_stay int (relaxed L c) t1;
  mv_feas : forall p, 0 < hd 0 p -> (feas (relaxed L c) t1 p <-> feas (relaxed L c) t p);
  mv_at : exists i, (i < nrow t1)%nat /\ rowv t1 i = con c /\ ((t_red t1 <= i)%nat \/ 0 <= cst t1 i) }.
Lemma to_row_moved int L c t j s : represents int L t -> (c < t_ncon t)%nat -> live_col t (con c) j -> sample_ok None t -> t_undo t = true -> marks_stay int (relaxed L c) t -> s = 1 \/ s = -1 ->
  (exists i, (t_red t <= i < nrow t)%nat /\ s * cf t i j < 0 /\ v_nonneg (t_info t (rowv t i)) = true) ->
  wp (to_row t (con c) s) (moved int L c t).
Proof.
  intros R Hcn (Hc & Ec) D Un Hm Hs (b & Hb & Nb & Pb). pose proof (c_arr _ _ (r_core _ _ _ R)) as A. pose proof (c_flg _ _ (r_core _ _ _ R)) as F. set (w := con c) in *.
  unfold to_row. destruct (a_col _ A j) as (V & _ & Rw); [lia|]. rewrite Ec in V, Rw. rewrite Rw. rewrite (col_of_eq t j w A) by (auto; lia). cbn [bind].
  rewrite (proj2 (Z.eqb_neq s 0)) by lia. assert (Hs1 : Z.abs s = 1) by lia.
  pose proof (pivot_row_ok t None s j Hs1) as P. destruct (pivot_row t None s j) as [r|].
  2: { exfalso. apply (P b). constructor; auto. discriminate. }
  destruct P as (Cr & Mn). pose proof Cr as [Hr _ Nn Sg]. assert (Nzr : cf t r j <> 0) by lia.
  assert (Ds : sample_ok (Some w) (pivot_step t r j)). { apply (ratio_sample int L t r j None s None (Some w)); auto; try discriminate; congruence. }
  pose proof (st_arr int L t r j R Hr Hc Nzr) as A'. pose proof (st_flagged int L t r j R Hr Hc Nzr) as F'. pose proof (st_represents int L t r j R Hr Hc Nzr) as R'.
  set (ps := pivot_step t r j) in *.
  assert (Lr' : live_row ps w r).
  { split; [unfold ps; rewrite (ps_nrow t r j); exact Hr|]. unfold ps. rewrite (ps_rowv t r j) by lia. rewrite Nat.eqb_refl. exact Ec. }
  destruct (live_row_info _ _ _ A' F' Lr') as (V' & Rw' & _ & I').
  pose proof (pivot_ok int L t r j R Hr Hc Nzr) as W. destruct (pivot t r j) as [t1| | |] eqn:Ep; cbn [wp] in *; auto. destruct W as (R1 & E1 & Cl). fold ps in Cl.
  pose proof Cl as (A1 & F1 & S & X).
  assert (Fs : forall p, feas (relaxed L c) ps p <-> feas (relaxed L c) t p).
  { intros p. split; intros (Lp & H); (split; [exact Lp|]); intros x Vx; specialize (H x Vx); unfold ps in *;
      rewrite (st_flag int L t r j R Hr Hc v_red), (st_flag int L t r j R Hr Hc v_zero), (st_flag int L t r j R Hr Hc v_nonneg) in * by reflexivity; exact H. }
  assert (Hc' : (c < t_ncon ps)%nat) by exact Hcn.
  assert (Ms : marks_stay int (relaxed L c) ps).
  { intros p Ad Fe u Vu Nu Rd. apply Fs in Fe. unfold ps in Nu, Rd. rewrite (st_flag int L t r j R Hr Hc v_nonneg) in Nu by reflexivity. rewrite (st_flag int L t r j R Hr Hc v_red) in Rd by reflexivity. apply (Hm p Ad Fe u Vu Nu Rd). }
  constructor; auto.
  - apply (clean_sample _ _ _ A' F' Cl Ds).
  - apply (mk_stay int L c ps t1 (r_core _ _ _ R') Cl Hc' Rw' Ms).
  - intros p Hp. rewrite (mk_feas L c ps t1 (r_core _ _ _ R') Cl Hc' Rw' p Hp). apply Fs.
  - pose proof (stays_pivot t r j t1 Un Ep) as (_ & St).
    assert (I1 : v_idx (t_info t1 w) <> None). { apply St. destruct (a_col _ A j) as (_ & I & _); [lia|]. rewrite Ec in I. congruence. }
    destruct (s_keep _ _ S w) as (_ & _ & Er & _). rewrite Rw' in Er. destruct (v_idx (t_info t1 w)) as [i1|] eqn:Ei1; [|congruence].
    pose proof (proj2 (swept_valid _ _ _ S) V') as V1. destruct (at_row t1 w i1 A1 V1 Ei1 Er) as (Hi1 & Ew1). exists i1. split; [exact Hi1|]. split; [exact Ew1|].
    destruct (Nat.lt_ge_cases i1 (t_red t1)) as [Lt|Ge]; [right|left; exact Ge].
    assert (Rd1 : v_red (t_info t1 w) = true) by (rewrite <- Ew1, (f_rows _ F1 i1 Hi1); apply Nat.ltb_lt; exact Lt).
    destruct (live_row_info _ _ _ A' F' Lr') as (_ & _ & Rd' & _).
    destruct (X w V') as ((_ & P & _) & _); [left; auto|]. destruct (s_rc _ _ S w V' Rw') as (_ & Erc); [congruence|].
    rewrite <- Erc, <- Ew1, (rc_row t1 i1 A1 Hi1) in P. exact P.
Qed.

(** ** isl_tab_relax *)
Lemma sample_bumped int L t w : represents int L t -> sample_ok None t -> v_nonneg (t_info t w) = true -> v_red (t_info t w) = false -> valid t w ->
  exists p, 0 < hd 0 p /\ feas L t p /\ 0 <= value L p w.
Proof.
  intros R D Nn Rd V. destruct (sample_point int L t R D) as (k & p & K & Hh & Fe & _). exists p. split; [lia|]. split; [exact Fe|]. apply (proj2 Fe w V); assumption.
Qed.
Lemma relaxed_feas L c t p : core L t -> (c < t_ncon t)%nat -> v_zero (t_info t (con c)) = false -> 0 < hd 0 p -> feas L t p -> feas (relaxed L c) t p.
Proof.
  intros C Hc Zw Hp (Lp & H). split; [exact Lp|]. intros u V. destruct (H u V) as (H1 & H2). rewrite (core_value L c t C Hc). destruct (Z.eqb_spec u (con c)) as [->|]; [|auto].
  split; [congruence|]. intros N Rd. specialize (H2 N Rd). lia.
Qed.
Definition relax_done (int : bool) (L : list (list Z)) (c : nat) (t t' : tab) : Prop :=
  represents int (relaxed L c) t' /\ sample_ok None t' /\ t_nvar t' = t_nvar t /\ t_ncon t' = t_ncon t /\ t_empty t' = t_empty t /\
  forall p, 0 < hd 0 p -> (feas (relaxed L c) t' p <-> feas (relaxed L c) t p).
Lemma relax_done_push int L c t t' : relax_done int L c t t' -> v_idx (t_info t' (con c)) <> None -> (c < t_ncon t)%nat -> wp (push_var t' U_relax (con c)) (relax_done int L c t).
Proof.
  intros (R & D & Ev & Ec & Ee & H) I Hc. rewrite push_var_eq; [|apply R|unfold valid, con; lia|exact I]. cbn [wp]. destruct (push_w t' (U_relax (con c))) as (l & ->).
  pose proof (represents_empty int _ t' l (t_empty t') R) as R2. assert (E : w_empty (w_log t' l) (t_empty t') = w_log t' l) by reflexivity. rewrite E in R2.
  split; [exact R2|]. split; [exact D|]. split; [exact Ev|]. split; [exact Ec|]. split; [exact Ee|]. exact H.
Qed.
Lemma relax_in_row int L c t t1 fuel : represents int L t -> (c < t_ncon t)%nat -> v_nonneg (t_info t (con c)) = true -> v_red (t_info t (con c)) = false -> v_zero (t_info t (con c)) = false -> sample_ok None t ->
  moved int L c t t1 ->
  wp (do i <- row_of t1 (con c) ;; do (t, s) <- restore_row fuel (relax_row t1 i) (con c) ;; if s <? 0 then Null else Ok t)
     (fun t' => relax_done int L c t t' /\ v_idx (t_info t' (con c)) <> None).
Proof.
  intros R Hc Nn Rd Zw D [R1 E1 D1 M1 F1 (i & Hi & Ei & Hlr)]. set (w := con c) in *.
  assert (V : valid t w) by (unfold valid, w, con; lia).
  assert (Hc1 : (c < t_ncon t1)%nat) by (rewrite (e_ncon _ _ _ E1); exact Hc).
  assert (Z1 : v_zero (t_info t1 w) = false) by (destruct (e_keep _ _ _ E1 w) as (-> & _); exact Zw).
  pose proof (c_arr _ _ (r_core _ _ _ R1)) as A1. pose proof (c_flg _ _ (r_core _ _ _ R1)) as G1.
  rewrite (row_of_eq t1 i w A1 Hi Ei). cbn [bind].
  destruct (relax_row_ok int L c t1 i R1 Hc1 Hi Ei Z1 M1) as (R2 & C2 & O2). set (t2 := relax_row t1 i) in *.
  pose proof (a_den _ A1 i Hi) as Dn.
  assert (D2 : sample_ok (Some w) t2).
  { intros k Hk Nx Nk. destruct (Nat.eq_dec k i) as [->|N]; [exfalso; apply Nx; f_equal; exact Ei|]. change (t_red t1 <= k < nrow t1)%nat in Hk. rewrite O2 by (auto; lia). apply (D1 k Hk Nx Nk). }
  assert (Same : t_nvar t2 = t_nvar t /\ t_ncon t2 = t_ncon t /\ t_empty t2 = t_empty t) by (split; [apply (e_nvar _ _ _ E1)|split; [apply (e_ncon _ _ _ E1)|apply (e_empty _ _ _ E1)]]).
  assert (F2 : forall p, 0 < hd 0 p -> (feas (relaxed L c) t2 p <-> feas (relaxed L c) t p)) by exact F1.
  destruct (le_lt_dec (t_red t1) i) as [Ge|Lt].
  - assert (Lr : live_row t2 w i) by (split; [change (t_red t1 <= i < nrow t1)%nat; lia|exact Ei]).
    apply wp_bind. eapply wp_weak; [apply (restore_row_ok int (relaxed L c) w fuel t2 i R2 Lr D2)|]. intros [t3 s] (R3 & E3 & Rd3 & D3 & I3 & P3).
    destruct (sample_bumped int L t w R D Nn Rd V) as (p & Hp & Fp & Vp).
    assert (Fp3 : feas (relaxed L c) t3 p) by (apply (e_feas _ _ _ E3 p Hp), (F2 p Hp), relaxed_feas; auto; apply R).
    destruct (Z.ltb_spec s 0) as [Neg|Pos].
    { exfalso. specialize (I3 Neg p Hp Fp3). rewrite (core_value L c t (r_core _ _ _ R) Hc) in I3. fold w in I3. rewrite Z.eqb_refl in I3. lia. }
    cbn [wp]. destruct Same as (S1 & S2 & S3). split.
    + split; [exact R3|]. split; [apply P3; exact Pos|]. split; [rewrite (e_nvar _ _ _ E3); exact S1|]. split; [rewrite (e_ncon _ _ _ E3); exact S2|]. split; [rewrite (e_empty _ _ _ E3); exact S3|].
      intros q Hq. rewrite (e_feas _ _ _ E3 q Hq). apply F2. exact Hq.
    + intros I. destruct (f_gone _ (c_flg _ _ (r_core _ _ _ R3)) w) as (_ & Y); [unfold valid, w, con; rewrite (e_ncon _ _ _ E3), S2; lia|exact I|].
      assert (Z3 : v_zero (t_info t3 w) = false) by (destruct (e_keep _ _ _ E3 w) as (-> & _); exact Z1). destruct (v_row (t_info t3 w)); [congruence|]. destruct Y. congruence.
  - destruct Hlr as [Hlr|Hlr]; [lia|]. destruct fuel as [|fuel]; cbn [restore_row bind wp]; [exact I|].
    rewrite (row_of_eq t2 i w (c_arr _ _ (r_core _ _ _ R2)) Hi Ei). cbn [bind]. rewrite C2. rewrite (proj2 (Z.ltb_ge (cst t1 i + den t1 i) 0)) by lia. cbn [bind].
    rewrite (proj2 (Z.ltb_ge (Z.sgn (cst t1 i + den t1 i)) 0)) by lia. cbn [wp]. destruct Same as (S1 & S2 & S3). split.
    + split; [exact R2|]. split; [|auto]. intros k Hk _ Nk. apply (D2 k Hk); [|exact Nk]. intros E. injection E as E. assert (k = i); [|change (t_red t2) with (t_red t1) in Hk; lia].
      apply (rowv_inj t1 k i A1); [apply Hk|exact Hi|]. rewrite Ei. exact E.
    + destruct (a_row _ A1 i Hi) as (_ & I & _). rewrite Ei in I. change (v_idx (t_info t1 w) <> None). congruence.
Qed.
Theorem relax_ok int L c t fuel : represents int L t -> sample_ok None t -> t_undo t = true -> (c < t_ncon t)%nat ->
  v_nonneg (t_info t (con c)) = true -> v_red (t_info t (con c)) = false -> v_zero (t_info t (con c)) = false -> marks_stay int (relaxed L c) t ->
  wp (relax fuel t (con c)) (relax_done int L c t).
Proof.
  intros R D Un Hc Nn Rd Zw Hm. set (w := con c) in *. pose proof (c_arr _ _ (r_core _ _ _ R)) as A. pose proof (c_flg _ _ (r_core _ _ _ R)) as F.
  assert (V : valid t w) by (unfold valid, w, con; lia).
  assert (Hl : (exists i, live_row t w i /\ v_row (t_info t w) = true) \/ exists j, live_col t w j /\ v_row (t_info t w) = false).
  { destruct (v_row (t_info t w)) eqn:Rw; [left; destruct (live_row_at t w A F V Rw Rd) as (i & Lr); eauto|right].
    destruct (v_idx (t_info t w)) as [j|] eqn:I; [|destruct (f_gone _ F w V I) as (_ & X); rewrite Rw in X; destruct X; congruence].
    destruct (at_col t w j A V I Rw) as (Hj & Ej). exists j. split; [|reflexivity]. split; [|exact Ej]. destruct (f_cols _ F j Hj) as (Z0 & _). rewrite Ej, Zw in Z0. symmetry in Z0. apply Nat.ltb_ge in Z0. lia. }
  unfold relax.
  assert (Hmay : may_relax t w = true).
  { unfold may_relax. destruct Hl as [(i & Lr & Rw)|(j & (Hj & Ej) & Rw)]; rewrite Rw.
    - destruct (live_row_info t w i A F Lr) as (_ & _ & _ & ->). rewrite (proj2 (Nat.ltb_ge i (t_red t))) by apply Lr. reflexivity.
    - destruct (a_col _ A j) as (_ & I & _); [lia|]. rewrite Ej in I. rewrite I. rewrite (proj2 (Nat.ltb_ge j (t_dead t))) by lia. reflexivity. }
  rewrite Hmay. cbn [negb].
  assert (Row : forall t1, moved int L c t t1 -> v_row (t_info t1 w) = true -> wp
    (do t0 <- (if v_row (t_info t1 w) then Ok t1 else do b <- min_unb t1 w ;; if b then Ok t1 else to_row t1 w (-1)) ;;
     do t0 <- (if v_row (t_info t0 w) then do i <- row_of t0 w ;; do (t, s) <- restore_row fuel (relax_row t0 i) w ;; if s <? 0 then Null else Ok t else do c <- col_of t0 w ;; Ok (relax_col t0 c)) ;;
     push_var t0 U_relax w) (relax_done int L c t)).
  { intros t1 M Rw1. rewrite Rw1. cbn [bind]. rewrite Rw1. apply wp_bind. eapply wp_weak; [apply (relax_in_row int L c t t1 fuel R Hc Nn Rd Zw D M)|].
    intros t3 (Dn & I). apply relax_done_push; assumption. }
  assert (MvRow : forall t1, moved int L c t t1 -> v_row (t_info t1 w) = true).
  { intros t1 [R1 _ _ _ _ (i & Hi & Ei & _)]. destruct (a_row _ (c_arr _ _ (r_core _ _ _ R1)) i Hi) as (_ & _ & X). rewrite Ei in X. exact X. }
  destruct Hl as [(i & Lr & Rw)|(j & Lc & Rw)]; rewrite Rw.
  - cbn [bind]. apply Row; [|exact Rw]. constructor; auto; [apply evolve_refl|apply sample_weak; exact D|reflexivity|]. exists i. destruct Lr as (Hi & Ei). split; [lia|]. split; [exact Ei|]. left. lia.
  - pose proof Lc as (Hj & Ej). rewrite (max_unb_ok t w j A) by (auto; lia). cbn [bind].
    destruct (existsb (fun i => (cf t i j <? 0) && v_nonneg (t_info t (rowv t i))) (live_rows t)) eqn:B1; cbn [negb].
    + apply wp_bind. eapply wp_weak; [apply (to_row_moved int L c t j 1 R Hc Lc D Un Hm); auto|].
      * apply existsb_exists in B1. destruct B1 as (i & Hi & Bi). apply in_live_rows in Hi. apply andb_prop in Bi. destruct Bi as (B1 & B2). apply Z.ltb_lt in B1. exists i. split; [lia|]. split; [lia|exact B2].
      * intros t1 M. apply Row; [exact M|apply MvRow; exact M].
    + cbn [bind]. rewrite Rw. rewrite (min_unb_ok t w j A) by (auto; lia). cbn [bind].
      destruct (existsb (fun i => (0 <? cf t i j) && v_nonneg (t_info t (rowv t i))) (live_rows t)) eqn:B2; cbn [negb].
      * apply wp_bind. eapply wp_weak; [apply (to_row_moved int L c t j (-1) R Hc Lc D Un Hm); auto|].
        -- apply existsb_exists in B2. destruct B2 as (i & Hi & Bi). apply in_live_rows in Hi. apply andb_prop in Bi. destruct Bi as (B2 & B3). apply Z.ltb_lt in B2. exists i. split; [lia|]. split; [lia|exact B3].
        -- intros t1 M. specialize (Row t1 M (MvRow t1 M)). rewrite (MvRow t1 M) in Row. cbn [bind] in Row. exact Row.
      * cbn [bind]. rewrite Rw. rewrite (col_of_eq t j w A) by (auto; lia). cbn [bind].
        destruct (relax_col_ok int L c t j R Hc (proj2 Hj) Ej Zw Hm) as (R2 & C2). apply relax_done_push; [|destruct (a_col _ A j (proj2 Hj)) as (_ & I & _); rewrite Ej in I; change (v_idx (t_info t w) <> None); congruence|exact Hc].
        split; [exact R2|]. split; [|split; [reflexivity|split; [reflexivity|split; [reflexivity|reflexivity]]]].
        intros k Hk _ Nk. change (t_red t <= k < nrow t)%nat in Hk. rewrite C2 by lia. assert (0 <= cst t k) by (apply D; auto; discriminate).
        destruct (Z_lt_le_dec 0 (cf t k j)) as [P|P]; [exfalso|lia]. assert (X : existsb (fun i => (0 <? cf t i j) && v_nonneg (t_info t (rowv t i))) (live_rows t) = true); [|congruence].
        apply existsb_exists. exists k. split; [apply in_live_rows; lia|]. rewrite (proj2 (Z.ltb_lt _ _) P). exact Nk.
Qed.

(** constraints that are refused *)
Lemma relax_refused int L t fuel c : represents int L t -> (c < t_ncon t)%nat ->
  v_red (t_info t (con c)) = true \/ (v_zero (t_info t (con c)) = true /\ v_row (t_info t (con c)) = false) ->
  relax fuel t (con c) = Null.
Proof.
  intros R Hc H. destruct (r_core _ _ _ R) as [A F _ _ _ _]. assert (V : valid t (con c)) by (unfold valid, con; lia).
  assert (M : may_relax t (con c) = false); [|unfold relax; rewrite M; reflexivity].
  unfold may_relax. destruct (v_idx (t_info t (con c))) as [i|] eqn:I; [|reflexivity]. apply negb_false_iff.
  pose proof (a_inv _ A _ _ V I) as X. destruct (v_row (t_info t (con c))) eqn:Rw; destruct X as (Hi & E).
  - destruct H as [H|(_ & H)]; [|discriminate H]. rewrite <- (f_rows _ F i Hi), E. exact H.
  - destruct (f_cols _ F i Hi) as (Z1 & Z2). rewrite E in Z1, Z2. destruct H as [H|(H & _)]; [congruence|]. rewrite <- Z1. exact H.
Qed.
