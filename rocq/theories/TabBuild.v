(** Adding rows, equalities and inequalities to a tableau. *)
From Coq Require Import ZArith List Bool Arith Lia.
From Verif Require Import SeqModel SeqSpec SeqProofs MatModel BMapModel BMapLists BMapGauss2 BElimSpec BElimFM TabModel TabSpec TabBase TabStruct TabMark TabPivot TabStep TabSign TabKill TabAdd TabClose TabCut TabDetect.
Import ListNotations.
Open Scope Z_scope.

(** ** the contents of a new row *)
Definition gone0 (L : list (list Z)) (t : tab) (p : list Z) : Prop := forall v, valid t v -> gone t v -> value L p v = 0.
Record rowfor (L : list (list Z)) (t : tab) (r : list Z) (f : list Z -> Z) : Prop := {
  rf_len : length r = (2 + ncol t)%nat;
  rf_den : 0 < nth 0 r 0;
  rf_eq : forall p, length p = (1 + t_nvar t)%nat -> gone0 L t p -> nth 0 r 0 * f p = dot (tl r) (vec L t p) }.
Lemma rowfor_ext L t r f f' : rowfor L t r f -> (forall p, length p = (1 + t_nvar t)%nat -> f' p = f p) -> rowfor L t r f'.
Proof. intros [H1 H2 H3] E. constructor; auto. intros p Lp G. rewrite E by exact Lp. auto. Qed.
Lemma value_var L p i : value L p (Z.of_nat i) = nth (1 + i) p 0.
Proof. unfold value. rewrite (proj2 (Z.ltb_ge _ _)) by lia. rewrite Nat2Z.id. reflexivity. Qed.
Lemma vec_length L t p : length (vec L t p) = (1 + ncol t)%nat.
Proof. unfold vec. cbn [length]. rewrite map_length. reflexivity. Qed.
Lemma nth_tl (r : list Z) i : nth i (tl r) 0 = nth (S i) r 0.
Proof. destruct r; [destruct i|]; reflexivity. Qed.
Lemma add_term_ok L t i k r f : core L t -> (i < t_nvar t)%nat -> rowfor L t r f ->
  wp (add_term t i k r) (fun r' => rowfor L t r' (fun p => f p + k * nth (1 + i) p 0)).
Proof.
  intros C Hi [Hl Hd He]. pose proof (c_arr _ _ C) as A. pose proof (c_flg _ _ C) as F.
  set (v := Z.of_nat i). assert (V : valid t v) by (unfold valid, v; lia). unfold add_term. fold v.
  destruct (f_var _ F v V ltac:(unfold v; lia)) as (-> & _).
  destruct (v_idx (t_info t v)) as [j|] eqn:Ix; [|destruct (f_gone _ F v V Ix); unfold v in *; lia].
  destruct (v_row (t_info t v)) eqn:Rw.
  - destruct (at_row _ _ _ A V Ix Rw) as (Hj & Ej). rewrite (row_of_eq t j v A Hj Ej). cbn [bind wp].
    pose proof (a_den _ A j Hj) as Dj. pose proof (a_wid _ A j Hj) as Wj. set (d := nth 0 r 0) in *. set (e := den t j) in *. set (m := Z.lcm d e).
    assert (Hm : 0 < m). { unfold m. pose proof (Z.lcm_nonneg d e). assert (Z.lcm d e <> 0); [|lia]. intros E. apply Z.lcm_eq_0 in E. lia. }
    destruct (Z.divide_lcm_l d e) as (a & Ea). fold m in Ea. destruct (Z.divide_lcm_r d e) as (b & Eb). fold m in Eb.
    assert (Xa : divexact m d = a) by (unfold divexact; rewrite Ea; apply Z.div_mul; lia). assert (Xb : divexact m e = b) by (unfold divexact; rewrite Eb; apply Z.div_mul; lia).
    rewrite Xa, Xb.
    assert (Lt : length (tl r) = length (tl (nth j (t_rows t) []))).
    { destruct r as [|r0 r]; cbn in Hl; [lia|]. destruct (nth j (t_rows t) []) as [|s0 s]; cbn in Wj; [lia|]. cbn [tl]. lia. }
    rewrite (seq_combine_eq true a (tl r) (b * k) (tl (nth j (t_rows t) []))) by exact Lt.
    constructor; cbn [nth tl length].
    + rewrite map2_length by exact Lt. destruct r; cbn in Hl |- *; lia.
    + exact Hm.
    + intros p Lp G. rewrite dot_map2 by exact Lt. rewrite <- (He p Lp G). pose proof (c_rel _ _ C p Lp G j Hj) as H. unfold row_holds in H. fold e in H. fold (vec L t p) in H. rewrite <- H.
      rewrite Ej. unfold v. rewrite value_var. replace (m * (f p + k * nth (1 + i) p 0)) with (m * f p + m * (k * nth (1 + i) p 0)) by ring. rewrite Ea at 1. rewrite Eb. ring.
  - destruct (at_col _ _ _ A V Ix Rw) as (Hj & Ej). rewrite (col_of_eq t j v A Hj Ej). cbn [bind wp].
    assert (Et : forall y, tl (zupd r (2 + j) y) = zupd (tl r) (1 + j) y) by (intros y; destruct r; reflexivity).
    constructor.
    + rewrite zupd_length. exact Hl.
    + rewrite nth_zupd. cbn [Nat.eqb plus andb]. exact Hd.
    + intros p Lp G. rewrite Et, nth_zupd. cbn [Nat.eqb plus andb]. rewrite dot_zupd by (destruct r; cbn in Hl |- *; lia).
      rewrite <- (He p Lp G), nth_tl. unfold vec. cbn [nth plus]. rewrite nth_vals by exact Hj. rewrite Ej. unfold v. rewrite value_var. cbn [plus]. ring.
Qed.

Lemma skipn_nth (p : list Z) i : (i < length p)%nat -> skipn i p = nth i p 0 :: skipn (S i) p.
Proof. revert i. induction p as [|x p IH]; intros [|i] H; cbn in H; try lia; [reflexivity|]. cbn [skipn nth]. rewrite IH by lia. destruct p; reflexivity. Qed.
Lemma add_terms_ok L t : core L t -> forall ks i r f, (i + length ks <= t_nvar t)%nat -> rowfor L t r f ->
  wp (add_terms t i ks r) (fun r' => rowfor L t r' (fun p => f p + dot ks (skipn (1 + i) p))).
Proof.
  intros C. induction ks as [|k ks IH]; intros i r f Hi Rf; cbn [add_terms]; cbn [length] in Hi.
  - cbn [wp]. apply (rowfor_ext _ _ _ _ _ Rf). intros p _. cbn [dot]. ring.
  - apply wp_bind. eapply wp_weak; [apply (add_term_ok L t i k r f C); [lia|exact Rf]|]. intros r1 R1.
    eapply wp_weak; [apply (IH (S i) r1 _ ltac:(lia) R1)|]. intros r2 R2. apply (rowfor_ext _ _ _ _ _ R2). intros p Lp.
    rewrite (skipn_nth p (1 + i)) by lia. cbn [dot plus]. ring.
Qed.
Lemma norm_rowfor L t r f : rowfor L t r f -> rowfor L t (seq_normalize r) f.
Proof.
  intros [H1 H2 H3]. destruct (norm_ok r ltac:(lia)) as (g & G & Hl & Hn). constructor.
  - rewrite Hl. exact H1.
  - specialize (Hn O). nia.
  - intros p Lp Gp. specialize (H3 p Lp Gp). assert (E : dot (tl r) (vec L t p) = g * dot (tl (seq_normalize r)) (vec L t p)).
    { apply dot_prop; [|intros i; rewrite !nth_tl; apply Hn]. destruct r as [|x r]; [reflexivity|]. destruct (seq_normalize (x :: r)); cbn in Hl |- *; lia. }
    rewrite E, (Hn O) in H3. nia.
Qed.
Lemma add_row_ok L t line : core L t -> length line = (1 + t_nvar t)%nat ->
  exists r, add_row t line = Ok (push (with_row t r) (U_allocate (con (t_ncon t)))) /\ rowfor L t r (dot line).
Proof.
  intros C Ll. pose proof (c_arr _ _ C) as A. unfold add_row.
  assert (R0 : rowfor L t (1 :: hd 0 line :: seq_clr (ncol t)) (fun p => hd 0 line * hd 0 p)).
  { constructor; [cbn [length]; unfold seq_clr; rewrite repeat_length; lia|cbn; lia|]. intros p Lp G. cbn [nth tl]. unfold vec. cbn [dot]. unfold seq_clr. rewrite dot_repeat0. ring. }
  assert (Lf : firstn (t_nvar t) (tl line) = tl line) by (apply firstn_all2; destruct line; cbn in Ll |- *; lia). rewrite Lf.
  pose proof (add_terms_ok L t C (tl line) 0 _ _ ltac:(destruct line; cbn in Ll |- *; lia) R0) as H.
  assert (ND : forall ks i r, add_terms t i ks r <> Div).
  { clear. induction ks as [|k ks IH]; intros i r; cbn [add_terms]; [discriminate|]. unfold add_term. destruct (v_zero (t_info t (Z.of_nat i))); [apply IH|].
    unfold row_of, col_of. destruct (v_row (t_info t (Z.of_nat i))); (destruct (v_idx (t_info t (Z.of_nat i))); [|discriminate]); [destruct (Nat.ltb n (nrow t))|destruct (Nat.ltb n (ncol t))]; cbn [bind]; try discriminate; apply IH. }
  specialize (ND (tl line) 0%nat (1 :: hd 0 line :: seq_clr (ncol t))).
  destruct (add_terms t 0 (tl line) _) as [r| | |]; cbn [wp] in H; try contradiction; try congruence.
  exists (seq_normalize r). split; [reflexivity|]. apply norm_rowfor. apply (rowfor_ext _ _ _ _ _ H). intros p Lp. rewrite dot_split. destruct p; reflexivity.
Qed.

(** ** changes to fields that do not matter *)
Record twin (t t' : tab) : Prop := {
  tw_rows : t_rows t' = t_rows t; tw_rv : t_rv t' = t_rv t; tw_cv : t_cv t' = t_cv t; tw_dead : t_dead t' = t_dead t; tw_red : t_red t' = t_red t;
  tw_info : t_info t' = t_info t; tw_nvar : t_nvar t' = t_nvar t; tw_ncon : t_ncon t' = t_ncon t }.
Section Twin.
Variables t t' : tab.
Hypothesis T : twin t t'.
Lemma tw_valid v : valid t' v <-> valid t v.
Proof. destruct T as [E1 E2 E3 E4 E5 E6 E7 E8]. destruct t, t'. cbn in *. subst. reflexivity. Qed.
Lemma tw_feas L p : feas L t' p <-> feas L t p.
Proof. destruct T as [E1 E2 E3 E4 E5 E6 E7 E8]. destruct t, t'. cbn in *. subst. reflexivity. Qed.
Lemma tw_core L : core L t -> core L t'.
Proof.
  destruct T as [E1 E2 E3 E4 E5 E6 E7 E8]. destruct t, t'. cbn in *. subst. intros [[A1 A2 A3 A4 A5 A6] [F1 F2 F3 F4 F5 F6] C1 C2 C3 C4].
  constructor; auto; constructor; auto.
Qed.
Lemma tw_represents int L : represents int L t -> represents int L t'.
Proof. intros R. pose proof (tw_core L (r_core _ _ _ R)) as C. destruct T as [E1 E2 E3 E4 E5 E6 E7 E8]. destruct t, t'. cbn in *. subst. destruct R as [_ R1 R2]. constructor; auto. Qed.
Lemma tw_sample ex : sample_ok ex t -> sample_ok ex t'.
Proof. destruct T as [E1 E2 E3 E4 E5 E6 E7 E8]. destruct t, t'. cbn in *. subst. auto. Qed.
Lemma tw_live v i : live_row t v i -> live_row t' v i.
Proof. destruct T as [E1 E2 E3 E4 E5 E6 E7 E8]. destruct t, t'. cbn in *. subst. auto. Qed.
Lemma tw_marks : marks_ok t -> marks_ok t'.
Proof. destruct T as [E1 E2 E3 E4 E5 E6 E7 E8]. destruct t, t'. cbn in *. subst. auto. Qed.
End Twin.
Lemma twin_push t u : twin t (push t u).
Proof. destruct (push_w t u) as (l & ->). constructor; reflexivity. Qed.
Lemma twin_refl t : twin t t. Proof. constructor; reflexivity. Qed.

(** ** adding an equality *)
(** like [wp], but an error return is allowed under the condition [N] *)
Definition wpn {A} (N : Prop) (r : res A) (Q : A -> Prop) : Prop :=
  match r with Ok a => Q a | Null => N | UB => False | Div => True end.
Lemma wpn_bind {A B} N (r : res A) (f : A -> res B) Q : wp r (fun a => wpn N (f a) Q) -> wpn N (bind r f) Q.
Proof. destruct r; cbn; tauto. Qed.
Lemma wp_wpn {A} N (r : res A) Q : wp r Q -> wpn N r Q.
Proof. destruct r; cbn; tauto. Qed.
(** there are no non-negativity constraints, except on variables that were
    found to be non-negative constants *)
Definition quiet (t : tab) : Prop := forall u, valid t u -> v_marked (t_info t u) = false /\ (v_red (t_info t u) = false -> v_nonneg (t_info t u) = false).
Record added (L : list (list Z)) (l : list Z) (t t' : tab) : Prop := {
  ad_rep : represents false (L ++ [l]) t';
  ad_nvar : t_nvar t' = t_nvar t; ad_ncon : t_ncon t' = S (t_ncon t); ad_rat : t_rat t' = t_rat t; ad_undo : t_undo t' = t_undo t; ad_cone : t_cone t' = t_cone t }.
Lemma quiet_sample L t : core L t -> quiet t -> sample_ok None t.
Proof.
  intros C Q i Hi _ N. pose proof (c_arr _ _ C) as A. destruct (a_row _ A i (proj2 Hi)) as (V & _). destruct (Q _ V) as (_ & X).
  rewrite X in N; [discriminate|]. rewrite (f_rows _ (c_flg _ _ C) i (proj2 Hi)). apply Nat.ltb_ge. apply Hi.
Qed.
(** the equality is a combination of those in [L] and a constant *)
Definition dependent (n : nat) (L : list (list Z)) (l : list Z) : Prop :=
  forall p, length p = (1 + n)%nat -> hd 0 p = 0 -> (forall m, List.In m L -> dot m p = 0) -> dot l p = 0.
Lemma con_value L t p v : core L t -> (forall m, List.In m L -> dot m p = 0) -> valid t v -> v < 0 -> value L p v = 0.
Proof.
  intros C H V Ng. unfold value. rewrite (proj2 (Z.ltb_lt _ _) Ng). apply H. apply nth_In. rewrite (c_len _ _ C). unfold valid in V. lia.
Qed.

(** a tableau with a new row *)
Record new_row (int : bool) (L : list (list Z)) (l : list Z) (t t1 : tab) : Prop := {
  nr_rep : represents int (L ++ [l]) t1;
  nr_live : live_row t1 (con (t_ncon t)) (nrow t);
  nr_feas : forall p, feas (L ++ [l]) t1 p <-> feas L t p;
  nr_old : forall u, valid t u -> t_info t1 u = t_info t u;
  nr_new : t_info t1 (con (t_ncon t)) = new_var (nrow t);
  nr_sample : forall ex, sample_ok ex t -> sample_ok ex t1;
  nr_nvar : t_nvar t1 = t_nvar t; nr_ncon : t_ncon t1 = S (t_ncon t); nr_rat : t_rat t1 = t_rat t; nr_undo : t_undo t1 = t_undo t; nr_cone : t_cone t1 = t_cone t;
  nr_neq : t_neq t1 = t_neq t; nr_empty : t_empty t1 = t_empty t }.
Lemma add_row_new int L t l : represents int L t -> length l = (1 + t_nvar t)%nat -> exists t1, add_row t l = Ok t1 /\ new_row int L l t t1.
Proof.
  intros R Ll. pose proof (r_core _ _ _ R) as C. destruct (add_row_ok L t l C Ll) as (r & -> & [Lr Dr Hr]). eexists. split; [reflexivity|].
  pose proof (twin_push (with_row t r) (U_allocate (con (t_ncon t)))) as Tw.
  constructor; try (rewrite (tw_info _ _ Tw)); try (unfold push; destruct (t_undo (with_row t r)) eqn:X; (reflexivity || exact X)).
  - apply (tw_represents _ _ Tw). apply (wr_represents int L t l r C Ll Lr Dr Hr R).
  - apply (tw_live _ _ Tw). apply (wr_live L t l r C Ll Lr). reflexivity.
  - intros p. rewrite (tw_feas _ _ Tw). apply (wr_feas L t l r C Ll Lr).
  - intros u Vu. rewrite ?(tw_info _ _ Tw). apply (wr_old t l r Ll Lr u Vu).
  - cbn [t_info with_row w_ncon w_rows w_rv upd w_info]. rewrite Z.eqb_refl. reflexivity.
  - intros ex D. apply (tw_sample _ _ Tw). apply (wr_sample L t l r C Ll Lr ex D).
Qed.
Lemma nr_valid int L l t t1 u : new_row int L l t t1 -> (valid t1 u <-> valid t u \/ u = con (t_ncon t)).
Proof. intros N. unfold valid, con. rewrite (nr_nvar _ _ _ _ _ N), (nr_ncon _ _ _ _ _ N). lia. Qed.
Lemma nr_con int L l t t1 : new_row int L l t t1 -> con (t_ncon t1 - 1) = con (t_ncon t).
Proof. intros N. f_equal. rewrite (nr_ncon _ _ _ _ _ N). lia. Qed.
Lemma add_eq0_ok L t e : represents false L t -> quiet t -> length e = (1 + t_nvar t)%nat ->
  wpn (dependent (t_nvar t) L e) (add_eq0 t e) (fun t' => added L e t t' /\ quiet t' /\ t_neq t' = S (t_neq t) /\ t_empty t' = t_empty t /\
    forall p, 0 < hd 0 p -> (feas (L ++ [e]) t' p <-> feas L t p /\ dot e p = 0)).
Proof.
  intros R Q Le. pose proof (r_core _ _ _ R) as C. pose proof (c_arr _ _ C) as A. pose proof (c_flg _ _ C) as F.
  unfold add_eq0. destruct (add_row_new false L t e R Le) as (t1 & -> & Nr). cbn [bind]. rewrite (nr_con _ _ _ _ _ Nr).
  set (w := con (t_ncon t)). pose proof (nr_rep _ _ _ _ _ Nr) as R1. pose proof (nr_nvar _ _ _ _ _ Nr) as Nv1. pose proof (nr_ncon _ _ _ _ _ Nr) as Nc1.
  pose proof (r_core _ _ _ R1) as C1. pose proof (c_arr _ _ C1) as A1. pose proof (nr_feas _ _ _ _ _ Nr) as Fe1.
  pose proof (nr_live _ _ _ _ _ Nr) as Lv. fold w in Lv.
  rewrite (live_row_of _ _ _ A1 Lv). cbn [bind]. destruct Lv as (Hi & Ei).
  assert (Vw : valid t1 w) by (unfold valid, w, con; rewrite Nc1; lia).
  assert (Vl : forall p, value (L ++ [e]) p w = dot e p) by (intros p; apply value_new; apply (c_len _ _ C)).
  destruct (first_live t1 (nrow t)) as [c|] eqn:Fl.
  2:{ cbn [wpn]. intros p Lp Hp HL. pose proof (row_const (L ++ [e]) t1 (nrow t) p C1 (proj2 Hi) (first_live_none _ _ Fl)) as X. rewrite Nv1 in X. specialize (X Lp).
      rewrite Ei, Vl, Hp in X. pose proof (a_den _ A1 _ (proj2 Hi)). cut (den t1 (nrow t) * dot e p = 0); [nia|]. rewrite X; [ring|].
      intros v V Z0 _. assert (Ng : v < 0). { destruct (Z.lt_ge_cases v 0) as [|P]; [assumption|]. destruct (f_var _ (c_flg _ _ C1) v V P). congruence. }
      destruct (Z.eq_dec v w) as [->|N].
      { unfold w in Z0. rewrite (nr_new _ _ _ _ _ Nr) in Z0. discriminate. }
      assert (V0 : valid t v) by (unfold valid in *; unfold w, con in N; lia). rewrite value_app by (rewrite (c_len _ _ C); unfold valid in V0; lia). apply (con_value L t p v C HL V0 Ng). }
  apply find_some in Fl. destruct Fl as (Ic & Nz). apply negb_true_iff, Z.eqb_neq in Nz. apply in_live_cols in Ic. pose proof (f_dead _ (c_flg _ _ C1)) as Fd.
  assert (Hc : (t_dead t1 <= c < ncol t1)%nat) by lia.
  apply wpn_bind. eapply wp_weak; [apply (pivot_ok false (L ++ [e]) t1 (nrow t) c R1 Hi Hc Nz)|]. intros t2 (R2 & E2 & Cl).
  pose proof (r_core _ _ _ R2) as C2.
  assert (V2 : forall u, valid t2 u <-> valid t1 u) by (intros u; apply (evolve_valid _ _ _ _ E2)).
  assert (Ec : colv t2 c = w).
  { destruct Cl as (_ & _ & S & _). unfold colv. rewrite (s_cv _ _ S). cbn [pivot_step t_cv upd w_info w_cv w_rv w_rows]. rewrite nth_lset by (apply Hc). rewrite Nat.eqb_refl. exact Ei. }
  assert (Hc2 : (t_dead t2 <= c < ncol t2)%nat) by (rewrite (e_dead _ _ _ E2), (e_ncol _ _ _ E2); exact Hc).
  apply wpn_bind. eapply wp_weak; [apply (kill_ok (L ++ [e]) t2 c C2 Hc2); rewrite Ec; unfold w, con; lia|]. intros [t3 b] (C3 & K & _ & Zw & _). rewrite Ec in Zw.
  assert (V3 : forall u, valid t3 u <-> valid t2 u) by (intros u; apply (killed_valid _ _ _ _ K)).
  assert (Fe : forall p, feas (L ++ [e]) t3 p <-> feas (L ++ [e]) t2 p /\ dot e p = 0).
  { intros p. split.
    - intros (Lp & H). rewrite (kl_nvar _ _ _ K) in Lp. split; [split; [exact Lp|]|].
      + intros u Vu. destruct (H u (proj2 (V3 u) Vu)) as (H1 & H2). destruct (kl_flag _ _ _ K u) as (E3 & E4 & _). rewrite E3, E4 in H2. split; [|exact H2]. intros Zu. apply H1. apply (kl_zero _ _ _ K). exact Zu.
      + rewrite <- Vl. apply (H w); [apply V3, V2; exact Vw|exact Zw].
    - intros ((Lp & H) & Ze). split; [rewrite (kl_nvar _ _ _ K); exact Lp|]. intros u Vu. apply V3 in Vu. destruct (H u Vu) as (H1 & H2). destruct (kl_flag _ _ _ K u) as (E3 & E4 & _). rewrite E3, E4. split; [|exact H2].
      intros Zu. destruct (kl_new _ _ _ K u Zu) as [Z2|(c' & Hc' & Eu & ->)]; [apply H1; exact Z2|]. rewrite <- Eu, Ec, Vl. exact Ze. }
  cbn [wpn]. set (t4 := w_neq t3 (S (t_neq t3))). assert (T4 : twin t3 t4) by (constructor; reflexivity).
  assert (R3 : represents false (L ++ [e]) t3).
  { constructor; [exact C3| |].
    - intros p Lp H u Vu Zu. destruct (kl_new _ _ _ K u Zu) as [Z2|(c' & Hc' & Eu & ->)].
      + apply (r_zero _ _ _ R2 p); [rewrite <- (kl_nvar _ _ _ K); exact Lp| |apply V3; exact Vu|exact Z2]. intros x Vx Zx Rx. apply H; [apply V3; exact Vx|apply (kl_zero _ _ _ K); exact Zx|].
        destruct (kl_flag _ _ _ K x) as (_ & _ & _ & -> & _). exact Rx.
      + apply H; [exact Vu|exact Zu|]. destruct (kl_flag _ _ _ K u) as (_ & _ & _ & -> & _). rewrite <- Eu. apply (a_col _ (c_arr _ _ C2) c (proj2 Hc2)).
    - intros p Ad Fp u Vu Nu. apply (r_imp _ _ _ R2 p Ad); [apply Fe; exact Fp|apply V3; exact Vu|]. destruct (kl_flag _ _ _ K u) as (_ & <- & _). exact Nu. }
  split; [|split; [|split; [|split]]].
  - constructor; [apply (tw_represents _ _ T4); exact R3| | | | |].
    + change (t_nvar t4) with (t_nvar t3). rewrite (kl_nvar _ _ _ K), (e_nvar _ _ _ E2). exact Nv1.
    + change (t_ncon t4) with (t_ncon t3). rewrite (kl_ncon _ _ _ K), (e_ncon _ _ _ E2). exact Nc1.
    + change (t_rat t4) with (t_rat t3). rewrite (kl_rat _ _ _ K), (e_rat _ _ _ E2). apply Nr.
    + change (t_undo t4) with (t_undo t3). rewrite (kl_undo _ _ _ K), (e_undo _ _ _ E2). apply Nr.
    + change (t_cone t4) with (t_cone t3). rewrite (kl_cone _ _ _ K), (e_cone _ _ _ E2). apply Nr.
  - intros u Vu. apply (tw_valid _ _ T4) in Vu. apply V3, V2 in Vu. change (t_info t4 u) with (t_info t3 u). destruct (kl_flag _ _ _ K u) as (-> & -> & _ & _ & -> & _).
    destruct (e_keep _ _ _ E2 u) as (_ & _ & -> & _). destruct (e_grow _ _ _ E2 u) as (G1 & _ & G3).
    assert (Q1 : v_marked (t_info t1 u) = false /\ (v_red (t_info t1 u) = false -> v_nonneg (t_info t1 u) = false)).
    { destruct (Z.eq_dec u w) as [->|N]; [unfold w; rewrite (nr_new _ _ _ _ _ Nr); auto|].
      assert (V0 : valid t u) by (unfold valid in *; unfold w, con in N; lia). rewrite (nr_old _ _ _ _ _ Nr u V0). apply (Q u V0). }
    destruct Q1 as (Q1 & Q2). split; [exact Q1|]. intros Rd. rewrite (G3 Rd). apply Q2. destruct (v_red (t_info t1 u)); [rewrite G1 in Rd by reflexivity; discriminate|reflexivity].
  - cbn [t4 w_neq t_neq]. rewrite (kl_neq _ _ _ K), (e_neq _ _ _ E2), (nr_neq _ _ _ _ _ Nr). reflexivity.
  - change (t_empty t4) with (t_empty t3). rewrite (kl_empty _ _ _ K), (e_empty _ _ _ E2). apply Nr.
  - intros p Hp. rewrite (tw_feas _ _ T4), Fe, (e_feas _ _ _ E2 p Hp), Fe1. reflexivity.
Qed.

(** ** adding an inequality *)
Lemma red_sample L t v : core L t -> v_red (t_info t v) = true -> sample_ok (Some v) t -> sample_ok None t.
Proof.
  intros C Rd D i Hi _ Nn. apply D; [exact Hi| |exact Nn]. intros [= E]. pose proof (f_rows _ (c_flg _ _ C) i (proj2 Hi)) as X. rewrite E, Rd in X. symmetry in X. apply Nat.ltb_lt in X. lia.
Qed.
Record grown (int : bool) (L : list (list Z)) (l : list Z) (t t' : tab) : Prop := {
  gr_rep : represents int (L ++ [l]) t';
  gr_nvar : t_nvar t' = t_nvar t; gr_ncon : t_ncon t' = S (t_ncon t); gr_rat : t_rat t' = t_rat t; gr_undo : t_undo t' = t_undo t; gr_cone : t_cone t' = t_cone t; gr_neq : t_neq t' = t_neq t;
  gr_new : v_nonneg (t_info t' (con (t_ncon t))) = true;
  gr_zero : forall u, valid t u -> v_zero (t_info t u) = true -> v_zero (t_info t' u) = true;
  gr_nonneg : forall u, valid t u -> v_nonneg (t_info t u) = true -> v_nonneg (t_info t' u) = true;
  gr_marked : forall u, valid t' u -> v_marked (t_info t' u) = true -> valid t u /\ v_marked (t_info t u) = true;
  gr_feas : forall p, adm int p -> (feas (L ++ [l]) t' p <-> feas L t p /\ 0 <= dot l p);
  gr_sample : t_empty t' = false -> sample_ok None t';
  gr_empty : t_empty t' = true -> t_empty t = true \/ forall p, adm int p -> ~ feas (L ++ [l]) t' p }.
Lemma cone_line_length t l : length (cone_line t l) = length l.
Proof. unfold cone_line. destruct (t_cone t); [apply zupd_length|reflexivity]. Qed.
Theorem add_ineq_ok int L t fuel ineq : represents int L t -> sample_ok None t -> length ineq = (1 + t_nvar t)%nat ->
  wp (add_ineq fuel t ineq) (grown int L (cone_line t ineq) t).
Proof.
  intros R D Ll. pose proof (r_core _ _ _ R) as C. set (l := cone_line t ineq). assert (Ll' : length l = (1 + t_nvar t)%nat) by (unfold l; rewrite cone_line_length; exact Ll).
  unfold add_ineq. fold l. destruct (add_row_new int L t l R Ll') as (t1 & -> & Nr). cbn [bind]. rewrite (nr_con _ _ _ _ _ Nr). set (w := con (t_ncon t)).
  pose proof (nr_rep _ _ _ _ _ Nr) as R1. pose proof (r_core _ _ _ R1) as C1. pose proof (c_arr _ _ C1) as A1. pose proof (nr_live _ _ _ _ _ Nr) as Lv1. fold w in Lv1.
  pose proof (nr_new _ _ _ _ _ Nr) as Iw. fold w in Iw.
  assert (Vw : valid t1 w) by (apply (nr_valid _ _ _ _ _ _ Nr); right; reflexivity).
  assert (Rd1 : v_red (t_info t1 w) = false) by (rewrite Iw; reflexivity). assert (Ng : w < 0) by (unfold w, con; lia).
  assert (Vl : forall p, value (L ++ [l]) p w = dot l p) by (intros p; apply value_new; apply (c_len _ _ C)).
  set (t2 := upd t1 w (vs_nonneg true)). pose proof (sn_represents int (L ++ [l]) t1 w R1 Vw Ng Rd1) as R2. fold t2 in R2.
  pose proof (c_arr _ _ (r_core _ _ _ R2)) as A2. assert (I2 : forall u, t_info t2 u = if u =? w then vs_nonneg true (t_info t1 u) else t_info t1 u) by (intros u; apply sn_info).
  rewrite (push_var_eq t2 U_nonneg w A2); [cbn [bind]|exact Vw|rewrite I2, Z.eqb_refl, Iw; discriminate].
  pose proof (twin_push t2 (U_nonneg w)) as Tw. set (t3 := push t2 (U_nonneg w)) in *. pose proof (tw_represents _ _ Tw _ _ R2) as R3. pose proof (r_core _ _ _ R3) as C3. pose proof (c_arr _ _ C3) as A3.
  assert (Lv3 : live_row t3 w (nrow t)) by (apply (tw_live _ _ Tw); exact Lv1). rewrite (live_row_of _ _ _ A3 Lv3). cbn [bind].
  assert (D3 : sample_ok (Some w) t3) by (apply (tw_sample _ _ Tw); apply sn_sample_ex; apply (nr_sample _ _ _ _ _ Nr); exact D).
  assert (Fe3 : forall p, feas (L ++ [l]) t3 p <-> feas L t p /\ 0 <= dot l p).
  { intros p. rewrite (tw_feas _ _ Tw). unfold t2. rewrite (sn_feas (L ++ [l]) t1 w Vw Rd1 p), (nr_feas _ _ _ _ _ Nr), Vl. reflexivity. }
  assert (Nn3 : v_nonneg (t_info t3 w) = true) by (rewrite (tw_info _ _ Tw), I2, Z.eqb_refl; reflexivity).
  assert (Emp3 : t_empty t3 = t_empty t) by (etransitivity; [|apply (nr_empty _ _ _ _ _ Nr)]; unfold t3, push; destruct (t_undo t2); reflexivity).
  assert (Neq3 : t_neq t3 = t_neq t) by (etransitivity; [|apply (nr_neq _ _ _ _ _ Nr)]; unfold t3, push; destruct (t_undo t2); reflexivity).
  assert (Fin : forall t4, represents int (L ++ [l]) t4 -> step int (L ++ [l]) t3 t4 -> t_neq t4 = t_neq t3 -> (t_empty t4 = false -> sample_ok None t4) -> grown int L l t t4).
  { intros t4 R4 S4 E4 D4.
    assert (Vt : forall u, valid t u -> valid t3 u /\ u <> w).
    { intros u Vu. split; [apply (tw_valid _ _ Tw); apply (nr_valid _ _ _ _ _ _ Nr); left; exact Vu|]. intros ->. unfold valid, w, con in Vu. lia. }
    assert (I3 : forall u, valid t u -> t_info t3 u = t_info t u).
    { intros u Vu. destruct (Vt u Vu) as (_ & Nu). rewrite (tw_info _ _ Tw), I2, (proj2 (Z.eqb_neq u w) Nu). apply (nr_old _ _ _ _ _ Nr u Vu). }
    constructor.
    - exact R4.
    - rewrite (p_nvar _ _ _ _ S4), (tw_nvar _ _ Tw). apply (nr_nvar _ _ _ _ _ Nr).
    - rewrite (p_ncon _ _ _ _ S4), (tw_ncon _ _ Tw). apply (nr_ncon _ _ _ _ _ Nr).
    - rewrite (p_rat _ _ _ _ S4). etransitivity; [|apply (nr_rat _ _ _ _ _ Nr)]. unfold t3, push; destruct (t_undo t2); reflexivity.
    - rewrite (p_undo _ _ _ _ S4). etransitivity; [|apply (nr_undo _ _ _ _ _ Nr)]. unfold t3, push; destruct (t_undo t2); reflexivity.
    - rewrite (p_cone _ _ _ _ S4). etransitivity; [|apply (nr_cone _ _ _ _ _ Nr)]. unfold t3, push; destruct (t_undo t2); reflexivity.
    - rewrite E4. exact Neq3.
    - apply (p_nonneg _ _ _ _ S4); [apply (tw_valid _ _ Tw); exact Vw|exact Nn3].
    - intros u Vu Zu. destruct (Vt u Vu) as (V3 & _). apply (p_zero _ _ _ _ S4 u V3). rewrite I3 by exact Vu. exact Zu.
    - intros u Vu Zu. destruct (Vt u Vu) as (V3 & _). apply (p_nonneg _ _ _ _ S4 u V3). rewrite I3 by exact Vu. exact Zu.
    - intros u Vu Mk. apply (step_valid _ _ _ _ _ S4) in Vu. apply (p_marked _ _ _ _ S4 u Vu) in Mk. apply (tw_valid _ _ Tw) in Vu. apply (nr_valid _ _ _ _ _ _ Nr) in Vu. destruct Vu as [Vu|Eu].
      + split; [exact Vu|]. rewrite I3 in Mk by exact Vu. exact Mk.
      + exfalso. fold w in Eu. rewrite Eu, (tw_info _ _ Tw), I2, Z.eqb_refl, Iw in Mk. discriminate.
    - intros p Ad. rewrite (p_feas _ _ _ _ S4 p Ad). apply Fe3.
    - exact D4.
    - intros E. destruct (p_empty _ _ _ _ S4 E) as [E3|N]; [left; rewrite <- Emp3; exact E3|right; exact N]. }
  assert (Mark : forall t4 i, represents int (L ++ [l]) t4 -> step int (L ++ [l]) t3 t4 -> t_neq t4 = t_neq t3 -> sample_ok (Some w) t4 -> live_row t4 w i -> row_is_redundant t4 i = true ->
    wp (bind (mark_redundant t4 i) (fun '(t, _) => Ok t)) (grown int L l t)).
  { intros t4 i R4 S4 E4 D4 Lv4 Rr. pose proof (c_arr _ _ (r_core _ _ _ R4)) as A4. pose proof Lv4 as (Hi & Ei).
    destruct (live_row_info _ _ _ A4 (c_flg _ _ (r_core _ _ _ R4)) Lv4) as (V4 & Rw4 & _ & Ix4).
    apply redundant_redrow in Rr; [|exact A4|apply Hi]. rewrite Ei in Rr. apply wp_bind.
    pose proof (mark_ok t4 i A4 (c_flg _ _ (r_core _ _ _ R4)) Hi) as Mo.
    assert (Ms : wp (mark_redundant t4 i) (fun '(t', _) => represents int (L ++ [l]) t' /\ step int (L ++ [l]) t4 t' /\ (forall ex, sample_ok ex t4 -> sample_ok ex t') /\ v_red (t_info t' w) = true)).
    { apply (mark_step int (L ++ [l]) t4 w i R4 Lv4).
      - apply (p_nonneg _ _ _ _ S4); [apply (tw_valid _ _ Tw); exact Vw|exact Nn3].
      - intros p (Hp & _) O. apply (redrow_ge0 (L ++ [l]) t4 p w A4 (c_rel _ _ (r_core _ _ _ R4)) O Hp V4 Rw4); [rewrite Ix4; discriminate|exact Rr]. }
    destruct (mark_redundant t4 i) as [(t5, b)| | |]; cbn [wp] in Mo, Ms |- *; try contradiction; [|exact I]. destruct Mo as ((_ & _ & Sw & _) & _). destruct Ms as (R5 & S5 & D5 & Rd5). apply Fin; [exact R5|eapply step_trans; eassumption| |].
    - rewrite (s_neq _ _ Sw). exact E4.
    - intros _. apply (red_sample (L ++ [l]) t5 w (r_core _ _ _ R5) Rd5). apply D5. exact D4. }
  destruct (row_is_redundant t3 (nrow t)) eqn:Rr.
  { apply (Mark t3 (nrow t) R3 (step_refl _ _ _) eq_refl D3 Lv3 Rr). }
  apply wp_bind. eapply wp_weak; [apply (restore_row_ok int (L ++ [l]) w fuel t3 (nrow t) R3 Lv3 D3)|]. intros (t4, s) (R4 & E4 & Rd4 & D4 & Inf & Sam).
  pose proof (evolve_step int _ _ _ E4) as S4. assert (V4 : valid t4 w) by (apply (step_valid _ _ _ _ _ S4), (tw_valid _ _ Tw); exact Vw).
  assert (Nn4 : v_nonneg (t_info t4 w) = true) by (apply (p_nonneg _ _ _ _ S4); [apply (tw_valid _ _ Tw); exact Vw|exact Nn3]).
  destruct (Z.ltb_spec s 0) as [Hs|Hs].
  - cbn [wp]. assert (Tm : twin t4 (mark_empty t4)) by (unfold mark_empty, push; destruct (negb (t_empty t4) && t_undo t4); [destruct (t_undo t4)|]; constructor; reflexivity).
    assert (Em : t_empty (mark_empty t4) = true) by reflexivity.
    assert (Iu : forall u, t_info (mark_empty t4) u = t_info t4 u) by (intros u; rewrite (tw_info _ _ Tm); reflexivity).
    apply Fin.
    + apply (tw_represents _ _ Tm). exact R4.
    + eapply step_trans; [exact S4|]. constructor; try (unfold mark_empty, push; destruct (negb (t_empty t4) && t_undo t4) eqn:B; [destruct (t_undo t4) eqn:Un|]; try reflexivity; try exact Un; fail).
      * intros u _ Z0. rewrite Iu. exact Z0.
      * intros u _ Z0. rewrite Iu. exact Z0.
      * intros u _ Z0. rewrite Iu in Z0. exact Z0.
      * intros _. right. intros p (Hp & _) Fe. apply (tw_feas _ _ Tm) in Fe. pose proof (Inf Hs p Hp Fe) as Lt. destruct Fe as (_ & H). destruct (H w V4) as (_ & X). specialize (X Nn4 Rd4). lia.
    + rewrite <- (e_neq _ _ _ E4). unfold mark_empty, push; destruct (negb (t_empty t4) && t_undo t4); [destruct (t_undo t4)|]; reflexivity.
    + rewrite Em. discriminate.
  - specialize (Sam Hs). destruct (v_row (t_info t4 w)) eqn:Rw4.
    + destruct (live_row_at t4 w (c_arr _ _ (r_core _ _ _ R4)) (c_flg _ _ (r_core _ _ _ R4)) V4 Rw4 Rd4) as (i & Lv4).
      rewrite (live_row_of _ _ _ (c_arr _ _ (r_core _ _ _ R4)) Lv4). cbn [bind]. destruct (row_is_redundant t4 i) eqn:Rr4.
      * apply (Mark t4 i R4 S4 (e_neq _ _ _ E4) D4 Lv4 Rr4).
      * cbn [wp]. apply Fin; [exact R4|exact S4|apply (e_neq _ _ _ E4)|intros _; exact Sam].
    + cbn [wp]. apply Fin; [exact R4|exact S4|apply (e_neq _ _ _ E4)|intros _; exact Sam].
Qed.
