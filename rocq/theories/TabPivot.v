(** Pivoting. *)
From Coq Require Import ZArith List Bool Arith Lia.
From Verif Require Import SeqModel SeqSpec SeqProofs MatModel BMapModel BMapLists BMapGauss2 BElimSpec BElimFM TabModel TabSpec TabBase TabStruct TabMark.
Import ListNotations.
Open Scope Z_scope.

(** ** bounds that can be read off from a row *)
Record ok_cols (L : list (list Z)) (t : tab) (p : list Z) : Prop := {
  oc_len : length p = (1 + t_nvar t)%nat;
  oc_gone : forall v, valid t v -> gone t v -> value L p v = 0;
  oc_dead : forall c, (c < ncol t)%nat -> (c < t_dead t)%nat -> value L p (colv t c) = 0;
  oc_nonneg : forall c, (c < ncol t)%nat -> v_nonneg (t_info t (colv t c)) = true -> 0 <= value L p (colv t c) }.
Lemma feas_cols L t p : arranged t -> flagged t -> feas L t p -> ok_cols L t p.
Proof.
  intros A F (Lp & H). constructor; auto.
  - intros v V (I & R). destruct (f_gone _ F v V I) as (_ & X). rewrite R in X. apply (H v V). apply X.
  - intros c Hc Hd. destruct (a_col _ A c Hc) as (V & _). apply (H _ V). destruct (f_cols _ F c Hc) as (-> & _). apply Nat.ltb_lt. exact Hd.
  - intros c Hc N. destruct (a_col _ A c Hc) as (V & _). apply (H _ V); [exact N|]. apply (f_cols _ F c Hc).
Qed.
Lemma dot_split a : forall b, dot a b = hd 0 a * hd 0 b + dot (tl a) (tl b).
Proof. destruct a as [|x a]; intros [|y b]; cbn; ring_simplify; try reflexivity. destruct a; cbn; ring. Qed.
Lemma row_expand L t p i : arranged t -> related L t -> length p = (1 + t_nvar t)%nat -> (forall v, valid t v -> gone t v -> value L p v = 0) -> (i < nrow t)%nat ->
  den t i * value L p (rowv t i) = cst t i * hd 0 p + dot (skipn 2 (nth i (t_rows t) [])) (map (value L p) (t_cv t)).
Proof.
  intros A R Lp G Hi. rewrite (R p Lp G i Hi). rewrite dot_split. cbn [hd tl]. unfold cst, ent.
  pose proof (a_wid _ A i Hi) as W. destruct (nth i (t_rows t) []) as [|a [|b l]]; cbn in W; try lia. reflexivity.
Qed.
Lemma nth_skipn2 t i c : nth c (skipn 2 (nth i (t_rows t) [])) 0 = cf t i c.
Proof. rewrite nth_skipn. reflexivity. Qed.
Lemma nth_vals L t p c : (c < ncol t)%nat -> nth c (map (value L p) (t_cv t)) 0 = value L p (colv t c).
Proof. intros H. apply nth_map_d. exact H. Qed.
Lemma dot_ge0 a : forall b, (forall k, (k < length b)%nat -> 0 <= nth k a 0 * nth k b 0) -> 0 <= dot a b.
Proof.
  induction a as [|x a IH]; intros [|y b] H; cbn [dot]; try lia. pose proof (H O ltac:(cbn; lia)) as H0. cbn in H0.
  specialize (IH b). assert (0 <= dot a b) by (apply IH; intros k Hk; apply (H (S k)); cbn; lia). lia.
Qed.
Lemma dot_le0 a b : (forall k, (k < length b)%nat -> nth k a 0 * nth k b 0 <= 0) -> dot a b <= 0.
Proof.
  intros H. assert (0 <= dot (map Z.opp a) b); [|rewrite dot_opp in *; lia]. apply dot_ge0. intros k Hk. specialize (H k Hk).
  change 0 with (- 0) at 2. rewrite map_nth. lia.
Qed.
Lemma row_lower L t p i : arranged t -> related L t -> ok_cols L t p -> (i < nrow t)%nat ->
  (forall c, (t_dead t <= c < ncol t)%nat -> cf t i c <> 0 -> 0 < cf t i c /\ v_nonneg (t_info t (colv t c)) = true) ->
  cst t i * hd 0 p <= den t i * value L p (rowv t i).
Proof.
  intros A R O Hi H. rewrite (row_expand L t p i A R (oc_len _ _ _ O) (oc_gone _ _ _ O) Hi).
  assert (0 <= dot (skipn 2 (nth i (t_rows t) [])) (map (value L p) (t_cv t))); [|lia].
  apply dot_ge0. intros c Hc. rewrite map_length in Hc. rewrite nth_skipn2, nth_vals by exact Hc.
  destruct (Nat.lt_ge_cases c (t_dead t)) as [Hd|Hd]; [rewrite (oc_dead _ _ _ O c Hc Hd); lia|].
  destruct (Z.eq_dec (cf t i c) 0) as [->|N]; [lia|]. destruct (H c) as (P & Q); [split; assumption|exact N|]. pose proof (oc_nonneg _ _ _ O c Hc Q). nia.
Qed.
Lemma row_upper L t p i : arranged t -> related L t -> ok_cols L t p -> (i < nrow t)%nat ->
  (forall c, (t_dead t <= c < ncol t)%nat -> cf t i c <> 0 -> cf t i c < 0 /\ v_nonneg (t_info t (colv t c)) = true) ->
  den t i * value L p (rowv t i) <= cst t i * hd 0 p.
Proof.
  intros A R O Hi H. rewrite (row_expand L t p i A R (oc_len _ _ _ O) (oc_gone _ _ _ O) Hi).
  assert (dot (skipn 2 (nth i (t_rows t) [])) (map (value L p) (t_cv t)) <= 0); [|lia].
  apply dot_le0. intros c Hc. rewrite map_length in Hc. rewrite nth_skipn2, nth_vals by exact Hc.
  destruct (Nat.lt_ge_cases c (t_dead t)) as [Hd|Hd]; [rewrite (oc_dead _ _ _ O c Hc Hd); lia|].
  destruct (Z.eq_dec (cf t i c) 0) as [->|N]; [lia|]. destruct (H c) as (P & Q); [split; assumption|exact N|]. pose proof (oc_nonneg _ _ _ O c Hc Q). nia.
Qed.

(** ** rows found to be redundant *)
Definition redrow (t : tab) (u : Z) : Prop :=
  (u < 0 -> v_nonneg (t_info t u) = true) /\ 0 <= nth 1 (rc t u) 0 /\
  forall c, (t_dead t <= c < ncol t)%nat -> nth (2 + c) (rc t u) 0 <> 0 -> colv t c < 0 /\ 0 < nth (2 + c) (rc t u) 0 /\ v_nonneg (t_info t (colv t c)) = true.
Lemma in_live_cols t c : List.In c (live_cols t) <-> (t_dead t <= c < t_dead t + (ncol t - t_dead t))%nat.
Proof. unfold live_cols. apply in_seq. Qed.
Lemma in_live_rows t c : List.In c (live_rows t) <-> (t_red t <= c < t_red t + (nrow t - t_red t))%nat.
Proof. unfold live_rows. apply in_seq. Qed.
Lemma redundant_redrow t i : arranged t -> (i < nrow t)%nat -> row_is_redundant t i = true -> redrow t (rowv t i).
Proof.
  intros A Hi H. unfold row_is_redundant in H. unfold redrow. rewrite rc_row by assumption.
  destruct ((rowv t i <? 0) && negb (v_nonneg (t_info t (rowv t i)))) eqn:B1; [discriminate|].
  destruct (Z.ltb_spec (cst t i) 0) as [B2|B2]; [discriminate|]. destruct (t_strict t && (cst t i =? 0)); [discriminate|].
  split; [|split; [exact B2|]].
  - intros N. rewrite (proj2 (Z.ltb_lt _ _) N) in B1. cbn in B1. apply negb_false_iff in B1. exact B1.
  - intros c Hc N. rewrite forallb_forall in H. specialize (H c). rewrite in_live_cols in H. specialize (H ltac:(lia)).
    apply orb_prop in H. destruct H as [H|H]; [apply Z.eqb_eq in H; contradiction|]. apply andb_prop in H. destruct H as (H & H3). apply andb_prop in H. destruct H as (H1 & H2).
    split; [lia|]. split; [apply Z.ltb_lt in H2; exact H2|exact H3].
Qed.
Lemma redrow_ge0 L t p u : arranged t -> related L t -> ok_cols L t p -> 0 < hd 0 p -> valid t u -> v_row (t_info t u) = true -> v_idx (t_info t u) <> None -> redrow t u ->
  0 <= value L p u.
Proof.
  intros A R O Hp V Rw I (_ & H1 & H2). destruct (v_idx (t_info t u)) as [i|] eqn:E; [|congruence]. destruct (at_row _ _ _ A V E Rw) as (Hi & Ei).
  rewrite <- Ei in *. rewrite rc_row in * by assumption.
  assert (X : cst t i * hd 0 p <= den t i * value L p (rowv t i)).
  { apply row_lower; auto. intros c Hc N. destruct (H2 c Hc N) as (_ & P & Q). auto. }
  pose proof (a_den _ A i Hi). unfold cst, ent in X. nia.
Qed.
Definition clean (t t' : tab) : Prop :=
  arranged t' /\ flagged t' /\ swept t t' /\
  forall u, valid t u -> (v_red (t_info t u) = false /\ v_red (t_info t' u) = true) \/ (v_nonneg (t_info t u) = false /\ v_nonneg (t_info t' u) = true) ->
    redrow t u /\ v_row (t_info t u) = true /\ v_idx (t_info t u) <> None /\ v_red (t_info t u) = false.
Lemma clean_refl t : arranged t -> flagged t -> clean t t.
Proof. intros A F. split; [exact A|]. split; [exact F|]. split; [apply swept_refl|]. intros u _ [(H1 & H2)|(H1 & H2)]; congruence. Qed.
Lemma swept_redrow t t' u : arranged t -> swept t t' -> valid t u -> v_row (t_info t u) = true -> v_idx (t_info t' u) <> None -> v_red (t_info t' u) = false -> redrow t' u -> redrow t u.
Proof.
  intros A S V Rw I Rd (H0 & H1 & H2). destruct (s_rc _ _ S u V Rw I) as (I0 & E). rewrite E in *. split; [|split; [exact H1|]].
  - intros N. rewrite <- (proj2 (proj2 (s_grow _ _ S u)) Rd). auto.
  - intros c Hc N. specialize (H2 c). unfold ncol, colv in H2. rewrite (s_dead _ _ S), (s_cv _ _ S) in H2. fold (colv t c) in H2. destruct (H2 Hc N) as (P & Q & W). split; [exact P|]. split; [exact Q|].
    destruct (a_col _ A c) as (Vc & _ & Rc); [lia|]. rewrite (s_col _ _ S _ Vc Rc) in W. exact W.
Qed.
Lemma sweep_ok : forall k i c t, arranged t -> flagged t -> (t_red t <= i)%nat -> (i + k = nrow t)%nat -> wp (sweep k i c t) (clean t).
Proof.
  induction k as [|k IH]; intros i c t A F Hr Hk; [apply clean_refl; assumption|]. cbn [sweep].
  destruct (cf t i c =? 0); [apply IH; auto; lia|]. destruct (negb (v_frozen (t_info t (rowv t i))) && row_is_redundant t i) eqn:B; [|apply IH; auto; lia].
  apply andb_prop in B. destruct B as (_ & B). apply redundant_redrow in B; [|assumption|lia].
  apply wp_bind. eapply wp_weak; [apply (mark_ok t i A F); lia|]. intros [t1 b] ((A1 & F1 & S1 & R1 & O1 & N1) & Hn & Hd).
  eapply wp_weak; [apply IH; auto; destruct b; lia|]. intros t2 (A2 & F2 & S2 & X). split; [exact A2|]. split; [exact F2|]. split; [eapply swept_trans; eassumption|].
  intros u V H. destruct (a_row _ A i) as (Vi & Ii & Ri); [lia|].
  destruct (Z.eq_dec u (rowv t i)) as [->|Nu].
  - split; [exact B|]. split; [exact Ri|]. split; [congruence|]. rewrite (f_rows _ F) by lia. apply Nat.ltb_ge. exact Hr.
  - destruct (O1 u Nu) as (E1 & E2 & E3). rewrite <- E1, <- E2 in H. destruct (X u (proj2 (swept_valid _ _ _ S1) V) H) as (P & Q & W & Y).
    destruct (s_keep _ _ S1 u) as (_ & _ & Er & _). split; [apply (swept_redrow t t1); auto; congruence|]. split; [congruence|]. split; [|congruence].
    apply (s_rc _ _ S1); auto. congruence.
Qed.
Lemma clean_core L t t' : clean t t' -> core L t -> core L t'.
Proof. intros (A & F & S & _) C. eapply swept_core; eauto. Qed.
Lemma clean_cols L t t' p : arranged t -> clean t t' -> ok_cols L t' p -> ok_cols L t p.
Proof.
  intros A0 (A & F & S & _) O. destruct O as [O1 O2 O3 O4]. unfold ncol, colv in *. rewrite (s_cv _ _ S), (s_nvar _ _ S), (s_dead _ _ S) in *.
  constructor; auto.
  - intros v V G. apply O2; [apply (swept_valid _ _ _ S); exact V|apply (swept_gone _ _ _ S V); exact G].
  - intros c Hc N. apply O4; [exact Hc|]. destruct (a_col _ A0 c Hc) as (Vc & _ & Rc). fold (colv t c). rewrite (s_col _ _ S _ Vc Rc). exact N.
Qed.
Lemma clean_feas L t t' p : core L t -> clean t t' -> 0 < hd 0 p -> (feas L t' p <-> feas L t p).
Proof.
  intros C Cl Hp. pose proof Cl as (A & F & S & X). split; [|apply swept_feas; exact S].
  intros Fe. pose proof (clean_cols L t t' p (c_arr _ _ C) Cl (feas_cols _ _ _ A F Fe)) as O. destruct Fe as (Lp & H).
  split; [apply (oc_len _ _ _ O)|]. intros v V. destruct (H v (proj2 (swept_valid _ _ _ S) V)) as (H1 & H2). destruct (s_keep _ _ S v) as (E & _). rewrite E in H1. split; [exact H1|].
  intros N R. destruct (v_red (t_info t' v)) eqn:R'.
  - destruct (X v V) as (P & Q & W & _); [left; auto|]. apply (redrow_ge0 L t); auto; apply C.
  - apply H2; [|reflexivity]. rewrite (proj2 (proj2 (s_grow _ _ S v)) R'). exact N.
Qed.
Lemma clean_represents int L t t' : represents int L t -> clean t t' -> represents int L t'.
Proof.
  intros [C Z0 Im] Cl. pose proof Cl as (A & F & S & X). constructor.
  - eapply clean_core; eassumption.
  - intros p Lp H v V Zv. rewrite (s_nvar _ _ S) in Lp. destruct (s_keep _ _ S v) as (E & _). rewrite E in Zv. apply (Z0 p Lp); [|apply (swept_valid _ _ _ S); exact V|exact Zv].
    intros w Vw Zw Rw. destruct (s_keep _ _ S w) as (E1 & _ & E2 & _). apply H; [apply (swept_valid _ _ _ S); exact Vw|congruence|congruence].
  - intros p Ad Fe v V N. apply (swept_valid _ _ _ S) in V. destruct Ad as (Hp & Hi). pose proof (proj1 (clean_feas L t t' p C Cl Hp) Fe) as Fe0.
    destruct (v_nonneg (t_info t v)) eqn:N0; [apply (Im p); auto; split; assumption|].
    destruct (X v V) as (P & Q & W & _); [right; auto|]. apply (redrow_ge0 L t); auto; try apply C. apply feas_cols; auto; apply C.
Qed.
Lemma clean_sample ex t t' : arranged t -> flagged t -> clean t t' -> sample_ok ex t -> sample_ok ex t'.
Proof. intros A F (A' & F' & S & _). apply swept_sample; assumption. Qed.

(** ** a pivot *)
Lemma abs_sgn_l x : Z.abs x = Z.sgn x * x. Proof. destruct x; cbn; lia. Qed.
Section Step.
Variables (L : list (list Z)) (t : tab) (i c : nat).
Hypothesis A : arranged t.
Hypothesis Hi : (i < nrow t)%nat.
Hypothesis Hc : (c < ncol t)%nat.
Hypothesis Hp : cf t i c <> 0.
Let v := rowv t i.
Let u := colv t c.
Let t' := pivot_step t i c.
Let pr := pivot_own (2 + c) (nth i (t_rows t) []).
Lemma ps_nrow : nrow t' = nrow t. Proof. apply lset_length. Qed.
Lemma ps_ncol : ncol t' = ncol t. Proof. apply lset_length. Qed.
Lemma ps_rowv j : rowv t' j = if Nat.eqb j i then u else rowv t j. Proof. apply nth_lset. exact Hi. Qed.
Lemma ps_colv j : colv t' j = if Nat.eqb j c then v else colv t j. Proof. apply nth_lset. exact Hc. Qed.
Lemma ps_row j : (j < nrow t)%nat -> nth j (t_rows t') [] = if Nat.eqb j i then pr else pivot_other (2 + c) pr (nth j (t_rows t) []).
Proof.
  intros H. change (t_rows t') with (lset (map (pivot_other (2 + c) pr) (t_rows t)) i pr). rewrite nth_lset by (rewrite map_length, (a_len _ A); exact Hi).
  rewrite (nth_map_d _ _ []) by (rewrite (a_len _ A); exact H). reflexivity.
Qed.
Lemma ps_uv : u <> v. Proof. intros E. symmetry in E. exact (row_col t i c A Hi Hc E). Qed.
Lemma ps_info w : t_info t' w = if w =? v then vs_idx (Some c) (vs_row false (t_info t w)) else if w =? u then vs_idx (Some i) (vs_row true (t_info t w)) else t_info t w.
Proof.
  pose proof ps_uv as N. unfold t', pivot_step, upd. cbn [t_info w_info w_cv w_rv w_rows]. fold u. fold v. rewrite (proj2 (Z.eqb_neq v u)) by congruence.
  destruct (Z.eqb_spec w v) as [->|]; [reflexivity|]. destruct (Z.eqb_spec w u) as [->|]; reflexivity.
Qed.
Lemma ps_flag {X} (f : tvar -> X) w : (forall x y z, f (vs_idx y (vs_row z x)) = f x) -> f (t_info t' w) = f (t_info t w).
Proof. intros H. rewrite ps_info. destruct (w =? v); [apply H|]. destruct (w =? u); [apply H|reflexivity]. Qed.
Lemma ps_valid w : valid t' w <-> valid t w. Proof. reflexivity. Qed.
Lemma ps_wi : length (nth i (t_rows t) []) = (2 + ncol t)%nat. Proof. apply (a_wid _ A). exact Hi. Qed.
Lemma ps_arr : arranged t'.
Proof.
  pose proof ps_uv as N. pose proof ps_wi as W. pose proof (a_den _ A i Hi) as D.
  constructor.
  - rewrite ps_nrow. change (t_rows t') with (lset (map (pivot_other (2 + c) pr) (t_rows t)) i pr). rewrite lset_length, map_length. apply (a_len _ A).
  - intros j Hj. rewrite ps_nrow in Hj. rewrite ps_row, ps_ncol by exact Hj. destruct (Nat.eqb j i).
    + unfold pr. rewrite own_len; [exact W|lia|exact Hp].
    + unfold pr. rewrite other_len; [apply (a_wid _ A); exact Hj|lia|exact Hp|rewrite (a_wid _ A) by exact Hj; lia|apply (a_den _ A); exact Hj].
  - intros j Hj. rewrite ps_nrow in Hj. rewrite ps_rowv, ps_valid. destruct (Nat.eqb_spec j i) as [->|Nj].
    + rewrite ps_info, Z.eqb_refl, (proj2 (Z.eqb_neq u v) N). destruct (a_col _ A c Hc) as (V & _). cbn. auto.
    + rewrite ps_info. rewrite (proj2 (Z.eqb_neq (rowv t j) v)) by (intros E; apply Nj; apply (rowv_inj t); assumption).
      rewrite (proj2 (Z.eqb_neq (rowv t j) u)) by (apply row_col; assumption). apply (a_row _ A). exact Hj.
  - intros j Hj. rewrite ps_ncol in Hj. rewrite ps_colv, ps_valid. destruct (Nat.eqb_spec j c) as [->|Nj].
    + rewrite ps_info, Z.eqb_refl. destruct (a_row _ A i Hi) as (V & _). cbn. auto.
    + rewrite ps_info. rewrite (proj2 (Z.eqb_neq (colv t j) v)) by (intros E; symmetry in E; revert E; apply row_col; assumption).
      rewrite (proj2 (Z.eqb_neq (colv t j) u)) by (intros E; apply Nj; apply (colv_inj t); assumption). apply (a_col _ A). exact Hj.
  - intros w j V. rewrite ps_valid in V. rewrite ps_info. destruct (Z.eqb_spec w v) as [->|Nv].
    + intros [= <-]. cbn [v_row vs_idx vs_row]. rewrite ps_ncol, ps_colv, Nat.eqb_refl. auto.
    + destruct (Z.eqb_spec w u) as [->|Nu].
      * intros [= <-]. cbn [v_row vs_idx vs_row]. rewrite ps_nrow, ps_rowv, Nat.eqb_refl. auto.
      * intros E. pose proof (a_inv _ A _ _ V E) as I. destruct (v_row (t_info t w)).
        -- rewrite ps_nrow, ps_rowv. destruct (Nat.eqb_spec j i) as [->|]; [destruct I as (_ & X); exfalso; apply Nv; symmetry; exact X|exact I].
        -- rewrite ps_ncol, ps_colv. destruct (Nat.eqb_spec j c) as [->|]; [destruct I as (_ & X); exfalso; apply Nu; symmetry; exact X|exact I].
  - intros j Hj. rewrite ps_nrow in Hj. unfold den, ent. rewrite ps_row by exact Hj. destruct (Nat.eqb j i).
    + unfold pr. apply own_den; [lia|exact Hp].
    + unfold pr. apply other_den; [lia|exact Hp|rewrite (a_wid _ A) by exact Hj; lia|apply (a_den _ A); exact Hj].
Qed.
Lemma ps_gone w : valid t w -> (gone t' w <-> gone t w).
Proof.
  intros V. unfold gone. rewrite ps_info. destruct (Z.eqb_spec w v) as [->|].
  - cbn. destruct (a_row _ A i Hi) as (_ & E & _). fold v in E. rewrite E. split; intros (X & _); discriminate.
  - destruct (Z.eqb_spec w u) as [->|]; [|reflexivity]. cbn. destruct (a_col _ A c Hc) as (_ & E & _). fold u in E. rewrite E. split; intros (X & _); discriminate.
Qed.
Lemma ps_vec p : vec L t' p = zupd (vec L t p) (1 + c) (value L p v).
Proof. unfold vec. change (t_cv t') with (lset (t_cv t) c v). rewrite map_lset, lset_zupd. reflexivity. Qed.
Lemma ps_related : related L t -> related L t'.
Proof.
  pose proof ps_wi as W. pose proof (a_den _ A i Hi) as D.
  intros R p Lp G j Hj. rewrite ps_nrow in Hj.
  assert (G0 : forall w, valid t w -> gone t w -> value L p w = 0) by (intros w V X; apply G; [exact V|apply ps_gone; assumption]).
  pose proof (R p Lp G0 i Hi) as Ei. unfold row_holds in *. fold (vec L t p) in Ei. fold (vec L t' p). rewrite ps_vec. unfold den, ent in *. rewrite ps_row, ps_rowv by exact Hj.
  assert (Lv : length (vec L t p) = (length (nth i (t_rows t) []) - 1)%nat) by (unfold vec; cbn [length]; rewrite map_length; fold (ncol t); lia).
  assert (Nv : nth (2 + c - 1) (vec L t p) 0 = value L p u) by (cbn; apply nth_vals; exact Hc).
  destruct (Nat.eqb_spec j i) as [->|].
  - unfold pr. replace (1 + c)%nat with (2 + c - 1)%nat by lia. apply (own_holds (2 + c)); [lia|exact D|exact Hp|exact Lv|exact Nv|exact Ei].
  - unfold pr. replace (1 + c)%nat with (2 + c - 1)%nat by lia.
    assert (Hk : (1 <= 2 + c < length (nth i (t_rows t) []))%nat) by lia.
    assert (Lj : length (nth j (t_rows t) []) = length (nth i (t_rows t) [])) by (rewrite (a_wid _ A) by exact Hj; lia).
    apply (other_holds (2 + c) _ Hk D Hp _ Lj (a_den _ A j Hj) _ _ (value L p u)); auto. apply (R p Lp G0 j Hj).
Qed.
Lemma ps_independent : related L t -> independent L t -> independent L t'.
Proof.
  pose proof ps_wi as W. pose proof (a_den _ A i Hi) as D. intros R I x z.
  set (r := nth i (t_rows t) []) in *. set (q := cf t i c) in *. set (m := Z.abs q). set (s := Z.sgn q).
  set (zl := x :: map z (seq 0 (ncol t))).
  set (S0 := dot (tl r) (zupd zl (1 + c) 0)).
  set (zc := s * (den t i * z c - S0)).
  destruct (I (m * x) (fun j => if Nat.eqb j c then zc else m * z j)) as (k & p & K & Lp & Hh & Cv & G).
  assert (Lz : length zl = (1 + ncol t)%nat) by (unfold zl; cbn; rewrite map_length, seq_length; reflexivity).
  assert (Vp : vec L t p = scale k (zupd (scale m zl) (1 + c) zc)).
  { apply (nth_ext _ _ 0 0); [unfold vec; cbn [length]; rewrite scale_length, zupd_length, scale_length, map_length, Lz; reflexivity|].
    intros [|j] Hj; rewrite nth_scale, nth_zupd, nth_scale.
    - cbn [Nat.eqb andb plus]. unfold vec, zl. cbn [nth]. exact Hh.
    - unfold vec in *. cbn [length nth] in *. rewrite map_length in Hj. rewrite nth_vals by (unfold ncol; lia). rewrite Cv by (unfold ncol; lia).
      cbn [plus Nat.eqb]. rewrite scale_length, Lz. rewrite (proj2 (Nat.ltb_lt (S c) (1 + ncol t))) by lia. rewrite andb_true_r.
      destruct (Nat.eqb j c); [reflexivity|]. unfold zl. cbn [nth]. rewrite (nth_map_d z _ O) by (rewrite seq_length; unfold ncol; lia). rewrite seq_nth by (unfold ncol; lia). cbn. ring. }
  assert (Ev : value L p v = k * m * z c).
  { pose proof (R p Lp G i Hi) as E. unfold row_holds in E. fold (vec L t p) in E. fold v in E. fold r in E. rewrite Vp in E. rewrite dot_scale in E.
    assert (Q : nth (1 + c) (tl r) 0 = q). { unfold q, cf, ent. fold r. destruct r as [|a r']; [cbn in W; lia|]. reflexivity. }
    assert (Q1 : dot (tl r) (zupd (scale m zl) (1 + c) zc) = m * S0 + zc * q).
    { unfold S0. rewrite !dot_upd by (rewrite ?scale_length; lia). rewrite dot_scale, nth_scale, Q. ring. }
    rewrite Q1 in E. unfold zc in E. assert (Em : m = s * q) by apply abs_sgn_l. rewrite Em in *. clear Em.
    apply (Z.mul_reg_l _ _ (den t i)); [lia|]. rewrite E. ring. }
  exists (k * m), p. assert (M : 0 < m) by (unfold m, q; lia). split; [nia|]. split; [exact Lp|]. split; [rewrite Hh; ring|]. split.
  - intros j Hj. rewrite ps_ncol in Hj. rewrite ps_colv. destruct (Nat.eqb_spec j c) as [->|N]; [exact Ev|]. rewrite Cv by exact Hj. rewrite (proj2 (Nat.eqb_neq j c) N). ring.
  - intros w V Gw. apply G; [exact V|]. apply ps_gone; assumption.
Qed.
End Step.
