(** What a pivot does to the sample value, and the choice of the pivot. *)
From Coq Require Import ZArith List Bool Arith Lia.
From Verif Require Import SeqModel SeqSpec SeqProofs MatModel BMapModel BMapLists BMapGauss2 BElimSpec BElimFM TabModel TabSpec TabBase TabStruct TabMark TabPivot.
Import ListNotations.
Open Scope Z_scope.

(** ** what a sequence of pivots leaves unchanged *)
Record evolve (L : list (list Z)) (t t' : tab) : Prop := {
  e_ncol : ncol t' = ncol t; e_dead : t_dead t' = t_dead t; e_nvar : t_nvar t' = t_nvar t; e_ncon : t_ncon t' = t_ncon t;
  e_neq : t_neq t' = t_neq t; e_rat : t_rat t' = t_rat t; e_empty : t_empty t' = t_empty t; e_undo : t_undo t' = t_undo t;
  e_inundo : t_inundo t' = t_inundo t; e_preserve : t_preserve t' = t_preserve t; e_strict : t_strict t' = t_strict t; e_cone : t_cone t' = t_cone t;
  e_keep : forall u, v_zero (t_info t' u) = v_zero (t_info t u) /\ v_frozen (t_info t' u) = v_frozen (t_info t u) /\
                     v_marked (t_info t' u) = v_marked (t_info t u) /\ v_negated (t_info t' u) = v_negated (t_info t u);
  e_grow : forall u, (v_red (t_info t u) = true -> v_red (t_info t' u) = true) /\ (v_nonneg (t_info t u) = true -> v_nonneg (t_info t' u) = true) /\
                     (v_red (t_info t' u) = false -> v_nonneg (t_info t' u) = v_nonneg (t_info t u));
  e_gone : forall u, valid t u -> (gone t' u <-> gone t u);
  e_col : forall u, v_zero (t_info t u) = true -> v_row (t_info t u) = false -> v_row (t_info t' u) = false;
  e_feas : forall p, 0 < hd 0 p -> (feas L t' p <-> feas L t p) }.
Lemma evolve_refl L t : evolve L t t.
Proof. constructor; auto; reflexivity. Qed.
Lemma evolve_valid L t t' u : evolve L t t' -> (valid t' u <-> valid t u).
Proof. intros E. unfold valid. rewrite (e_ncon _ _ _ E), (e_nvar _ _ _ E). reflexivity. Qed.
Lemma evolve_trans L t t1 t2 : evolve L t t1 -> evolve L t1 t2 -> evolve L t t2.
Proof.
  intros S1 S2. constructor; try match goal with |- _ = _ => etransitivity; [apply S2|apply S1] end.
  - intros u. destruct (e_keep _ _ _ S1 u) as (<- & <- & <- & <-). apply S2.
  - intros u. destruct (e_grow _ _ _ S1 u) as (R1 & N1 & E1), (e_grow _ _ _ S2 u) as (R2 & N2 & E2). split; [auto|]. split; [auto|].
    intros R. rewrite (E2 R). apply E1. destruct (v_red (t_info t1 u)); [rewrite R2 in R by reflexivity; discriminate|reflexivity].
  - intros u V. rewrite (e_gone _ _ _ S2 u (proj2 (evolve_valid _ _ _ _ S1) V)). apply S1. exact V.
  - intros u Z0 R0. apply (e_col _ _ _ S2); [destruct (e_keep _ _ _ S1 u) as (-> & _); exact Z0|apply (e_col _ _ _ S1); assumption].
  - intros p Hp. rewrite (e_feas _ _ _ S2 p Hp). apply S1. exact Hp.
Qed.
Lemma clean_evolve L t t' : core L t -> clean t t' -> evolve L t t'.
Proof.
  intros C Cl. pose proof Cl as (A & F & S & X). constructor; try apply S.
  - unfold ncol. rewrite (s_cv _ _ S). reflexivity.
  - intros u. destruct (s_keep _ _ S u) as (-> & -> & _ & -> & ->). auto.
  - intros u V. apply swept_gone; assumption.
  - intros u _. destruct (s_keep _ _ S u) as (_ & _ & -> & _). auto.
  - intros p Hp. apply clean_feas; assumption.
Qed.

Lemma dot_one : forall (l w : list Z) c, (forall j, j <> c -> nth j w 0 = 0) -> dot l w = nth c l 0 * nth c w 0.
Proof.
  induction l as [|x l IH]; intros [|y w] c H; cbn [dot]; try (destruct c; cbn; ring).
  destruct c as [|c]; cbn [nth].
  - rewrite (IH w 0%nat); [|intros j _; apply (H (S j)); lia]. pose proof (H 1%nat ltac:(lia)) as X. cbn in X. destruct w; cbn in *; [ring|]. rewrite X. ring.
  - pose proof (H O ltac:(lia)) as X. cbn in X. rewrite X, (IH w c); [ring|]. intros j Hj. apply (H (S j)). lia.
Qed.
(** a row of a constraint that is marked zero has no live coefficients *)
Lemma r_flat int L t : represents int L t -> forall i, (t_red t <= i < nrow t)%nat -> v_zero (t_info t (rowv t i)) = true ->
  forall c, (t_dead t <= c < ncol t)%nat -> cf t i c = 0.
Proof.
  intros [C Z0 _] i Hi Zi c Hc. pose proof (c_arr _ _ C) as A. pose proof (c_flg _ _ C) as F.
  destruct (c_ind _ _ C 0 (fun j => if Nat.eqb j c then 1 else 0)) as (k & p & K & Lp & Hh & Cv & G).
  assert (E : value L p (rowv t i) = 0).
  { apply (Z0 p Lp); [|apply (a_row _ A i); lia|exact Zi]. intros v V Zv Rv. destruct (v_idx (t_info t v)) as [j|] eqn:Ix; [|apply G; [exact V|split; assumption]].
    destruct (at_col t v j A V Ix Rv) as (Hj & Ej). rewrite <- Ej, Cv by exact Hj. destruct (f_cols _ F j Hj) as (X & _). rewrite Ej, Zv in X. symmetry in X. apply Nat.ltb_lt in X.
    rewrite (proj2 (Nat.eqb_neq j c)) by lia. ring. }
  pose proof (row_expand L t p i A (c_rel _ _ C) Lp G (proj2 Hi)) as H. rewrite E, Hh in H.
  assert (D : dot (skipn 2 (nth i (t_rows t) [])) (map (value L p) (t_cv t)) = cf t i c * k).
  { rewrite (dot_one _ _ c); [rewrite nth_skipn2, nth_vals by lia; rewrite Cv by lia; rewrite Nat.eqb_refl; ring|]. intros j Hj. destruct (Nat.lt_ge_cases j (ncol t)) as [Lt|Ge].
    - rewrite nth_vals, Cv by exact Lt. rewrite (proj2 (Nat.eqb_neq j c)) by exact Hj. ring.
    - rewrite (nth_overflow (map _ _)) by (rewrite map_length; exact Ge). reflexivity. }
  rewrite D in H. nia.
Qed.
Section Step2.
Variables (int : bool) (L : list (list Z)) (t : tab) (i c : nat).
Hypothesis R : represents int L t.
Hypothesis Hi : (t_red t <= i < nrow t)%nat.
Hypothesis Hc : (t_dead t <= c < ncol t)%nat.
Hypothesis Hp : cf t i c <> 0.
Let v := rowv t i.
Let u := colv t c.
Let t' := pivot_step t i c.
Let A : arranged t := c_arr _ _ (r_core _ _ _ R).
Let F : flagged t := c_flg _ _ (r_core _ _ _ R).
Let Hi' : (i < nrow t)%nat := proj2 Hi.
Let Hc' : (c < ncol t)%nat := proj2 Hc.
Lemma st_nrow : nrow t' = nrow t. Proof. apply ps_nrow. Qed.
Lemma st_ncol : ncol t' = ncol t. Proof. apply ps_ncol. Qed.
Lemma st_rowv j : rowv t' j = if Nat.eqb j i then u else rowv t j. Proof. apply ps_rowv. exact Hi'. Qed.
Lemma st_colv j : colv t' j = if Nat.eqb j c then v else colv t j. Proof. apply ps_colv. exact Hc'. Qed.
Lemma st_info w : t_info t' w = if w =? v then vs_idx (Some c) (vs_row false (t_info t w)) else if w =? u then vs_idx (Some i) (vs_row true (t_info t w)) else t_info t w.
Proof. apply ps_info; assumption. Qed.
Lemma st_arr : arranged t'. Proof. apply ps_arr; assumption. Qed.
Lemma st_flag {X} (f : tvar -> X) w : (forall x y z, f (vs_idx y (vs_row z x)) = f x) -> f (t_info t' w) = f (t_info t w).
Proof. apply ps_flag; assumption. Qed.
Lemma st_u : v_zero (t_info t u) = false /\ v_red (t_info t u) = false.
Proof. destruct (f_cols _ F c Hc') as (E & E'). fold u in E, E'. rewrite E. split; [apply Nat.ltb_ge; lia|exact E']. Qed.
Lemma st_v : v_zero (t_info t v) = false /\ v_red (t_info t v) = false.
Proof. split; [destruct (v_zero (t_info t v)) eqn:Z0; [|reflexivity]; exfalso; apply Hp; apply (r_flat int L t R i Hi Z0 c Hc)|]. unfold v. rewrite (f_rows _ F i Hi'). apply Nat.ltb_ge. lia. Qed.
Lemma st_flagged : flagged t'.
Proof.
  destruct st_u as (Zu & Ru), st_v as (Zv & Rv).
  constructor.
  - rewrite st_ncol. apply (f_dead _ F).
  - rewrite st_nrow. apply (f_red _ F).
  - intros j Hj. rewrite st_nrow in Hj. rewrite (st_flag v_red) by reflexivity. rewrite st_rowv. change (t_red t') with (t_red t).
    destruct (Nat.eqb_spec j i) as [->|]; [|apply (f_rows _ F); exact Hj]. fold u. rewrite Ru. symmetry. apply Nat.ltb_ge. lia.
  - intros j Hj. rewrite st_ncol in Hj. rewrite (st_flag v_red), (st_flag v_zero) by reflexivity. rewrite st_colv. change (t_dead t') with (t_dead t).
    destruct (Nat.eqb_spec j c) as [->|]; [|apply (f_cols _ F); exact Hj]. fold v. rewrite Rv, Zv. split; [|reflexivity]. symmetry. apply Nat.ltb_ge. lia.
  - intros w V I. change (valid t w) in V. rewrite st_info in *.
    destruct (w =? v); [discriminate|]. destruct (w =? u); [discriminate|]. apply (f_gone _ F); assumption.
  - intros w V P. rewrite (st_flag v_red), (st_flag v_zero), (st_flag v_nonneg) by reflexivity. apply (f_var _ F); assumption.
Qed.
Lemma st_feas p : feas L t' p <-> feas L t p.
Proof.
  split; intros (Lp & H); (split; [exact Lp|]); intros w V; specialize (H w V); rewrite (st_flag v_red), (st_flag v_zero), (st_flag v_nonneg) in * by reflexivity; exact H.
Qed.
Lemma st_represents : represents int L t'.
Proof.
  destruct st_u as (Zu & Ru), st_v as (Zv & Rv). pose proof (r_core _ _ _ R) as C.
  constructor.
  - constructor; [exact st_arr|exact st_flagged|apply C|apply C|apply ps_related; auto; apply C|apply ps_independent; auto; apply C].
  - intros p Lp H w V Zw. rewrite (st_flag v_zero) in Zw by reflexivity. apply (r_zero _ _ _ R p Lp); [|exact V|exact Zw].
    intros x Vx Zx Rx. apply H; [exact Vx|rewrite (st_flag v_zero) by reflexivity; exact Zx|]. rewrite st_info.
    destruct (Z.eqb_spec x v) as [->|]; [reflexivity|]. destruct (Z.eqb_spec x u) as [->|]; [congruence|exact Rx].
  - intros p Ad Fe w V N. rewrite (st_flag v_nonneg) in N by reflexivity. apply (r_imp _ _ _ R p Ad); auto. apply st_feas. exact Fe.
Qed.
Lemma st_evolve : evolve L t t'.
Proof.
  constructor; try reflexivity.
  - apply (ps_ncol t i c).
  - intros w. rewrite !(fun X f => st_flag (X:=X) f w) by reflexivity. auto.
  - intros w. rewrite !(fun X f => st_flag (X:=X) f w) by reflexivity. auto.
  - intros w V. apply ps_gone; assumption.
  - intros w Z0 R0. rewrite st_info. destruct (w =? v); [reflexivity|]. destruct (Z.eqb_spec w u) as [E|]; [|exact R0]. rewrite E in Z0. destruct st_u as (X & _). congruence.
  - intros p _. apply st_feas.
Qed.
(** signs *)
Lemma st_wi : (1 <= 2 + c < length (nth i (t_rows t) []))%nat. Proof. rewrite (a_wid _ A i Hi'). lia. Qed.
Lemma st_cst_i : exists g, 0 < g /\ - Z.sgn (cf t i c) * cst t i = g * cst t' i.
Proof.
  unfold cst, ent, t'. rewrite (ps_row t i c A Hi') by exact Hi'. rewrite Nat.eqb_refl. apply (own_j (2 + c)); [exact st_wi|exact Hp|lia|lia].
Qed.
Lemma st_cf_i : Z.sgn (cf t' i c) = Z.sgn (cf t i c).
Proof.
  unfold cf, ent, t'. rewrite (ps_row t i c A Hi') by exact Hi'. rewrite Nat.eqb_refl. apply (own_sgn_k (2 + c)); [exact st_wi|apply (a_den _ A i Hi')|exact Hp].
Qed.
Lemma st_cst_j j : (j < nrow t)%nat -> j <> i -> exists g, 0 < g /\ Z.sgn (cf t i c) * (cst t j * cf t i c - cf t j c * cst t i) = g * cst t' j.
Proof.
  intros Hj N. unfold cst, ent, t'. rewrite (ps_row t i c A Hi') by exact Hj. rewrite (proj2 (Nat.eqb_neq j i) N).
  pose proof st_wi. apply (other_j (2 + c)); [assumption|exact Hp|rewrite !(a_wid _ A) by assumption; reflexivity|apply (a_den _ A j Hj)|lia|lia|lia].
Qed.
Lemma st_cf_j j : (j < nrow t)%nat -> j <> i -> Z.sgn (cf t' j c) = Z.sgn (cf t j c) * Z.sgn (cf t i c).
Proof.
  intros Hj N. unfold cf, ent, t'. rewrite (ps_row t i c A Hi') by exact Hj. rewrite (proj2 (Nat.eqb_neq j i) N).
  pose proof st_wi. apply (other_sgn_k (2 + c)); [assumption|apply (a_den _ A i Hi')|exact Hp|rewrite !(a_wid _ A) by assumption; reflexivity|apply (a_den _ A j Hj)].
Qed.
Lemma st_sample ex :
  (Some u <> ex -> v_nonneg (t_info t u) = true -> 0 <= - Z.sgn (cf t i c) * cst t i) ->
  (forall j, (t_red t <= j < nrow t)%nat -> j <> i -> Some (rowv t j) <> ex -> v_nonneg (t_info t (rowv t j)) = true ->
     0 <= Z.sgn (cf t i c) * (cst t j * cf t i c - cf t j c * cst t i)) ->
  sample_ok ex t'.
Proof.
  intros H1 H2 j Hj Nx Nn. rewrite st_nrow in Hj. change (t_red t') with (t_red t) in Hj.
  rewrite (st_flag v_nonneg) in Nn by reflexivity. rewrite st_rowv in Nx, Nn.
  destruct (Nat.eqb_spec j i) as [->|N].
  - destruct st_cst_i as (g & G & E). specialize (H1 Nx Nn). rewrite E in H1. nia.
  - destruct (st_cst_j j) as (g & G & E); [lia|exact N|]. specialize (H2 j Hj N Nx Nn). rewrite E in H2. nia.
Qed.
(** the pivot with the search for redundant rows *)
Lemma pivot_ok : wp (pivot t i c) (fun t2 => represents int L t2 /\ evolve L t t2 /\ clean t' t2).
Proof.
  pose proof st_represents as R'. pose proof (r_core _ _ _ R') as C'. unfold pivot. fold t'. destruct (t_inundo t').
  - cbn [wp]. split; [exact R'|]. split; [exact st_evolve|]. apply clean_refl; apply C'.
  - pose proof (f_red _ (c_flg _ _ C')). eapply wp_weak; [apply sweep_ok; [apply C'|apply C'|lia|lia]|].
    intros t2 Cl. split; [eapply clean_represents; eassumption|]. split; [|exact Cl]. eapply evolve_trans; [exact st_evolve|]. apply clean_evolve; assumption.
Qed.
End Step2.

(** ** where a variable is after the search for redundant rows *)
Definition live_row (t : tab) (v : Z) (i : nat) : Prop := (t_red t <= i < nrow t)%nat /\ rowv t i = v.
Lemma live_row_at t v : arranged t -> flagged t -> valid t v -> v_row (t_info t v) = true -> v_red (t_info t v) = false -> exists i, live_row t v i.
Proof.
  intros A F V R D. destruct (v_idx (t_info t v)) as [i|] eqn:E.
  - destruct (at_row _ _ _ A V E R) as (Hi & Ev). exists i. split; [|exact Ev]. split; [|exact Hi].
    rewrite <- Ev in D. rewrite (f_rows _ F) in D by exact Hi. apply Nat.ltb_ge in D. exact D.
  - destruct (f_gone _ F v V E) as (_ & X). rewrite R in X. congruence.
Qed.
Lemma live_row_info t v i : arranged t -> flagged t -> live_row t v i -> valid t v /\ v_row (t_info t v) = true /\ v_red (t_info t v) = false /\ v_idx (t_info t v) = Some i.
Proof.
  intros A F (H & <-). destruct (a_row _ A i) as (V & I & R); [lia|]. split; [exact V|]. split; [exact R|]. split; [|exact I]. rewrite (f_rows _ F) by lia. apply Nat.ltb_ge. lia.
Qed.
Lemma live_row_of t v i : arranged t -> live_row t v i -> row_of t v = Ok i.
Proof. intros A (H & E). apply row_of_eq; [exact A|lia|exact E]. Qed.
(** a row that is not redundant is kept *)
Lemma clean_live t t' v i : arranged t -> flagged t -> clean t t' -> live_row t v i -> v_red (t_info t' v) = false ->
  exists i', live_row t' v i' /\ forall j, ent t' i' j = ent t i j.
Proof.
  intros A F (A' & F' & S & _) Lr Rd. destruct (live_row_info _ _ _ A F Lr) as (V & R & _ & I).
  destruct (s_keep _ _ S v) as (_ & _ & Er & _). pose proof (proj2 (swept_valid _ _ _ S) V) as V'.
  destruct (live_row_at t' v A' F' V') as (i' & Lr'); [congruence|exact Rd|]. exists i'. split; [exact Lr'|]. intros j.
  destruct Lr as (Hi & Ei), Lr' as (Hi' & Ei'). rewrite <- !rc_rowv by (auto; lia). rewrite Ei, Ei'. destruct (s_rc _ _ S v V R) as (_ & ->); [|reflexivity].
  destruct (a_row _ A' i') as (_ & X & _); [lia|]. rewrite Ei' in X. congruence.
Qed.
Lemma clean_not_red t t' v i c : arranged t -> flagged t -> clean t t' -> live_row t v i -> (t_dead t <= c < ncol t)%nat -> cf t i c < 0 -> v_red (t_info t' v) = false.
Proof.
  intros A F (A' & F' & S & X) Lr Hc Neg. destruct (live_row_info _ _ _ A F Lr) as (V & R & Rd & I).
  destruct (v_red (t_info t' v)) eqn:E; [|reflexivity]. destruct (X v V) as ((_ & _ & Y) & _); [left; auto|]. destruct Lr as (Hi & Ei). rewrite <- Ei in Y. rewrite rc_row in Y by (auto; lia).
  destruct (Y c Hc) as (_ & P & _); [unfold cf, ent in Neg; lia|]. unfold cf, ent in Neg. lia.
Qed.
Lemma clean_col t t' v : clean t t' -> valid t v -> v_row (t_info t v) = false -> t_info t' v = t_info t v.
Proof. intros (_ & _ & S & _) V R. apply (s_col _ _ S); assumption. Qed.

(** ** the ratio test *)
Record cand (t : tab) (skip : option nat) (sgn : Z) (c j : nat) : Prop := {
  cd_live : (t_red t <= j < nrow t)%nat;
  cd_skip : skip <> Some j;
  cd_nonneg : v_nonneg (t_info t (rowv t j)) = true;
  cd_sign : sgn * cf t j c < 0 }.
Definition before (t : tab) (sgn : Z) (c r j : nat) : Prop :=
  let d := sgn * (cst t r * cf t j c - cst t j * cf t r c) in 0 < d \/ (d = 0 /\ rowv t r <= rowv t j).
Lemma before_trans t skip sgn c a b d : cand t skip sgn c a -> cand t skip sgn c b -> cand t skip sgn c d -> before t sgn c a b -> before t sgn c b d -> before t sgn c a d.
Proof.
  intros [_ _ _ A] [_ _ _ B] [_ _ _ D]. unfold before. cbn zeta.
  set (x := - (sgn * cf t a c)). set (y := - (sgn * cf t b c)). set (z := - (sgn * cf t d c)).
  replace (sgn * (cst t a * cf t b c - cst t b * cf t a c)) with (cst t b * x - cst t a * y) by (unfold x, y; ring).
  replace (sgn * (cst t b * cf t d c - cst t d * cf t b c)) with (cst t d * y - cst t b * z) by (unfold z, y; ring).
  replace (sgn * (cst t a * cf t d c - cst t d * cf t a c)) with (cst t d * x - cst t a * z) by (unfold x, z; ring).
  assert (X : 0 < x) by (unfold x; lia). assert (Y : 0 < y) by (unfold y; lia). assert (Z : 0 < z) by (unfold z; lia). clearbody x y z.
  assert (E : y * (cst t d * x - cst t a * z) = x * (cst t d * y - cst t b * z) + z * (cst t b * x - cst t a * y)) by ring.
  intros [P|(P & P')] [Q|(Q & Q')].
  - left. nia.
  - left. nia.
  - left. nia.
  - right. rewrite P, Q in E. split; [nia|lia].
Qed.
Lemma sgn_lt0 s x : s * Z.sgn x < 0 <-> s * x < 0.
Proof. destruct x; cbn; nia. Qed.
Lemma pivot_row_loop_ok t skip sgn c : Z.abs sgn = 1 -> forall js r, (forall j, List.In j js -> (t_red t <= j < nrow t)%nat) ->
  match r with Some r0 => cand t skip sgn c r0 | None => True end ->
  match pivot_row_loop t skip sgn c js r with
  | None => r = None /\ forall j, List.In j js -> ~ cand t skip sgn c j
  | Some r' => cand t skip sgn c r' /\ match r with Some r0 => before t sgn c r' r0 | None => True end /\
    forall j, List.In j js -> cand t skip sgn c j -> before t sgn c r' j
  end.
Proof.
  intros Hs. induction js as [|j js IH]; intros r Hj Hr.
  - cbn. destruct r as [r0|]; [|split; [reflexivity|intros j []]]. split; [exact Hr|]. split; [right; split; [ring|lia]|intros j []].
  - cbn [pivot_row_loop]. assert (Hj' : forall k, List.In k js -> (t_red t <= k < nrow t)%nat) by (intros k Hk; apply Hj; right; exact Hk).
    assert (Skip : ~ cand t skip sgn c j -> match pivot_row_loop t skip sgn c js r with
      | None => r = None /\ forall k, List.In k (j :: js) -> ~ cand t skip sgn c k
      | Some r' => cand t skip sgn c r' /\ match r with Some r0 => before t sgn c r' r0 | None => True end /\ forall k, List.In k (j :: js) -> cand t skip sgn c k -> before t sgn c r' k end).
    { intros N. specialize (IH r Hj' Hr). destruct (pivot_row_loop t skip sgn c js r) as [r'|].
      - destruct IH as (I1 & I2 & I3). split; [exact I1|]. split; [exact I2|]. intros k [<-|Hk] Ck; [contradiction|auto].
      - destruct IH as (I1 & I2). split; [exact I1|]. intros k [<-|Hk]; [exact N|auto]. }
    destruct (match skip with Some i => Nat.eqb j i | None => false end) eqn:Sk.
    { apply Skip. intros [_ Q _ _]. apply Q. destruct skip as [s|]; [|discriminate]. apply Nat.eqb_eq in Sk. congruence. }
    destruct (v_nonneg (t_info t (rowv t j))) eqn:Nn; cbn [negb]; [|apply Skip; intros [_ _ Q _]; congruence].
    destruct (Z.leb_spec 0 (sgn * Z.sgn (cf t j c))) as [Sg|Sg]; [apply Skip; intros [_ _ _ Q]; apply sgn_lt0 in Q; lia|].
    assert (Cj : cand t skip sgn c j).
    { constructor; auto; [apply Hj; left; reflexivity| |apply sgn_lt0; exact Sg]. destruct skip as [s|]; [|discriminate]. apply Nat.eqb_neq in Sk. congruence. }
    assert (Take : match r with Some r0 => before t sgn c j r0 | None => True end -> match pivot_row_loop t skip sgn c js (Some j) with
      | None => r = None /\ forall k, List.In k (j :: js) -> ~ cand t skip sgn c k
      | Some r' => cand t skip sgn c r' /\ match r with Some r0 => before t sgn c r' r0 | None => True end /\ forall k, List.In k (j :: js) -> cand t skip sgn c k -> before t sgn c r' k end).
    { intros B. specialize (IH (Some j) Hj' Cj). destruct (pivot_row_loop t skip sgn c js (Some j)) as [r'|].
      - destruct IH as (I1 & I2 & I3). split; [exact I1|]. split; [destruct r as [r0|]; [|exact I]; eapply before_trans; [exact I1|exact Cj|exact Hr|exact I2|exact B]|].
        intros k [<-|Hk] Ck; [exact I2|auto].
      - destruct IH as (I1 & _). discriminate. }
    destruct r as [r0|]; [|apply Take; exact I].
    set (tsgn := sgn * row_cmp t r0 j c). set (X := cst t r0 * cf t j c - cst t j * cf t r0 c). assert (Et : tsgn = sgn * Z.sgn X) by reflexivity.
    destruct ((tsgn <? 0) || ((tsgn =? 0) && (rowv t j <? rowv t r0))) eqn:B.
    + apply Take. unfold before. cbn zeta. replace (sgn * (cst t j * cf t r0 c - cst t r0 * cf t j c)) with (- (sgn * X)) by (unfold X; ring).
      apply orb_prop in B. destruct B as [B|B].
      * left. apply Z.ltb_lt in B. rewrite Et in B. apply sgn_lt0 in B. lia.
      * right. apply andb_prop in B. destruct B as (B1 & B2). apply Z.eqb_eq in B1. rewrite Et in B1. assert (Z.sgn X = 0) by nia. apply (proj1 (Z.sgn_null_iff _)) in H. rewrite H. split; [ring|lia].
    + apply orb_false_elim in B. destruct B as (B1 & B2). apply Z.ltb_ge in B1.
      assert (Br : before t sgn c r0 j).
      { unfold before. cbn zeta. fold X. destruct (Z.eqb_spec tsgn 0) as [E|E].
        - right. rewrite Et in E. assert (Z.sgn X = 0) by nia. apply (proj1 (Z.sgn_null_iff _)) in H. rewrite H. cbn in B2. split; [ring|lia].
        - left. rewrite Et in *. destruct X; cbn in *; nia. }
      specialize (IH (Some r0) Hj' Hr). destruct (pivot_row_loop t skip sgn c js (Some r0)) as [r'|].
      * destruct IH as (I1 & I2 & I3). split; [exact I1|]. split; [exact I2|]. intros k [<-|Hk] Ck; [|auto]. eapply before_trans; [exact I1|exact Hr|exact Cj|exact I2|exact Br].
      * destruct IH as (I1 & _). discriminate.
Qed.
Lemma pivot_row_ok t skip sgn c : Z.abs sgn = 1 ->
  match pivot_row t skip sgn c with
  | None => forall j, ~ cand t skip sgn c j
  | Some r => cand t skip sgn c r /\ forall j, cand t skip sgn c j -> before t sgn c r j
  end.
Proof.
  intros Hs. pose proof (pivot_row_loop_ok t skip sgn c Hs (live_rows t) None) as H. unfold pivot_row.
  assert (P : forall j, List.In j (live_rows t) -> (t_red t <= j < nrow t)%nat) by (intros j Hj; apply in_live_rows in Hj; lia).
  specialize (H P I). destruct (pivot_row_loop t skip sgn c (live_rows t) None) as [r|].
  - destruct H as (H1 & _ & H3). split; [exact H1|]. intros j Cj. apply H3; [|exact Cj]. apply in_live_rows. destruct Cj as [Hj _ _ _]. lia.
  - destruct H as (_ & H). intros j Cj. apply (H j); [|exact Cj]. apply in_live_rows. destruct Cj as [Hj _ _ _]. lia.
Qed.
Definition col_usable (t : tab) (i : nat) (sgn : Z) (c : nat) : Prop := cf t i c <> 0 /\ (Z.sgn (cf t i c) = sgn \/ v_nonneg (t_info t (colv t c)) = false).
Lemma pivot_col_loop_ok t i sgn : forall js c, match c with Some c0 => col_usable t i sgn c0 | None => True end ->
  match pivot_col_loop t i sgn js c with
  | None => c = None /\ forall j, List.In j js -> cf t i j <> 0 -> Z.sgn (cf t i j) <> sgn /\ v_nonneg (t_info t (colv t j)) = true
  | Some c' => col_usable t i sgn c' /\ (c = Some c' \/ List.In c' js)
  end.
Proof.
  induction js as [|j js IH]; intros c Hc.
  - cbn. destruct c as [c0|]; [auto|]. split; [reflexivity|intros j []].
  - cbn [pivot_col_loop].
    assert (Skip : (cf t i j <> 0 -> Z.sgn (cf t i j) <> sgn /\ v_nonneg (t_info t (colv t j)) = true) -> match pivot_col_loop t i sgn js c with
      | None => c = None /\ forall k, List.In k (j :: js) -> cf t i k <> 0 -> Z.sgn (cf t i k) <> sgn /\ v_nonneg (t_info t (colv t k)) = true
      | Some c' => col_usable t i sgn c' /\ (c = Some c' \/ List.In c' (j :: js)) end).
    { intros N. specialize (IH c Hc). destruct (pivot_col_loop t i sgn js c) as [c'|].
      - destruct IH as (I1 & [I2|I2]); (split; [exact I1|]); [left; exact I2|right; right; exact I2].
      - destruct IH as (I1 & I2). split; [exact I1|]. intros k [<-|Hk]; [exact N|auto]. }
    assert (Take : col_usable t i sgn j -> match pivot_col_loop t i sgn js (Some j) with
      | None => c = None /\ forall k, List.In k (j :: js) -> cf t i k <> 0 -> Z.sgn (cf t i k) <> sgn /\ v_nonneg (t_info t (colv t k)) = true
      | Some c' => col_usable t i sgn c' /\ (c = Some c' \/ List.In c' (j :: js)) end).
    { intros U. specialize (IH (Some j) U). destruct (pivot_col_loop t i sgn js (Some j)) as [c'|].
      - destruct IH as (I1 & [I2|I2]); (split; [exact I1|]); [injection I2 as <-; right; left; reflexivity|right; right; exact I2].
      - destruct IH as (I1 & _). discriminate. }
    destruct (Z.eqb_spec (cf t i j) 0) as [E|E]; [apply Skip; contradiction|].
    destruct (negb (Z.sgn (cf t i j) =? sgn) && v_nonneg (t_info t (colv t j))) eqn:B.
    + apply Skip. intros _. apply andb_prop in B. destruct B as (B1 & B2). split; [|exact B2]. apply negb_true_iff in B1. apply Z.eqb_neq in B1. exact B1.
    + assert (U : col_usable t i sgn j). { split; [exact E|]. destruct (Z.eqb_spec (Z.sgn (cf t i j)) sgn); [left; assumption|right; exact B]. }
      destruct c as [c0|]; [|apply Take; exact U]. destruct (colv t j <? colv t c0); [apply Take; exact U|].
      specialize (IH (Some c0) Hc). destruct (pivot_col_loop t i sgn js (Some c0)) as [c'|].
      * destruct IH as (I1 & [I2|I2]); (split; [exact I1|]); [left; exact I2|right; right; exact I2].
      * destruct IH as (I1 & _). discriminate.
Qed.
Definition found (t : tab) (i : nat) (skip : bool) (sgn : Z) (o : option (nat * nat)) : Prop :=
  match o with
  | None => forall c, (t_dead t <= c < ncol t)%nat -> cf t i c <> 0 -> Z.sgn (cf t i c) <> sgn /\ v_nonneg (t_info t (colv t c)) = true
  | Some (r, c) => (t_dead t <= c < ncol t)%nat /\ col_usable t i sgn c /\
    let dir := sgn * Z.sgn (cf t i c) in let sk := if skip then Some i else None in
    (r = i /\ (forall j, ~ cand t sk dir c j)) \/ (cand t sk dir c r /\ forall j, cand t sk dir c j -> before t dir c r j)
  end.
Lemma find_pivot_ok t v skip sgn i : arranged t -> flagged t -> Z.abs sgn = 1 -> live_row t v i -> exists o, find_pivot t v skip sgn = Ok o /\ found t i skip sgn o.
Proof.
  intros A F Hs Lr. destruct (live_row_info _ _ _ A F Lr) as (_ & R & _). unfold find_pivot. rewrite R. cbn [negb]. rewrite (live_row_of _ _ _ A Lr). cbn [bind].
  pose proof (pivot_col_loop_ok t i sgn (live_cols t) None I) as H. pose proof (f_dead _ F) as Fd. destruct (pivot_col_loop t i sgn (live_cols t) None) as [c|].
  - destruct H as (U & [X|Hc]); [discriminate|]. apply in_live_cols in Hc. set (dir := sgn * Z.sgn (cf t i c)).
    assert (Hd : Z.abs dir = 1) by (unfold dir; destruct U as (U & _); destruct (cf t i c); cbn; lia).
    pose proof (pivot_row_ok t (if skip then Some i else None) dir c Hd) as P. destruct (pivot_row t (if skip then Some i else None) dir c) as [r|].
    + eexists. split; [reflexivity|]. split; [lia|]. split; [exact U|]. right. exact P.
    + eexists. split; [reflexivity|]. split; [lia|]. split; [exact U|]. left. split; [reflexivity|exact P].
  - eexists. split; [reflexivity|]. destruct H as (_ & H). intros c Hc. apply H. apply in_live_cols. lia.
Qed.
