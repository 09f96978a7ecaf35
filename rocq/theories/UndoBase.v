(** Tableaus that only differ by pivots. *)
From Coq Require Import ZArith List Bool Arith Lia.
From Verif Require Import SeqModel SeqSpec MatModel TabModel TabSpec TabBase TabStruct TabMark TabPivot TabStep TabSign TabAdd TabCut LpModel UndoSpec.
Import ListNotations.
Open Scope Z_scope.

Lemma fl_eq x y : flags x = flags y -> v_nonneg x = v_nonneg y /\ v_zero x = v_zero y /\ v_red x = v_red y /\ v_frozen x = v_frozen y.
Proof. unfold flags. intros E. injection E as E1 E2 E3 E4. auto. Qed.
Lemma al_valid h t v : alike h t -> (valid t v <-> valid h v).
Proof. intros E. unfold valid. rewrite (al_nvar _ _ E), (al_ncon _ _ E). reflexivity. Qed.
Lemma alike_refl t : alike t t.
Proof. constructor; auto; intros; reflexivity. Qed.
Lemma alike_trans a b c : alike a b -> alike b c -> alike a c.
Proof.
  intros E F. assert (V : forall v, valid a v -> valid b v) by (intros v; apply (al_valid a b v E)). constructor.
  1-8: etransitivity; [apply F|apply E].
  - intros v Vv. rewrite (al_flag _ _ F v (V v Vv)). apply E, Vv.
  - intros v Vv. rewrite (al_gone _ _ F v (V v Vv)). apply E, Vv.
  - intros v Vv H. rewrite (al_zrow _ _ F v (V v Vv)); [apply E; assumption|]. destruct H as [H|H]; [left|right].
    + destruct (fl_eq _ _ (al_flag _ _ E v Vv)) as (_ & -> & _). exact H.
    + apply (al_gone _ _ E v Vv). exact H.
  - intros j Hj. rewrite (al_rows _ _ F) by (rewrite (al_red _ _ E); exact Hj). apply E, Hj.
  - intros j Hj. rewrite (al_cols _ _ F) by (rewrite (al_dead _ _ E); exact Hj). apply E, Hj.
Qed.
Lemma alike_sym a b : alike a b -> alike b a.
Proof.
  intros E. pose proof (fun v => proj1 (al_valid a b v E)) as V. constructor.
  1-8: symmetry; apply E.
  - intros v Vv. symmetry. apply E, V, Vv.
  - intros v Vv. symmetry. apply (al_gone _ _ E v (V v Vv)).
  - intros v Vv H. symmetry. apply (al_zrow _ _ E v (V v Vv)). destruct H as [H|H]; [left|right].
    + destruct (fl_eq _ _ (al_flag _ _ E v (V v Vv))) as (_ & <- & _). exact H.
    + apply (al_gone _ _ E v (V v Vv)). exact H.
  - intros j Hj. symmetry. apply E. rewrite <- (al_red _ _ E). exact Hj.
  - intros j Hj. symmetry. apply E. rewrite <- (al_dead _ _ E). exact Hj.
Qed.

(** [flagged] without the clause on variables *)
Record posed (t : tab) : Prop := {
  p_dead : (t_dead t <= ncol t)%nat;
  p_red : (t_red t <= nrow t)%nat;
  p_rows : forall i, (i < nrow t)%nat -> v_red (t_info t (rowv t i)) = Nat.ltb i (t_red t);
  p_cols : forall c, (c < ncol t)%nat -> v_zero (t_info t (colv t c)) = Nat.ltb c (t_dead t) /\ v_red (t_info t (colv t c)) = false;
  p_gone : forall v, valid t v -> v_idx (t_info t v) = None ->
    v < 0 /\ if v_row (t_info t v) then v_red (t_info t v) = true else v_zero (t_info t v) = true /\ v_red (t_info t v) = false }.
Lemma flagged_posed t : flagged t -> posed t.
Proof. intros [F1 F2 F3 F4 F5 F6]. constructor; assumption. Qed.
Definition varflag (t : tab) : Prop := forall v, valid t v -> 0 <= v -> v_zero (t_info t v) = false /\ (v_nonneg (t_info t v) = true -> v_red (t_info t v) = true).
Lemma posed_flagged t : posed t -> varflag t -> flagged t.
Proof. intros [F1 F2 F3 F4 F5] F6. constructor; assumption. Qed.
Lemma alike_posed h t : arranged h -> arranged t -> posed h -> alike h t -> posed t.
Proof.
  intros A B P E. pose proof (fun v => al_valid h t v E) as V. constructor.
  - rewrite (al_dead _ _ E), (al_ncol _ _ E). apply P.
  - rewrite (al_red _ _ E), (al_nrow _ _ E). apply P.
  - intros i Hi. destruct (a_row _ B i Hi) as (Vi & Ix & Rw). pose proof (proj1 (V _) Vi) as Vh. destruct (fl_eq _ _ (al_flag _ _ E _ Vh)) as (_ & _ & -> & _). rewrite (al_red _ _ E). rewrite (al_nrow _ _ E) in Hi.
    destruct (Nat.ltb_spec i (t_red h)) as [Lt|Ge].
    + rewrite (al_rows _ _ E i Lt). rewrite (p_rows _ P i) by exact Hi. apply Nat.ltb_lt. exact Lt.
    + destruct (v_red (t_info h (rowv t i))) eqn:Q; [|reflexivity]. exfalso. destruct (v_idx (t_info h (rowv t i))) as [k|] eqn:Ek.
      * destruct (v_row (t_info h (rowv t i))) eqn:Rk.
        -- destruct (at_row _ _ _ A Vh Ek Rk) as (Hk & Er). rewrite <- Er, (p_rows _ P k Hk) in Q. apply Nat.ltb_lt in Q. pose proof (al_rows _ _ E k Q) as X. rewrite Er in X. apply (rowv_inj t) in X; [lia|exact B|rewrite (al_nrow _ _ E); exact Hk|rewrite (al_nrow _ _ E); exact Hi].
        -- destruct (at_col _ _ _ A Vh Ek Rk) as (Hk & Er). destruct (p_cols _ P k Hk) as (_ & X). rewrite Er in X. congruence.
      * apply (al_gone _ _ E _ Vh) in Ek. congruence.
  - intros c Hc. destruct (a_col _ B c Hc) as (Vi & Ix & Rw). pose proof (proj1 (V _) Vi) as Vh. destruct (fl_eq _ _ (al_flag _ _ E _ Vh)) as (_ & -> & -> & _). rewrite (al_dead _ _ E). pose proof Hc as Hc'. rewrite (al_ncol _ _ E) in Hc.
    destruct (Nat.ltb_spec c (t_dead h)) as [Lt|Ge].
    + rewrite (al_cols _ _ E c Lt). destruct (p_cols _ P c Hc) as (-> & ->). split; [apply Nat.ltb_lt; exact Lt|reflexivity].
    + destruct (v_idx (t_info h (colv t c))) as [k|] eqn:Ek; [|apply (al_gone _ _ E _ Vh) in Ek; congruence]. split.
      * destruct (v_zero (t_info h (colv t c))) eqn:Q; [|reflexivity]. exfalso. pose proof (al_zrow _ _ E _ Vh (or_introl Q)) as Zr. rewrite Rw in Zr. symmetry in Zr.
        destruct (at_col _ _ _ A Vh Ek Zr) as (Hk & Er). destruct (p_cols _ P k Hk) as (X & _). rewrite Er, Q in X. symmetry in X. apply Nat.ltb_lt in X. pose proof (al_cols _ _ E k X) as Y. rewrite Er in Y. apply (colv_inj t) in Y; [lia|exact B|rewrite (al_ncol _ _ E); exact Hk|exact Hc'].
      * destruct (v_red (t_info h (colv t c))) eqn:Q; [|reflexivity]. exfalso. destruct (v_row (t_info h (colv t c))) eqn:Rk.
        -- destruct (at_row _ _ _ A Vh Ek Rk) as (Hk & Er). rewrite <- Er, (p_rows _ P k Hk) in Q. apply Nat.ltb_lt in Q. pose proof (al_rows _ _ E k Q) as X. rewrite Er in X. revert X. apply row_col; [exact B|rewrite (al_nrow _ _ E); exact Hk|exact Hc'].
        -- destruct (at_col _ _ _ A Vh Ek Rk) as (Hk & Er). destruct (p_cols _ P k Hk) as (_ & X). rewrite Er in X. congruence.
  - intros v Vv N. pose proof (proj1 (V _) Vv) as Vh. apply (al_gone _ _ E v Vh) in N. destruct (p_gone _ P v Vh N) as (Ng & X). split; [exact Ng|]. destruct (fl_eq _ _ (al_flag _ _ E _ Vh)) as (_ & -> & -> & _). rewrite (al_zrow _ _ E v Vh (or_intror N)). exact X.
Qed.
Lemma alike_varflag h t : varflag h -> alike h t -> varflag t.
Proof. intros H E v Vv P. apply (al_valid h t v E) in Vv. destruct (fl_eq _ _ (al_flag _ _ E _ Vv)) as (-> & -> & -> & _). apply H; assumption. Qed.
(** the constraints that are zero follow from the dead columns *)
Definition rz (L : list (list Z)) (t : tab) : Prop :=
  forall p, length p = (1 + t_nvar t)%nat -> (forall v, valid t v -> v_zero (t_info t v) = true -> v_row (t_info t v) = false -> value L p v = 0) ->
    forall v, valid t v -> v_zero (t_info t v) = true -> value L p v = 0.
Lemma alike_rz L h t : rz L h -> alike h t -> rz L t.
Proof.
  intros H E p Lp Hz v Vv Zv. rewrite (al_nvar _ _ E) in Lp. apply (al_valid h t v E) in Vv. destruct (fl_eq _ _ (al_flag _ _ E _ Vv)) as (_ & X & _). rewrite X in Zv. apply (H p Lp); [|exact Vv|exact Zv].
  intros u Vu Zu Ru. apply Hz; [apply (al_valid h t u E); exact Vu| |].
  - destruct (fl_eq _ _ (al_flag _ _ E _ Vu)) as (_ & -> & _). exact Zu.
  - rewrite (al_zrow _ _ E u Vu (or_introl Zu)). exact Ru.
Qed.
Lemma alike_feasx ex L h t p : alike h t -> (feasx ex L t p <-> feasx ex L h p).
Proof.
  intros E. unfold feasx. rewrite (al_nvar _ _ E). split; intros (Lp & H); (split; [exact Lp|]); intros v Vv.
  - destruct (fl_eq _ _ (al_flag _ _ E _ Vv)) as (<- & <- & <- & _). apply H, (al_valid h t v E), Vv.
  - apply (al_valid h t v E) in Vv. destruct (fl_eq _ _ (al_flag _ _ E _ Vv)) as (-> & -> & -> & _). apply H, Vv.
Qed.
Lemma feasx_feas L t p : feasx None L t p <-> feas L t p.
Proof. unfold feasx, feas. split; intros (Lp & H); (split; [exact Lp|]); intros v Vv; destruct (H v Vv) as (H1 & H2); (split; [exact H1|]); intros; apply H2; auto; discriminate. Qed.
Lemma alike_implied ex L h t v : implied ex L h v -> alike h t -> implied ex L t v.
Proof. intros H E p Hp Fe. apply (H p Hp). apply (alike_feasx ex L h t p E). exact Fe. Qed.
(** a tableau that represents the constraints, after pivots *)
Lemma alike_represents L h t : represents false L h -> alike h t -> arranged t -> related L t -> independent L t -> represents false L t.
Proof.
  intros R E A Re In. pose proof (r_core _ _ _ R) as C. pose proof (c_arr _ _ C) as Ah. constructor.
  - constructor; auto.
    + apply posed_flagged; [apply (alike_posed h); auto; apply flagged_posed, C|apply (alike_varflag h); [exact (f_var _ (c_flg _ _ C))|exact E]].
    + rewrite (al_ncon _ _ E). apply C.
    + rewrite (al_nvar _ _ E). apply C.
  - apply (alike_rz L h); auto. exact (r_zero _ _ _ R).
  - intros p Ad Fe v Vv Nn. apply (al_valid h t v E) in Vv. destruct (fl_eq _ _ (al_flag _ _ E _ Vv)) as (X & _). rewrite X in Nn. apply (r_imp _ _ _ R p Ad); auto. apply feasx_feas, (alike_feasx None L h t p E), feasx_feas, Fe.
Qed.
Lemma alike_step L t i c : represents false L t -> (t_red t <= i < nrow t)%nat -> (t_dead t <= c < ncol t)%nat -> cf t i c <> 0 -> alike t (pivot_step t i c).
Proof.
  intros R Hi Hc Nz. pose proof (c_arr _ _ (r_core _ _ _ R)) as A. destruct (st_v false L t i c R Hi Hc Nz) as (Zv & _). destruct (st_u false L t i c R Hi Hc) as (Zu & _).
  destruct (a_row _ A i) as (_ & Ixv & _); [lia|]. destruct (a_col _ A c) as (_ & Ixu & _); [lia|].
  constructor; try reflexivity.
  - apply ps_nrow.
  - apply ps_ncol.
  - intros v _. apply ps_flag; try lia; auto.
  - intros v _. rewrite ps_info by (assumption || lia). destruct (Z.eqb_spec v (rowv t i)) as [->|]; [cbn [vs_idx v_idx]; rewrite Ixv; split; discriminate|]. destruct (Z.eqb_spec v (colv t c)) as [->|]; [cbn [vs_idx v_idx]; rewrite Ixu; split; discriminate|reflexivity].
  - intros v _ H. rewrite ps_info by (assumption || lia). destruct (Z.eqb_spec v (rowv t i)) as [->|]; [destruct H; congruence|]. destruct (Z.eqb_spec v (colv t c)) as [->|]; [destruct H; congruence|reflexivity].
  - intros j Hj. rewrite (ps_rowv t i c) by lia. rewrite (proj2 (Nat.eqb_neq j i)) by lia. reflexivity.
  - intros j Hj. rewrite (ps_colv t i c) by lia. rewrite (proj2 (Nat.eqb_neq j c)) by lia. reflexivity.
Qed.
(** the sample point *)
Lemma dot_zeros : forall a n, dot a (repeat 0 n) = 0.
Proof. induction a as [|x a IH]; intros [|n]; cbn [dot repeat]; try reflexivity. rewrite IH. ring. Qed.
Lemma sample_px ex L t : arranged t -> related L t -> independent L t -> posed t -> rz L t -> sample_ok ex t ->
  exists k p, 0 < k /\ hd 0 p = k /\ feasx ex L t p /\ (forall i, (i < nrow t)%nat -> den t i * value L p (rowv t i) = k * cst t i).
Proof.
  intros A Re In P Z0 D. destruct (In 1 (fun _ => 0)) as (k & p & K & Lp & Hh & Cv & G). exists k, p. split; [exact K|]. split; [lia|].
  assert (Rw : forall i, (i < nrow t)%nat -> den t i * value L p (rowv t i) = k * cst t i).
  { intros i Hi. rewrite (row_expand L t p i A Re Lp G Hi). assert (E : dot (skipn 2 (nth i (t_rows t) [])) (map (value L p) (t_cv t)) = 0).
    { replace (map (value L p) (t_cv t)) with (repeat 0 (length (t_cv t))); [apply dot_zeros|]. apply (nth_ext _ _ 0 0); [rewrite repeat_length, map_length; reflexivity|]. intros c Hc. rewrite repeat_length in Hc. rewrite nth_repeat, nth_vals by exact Hc. rewrite Cv by exact Hc. ring. }
    rewrite E, Hh. ring. }
  split; [|exact Rw]. split; [exact Lp|]. intros v V. split.
  - intros Zv. apply (Z0 p Lp); auto. intros u Vu Zu Ru. destruct (v_idx (t_info t u)) as [c|] eqn:Ix; [|apply G; [exact Vu|split; assumption]].
    destruct (at_col _ _ _ A Vu Ix Ru) as (Hc & <-). rewrite Cv by exact Hc. ring.
  - intros Nn Rd Nx. destruct (v_idx (t_info t v)) as [c|] eqn:Ix.
    + destruct (v_row (t_info t v)) eqn:Rv.
      * destruct (at_row _ _ _ A V Ix Rv) as (Hc & Er). assert (Hr : (t_red t <= c)%nat). { pose proof (p_rows _ P c Hc) as X. rewrite Er, Rd in X. symmetry in X. apply Nat.ltb_ge in X. exact X. }
        assert (0 <= cst t c) by (apply D; [lia|rewrite Er; exact Nx|rewrite Er; exact Nn]). specialize (Rw c Hc). rewrite Er in Rw. pose proof (a_den _ A c Hc). nia.
      * destruct (at_col _ _ _ A V Ix Rv) as (Hc & <-). rewrite Cv by exact Hc. lia.
    + destruct (p_gone _ P v V Ix) as (_ & X). destruct (v_row (t_info t v)) eqn:Rv; [congruence|]. rewrite G; [lia|exact V|split; assumption].
Qed.
