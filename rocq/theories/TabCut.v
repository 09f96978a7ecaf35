(** Setting flags, dropping the last constraint and cutting to a hyperplane. *)
From Coq Require Import ZArith List Bool Arith Lia.
From Verif Require Import SeqModel SeqSpec SeqProofs MatModel BMapModel BMapLists BMapGauss2 BElimSpec BElimFM TabModel TabSpec TabBase TabStruct TabMark TabPivot TabStep TabSign TabMin TabKill TabAdd TabClose.
Import ListNotations.
Open Scope Z_scope.

Lemma live_of t v : arranged t -> flagged t -> valid t v -> v_red (t_info t v) = false -> v_zero (t_info t v) = false -> live t v.
Proof.
  intros A F V Rd Z0. destruct (v_row (t_info t v)) eqn:Rw; [left; apply live_row_at; assumption|right].
  destruct (v_idx (t_info t v)) as [c|] eqn:Ix; [|destruct (f_gone _ F v V Ix) as (_ & X); rewrite Rw in X; destruct X; congruence].
  destruct (at_col t v c A V Ix Rw) as (Hc & Ec). exists c. split; [|exact Ec]. split; [|exact Hc]. destruct (f_cols _ F c Hc) as (X & _). rewrite Ec, Z0 in X. symmetry in X. apply Nat.ltb_ge in X. exact X.
Qed.
(** ** making a constraint non-negative *)
Section SetNonneg.
Variables (int : bool) (L : list (list Z)) (t : tab) (v : Z).
Hypothesis R : represents int L t.
Hypothesis V : valid t v.
Hypothesis Ng : v < 0.
Hypothesis Rd : v_red (t_info t v) = false.
Let t' := upd t v (vs_nonneg true).
Lemma sn_info u : t_info t' u = if u =? v then vs_nonneg true (t_info t u) else t_info t u.
Proof. cbn. destruct (Z.eqb_spec u v) as [->|]; reflexivity. Qed.
Lemma sn_flag {X} (f : tvar -> X) u : (forall x, f (vs_nonneg true x) = f x) -> f (t_info t' u) = f (t_info t u).
Proof. intros H. rewrite sn_info. destruct (u =? v); auto. Qed.
Lemma sn_shape : shape t t'. Proof. apply shape_upd. intros; split; reflexivity. Qed.
Lemma sn_core : core L t'.
Proof.
  pose proof (r_core _ _ _ R) as C. pose proof (c_flg _ _ C) as F.
  constructor; [apply (arranged_shape _ _ sn_shape), C| |apply C|apply C|apply (related_shape _ _ sn_shape), C|apply (independent_shape _ _ sn_shape), C].
  constructor; try apply F.
  - intros i Hi. rewrite (sn_flag v_red) by reflexivity. apply (f_rows _ F i Hi).
  - intros c Hc. rewrite (sn_flag v_red), (sn_flag v_zero) by reflexivity. apply (f_cols _ F c Hc).
  - intros u Vu Iu. rewrite (sn_flag v_idx) in Iu by reflexivity. rewrite (sn_flag v_red), (sn_flag v_zero), (sn_flag v_row) by reflexivity. apply (f_gone _ F u Vu Iu).
  - intros u Vu Pu. rewrite sn_info. rewrite (proj2 (Z.eqb_neq _ _)) by lia. apply (f_var _ F u Vu Pu).
Qed.
Lemma sn_feas p : feas L t' p <-> feas L t p /\ 0 <= value L p v.
Proof.
  split.
  - intros (Lp & H). split; [split; [exact Lp|]; intros u Vu|].
    + destruct (H u Vu) as (H1 & H2). rewrite (sn_flag v_zero) in H1 by reflexivity. rewrite (sn_flag v_red) in H2 by reflexivity. split; [exact H1|]. intros N1 N2. apply H2; [|exact N2]. rewrite sn_info. destruct (u =? v); [reflexivity|exact N1].
    + apply (H v V); [rewrite sn_info, Z.eqb_refl; reflexivity|rewrite (sn_flag v_red) by reflexivity; exact Rd].
  - intros ((Lp & H) & Pv). split; [exact Lp|]. intros u Vu. destruct (H u Vu) as (H1 & H2). rewrite (sn_flag v_zero), (sn_flag v_red) by reflexivity. split; [exact H1|].
    rewrite sn_info. destruct (Z.eqb_spec u v) as [->|]; [intros _ _; exact Pv|exact H2].
Qed.
Lemma sn_represents : represents int L t'.
Proof.
  constructor; [exact sn_core| |].
  - intros p Lp H u Vu Zu. rewrite (sn_flag v_zero) in Zu by reflexivity. apply (r_zero _ _ _ R p Lp); [|exact Vu|exact Zu]. intros x Vx Zx Rx. apply H; [exact Vx|rewrite (sn_flag v_zero) by reflexivity; exact Zx|rewrite (sn_flag v_row) by reflexivity; exact Rx].
  - intros p Ad Fe u Vu Nu. apply sn_feas in Fe. destruct Fe as (Fe & Pv). rewrite sn_info in Nu. destruct (Z.eqb_spec u v) as [->|]; [exact Pv|]. apply (r_imp _ _ _ R p Ad Fe u Vu Nu).
Qed.
Lemma sn_live u i : live_row t' u i <-> live_row t u i. Proof. reflexivity. Qed.
Lemma sn_max i : at_max t i -> at_max t' i.
Proof. intros M c Hc Nz. destruct (M c Hc Nz) as (P & Q). split; [exact P|]. rewrite sn_info. change (colv t' c) with (colv t c). destruct (colv t c =? v); [reflexivity|exact Q]. Qed.
Lemma sn_sample_ex : sample_ok None t -> sample_ok (Some v) t'.
Proof.
  intros D i Hi Nx Nn. apply D; [exact Hi|discriminate|]. rewrite sn_info in Nn. change (rowv t' i) with (rowv t i) in *. destruct (Z.eqb_spec (rowv t i) v) as [E|]; [congruence|exact Nn].
Qed.
End SetNonneg.

(** ** dropping the last constraint *)
Lemma drop_represents int L l t i : core (L ++ [l]) t -> (t_red t <= i < nrow t)%nat -> rowv t i = con (t_ncon t - 1) ->
  (forall p, length p = (1 + t_nvar t)%nat -> (forall v, valid t v -> v_zero (t_info t v) = true -> v_row (t_info t v) = false -> value (L ++ [l]) p v = 0) -> forall v, valid t v -> v_zero (t_info t v) = true -> value (L ++ [l]) p v = 0) ->
  (forall p, adm int p -> feas (L ++ [l]) t p -> forall v, valid t v -> v_nonneg (t_info t v) = true -> 0 <= value (L ++ [l]) p v) ->
  v_zero (t_info t (rowv t i)) = true \/ v_nonneg (t_info t (rowv t i)) = false ->
  exists t', drop_row t i = Ok t' /\ represents int L t' /\ (forall p, feas L t' p <-> feas (L ++ [l]) t p) /\
    (forall ex, (forall k, (t_red t <= k < nrow t)%nat -> k <> i -> Some (rowv t k) <> ex -> v_nonneg (t_info t (rowv t k)) = true -> 0 <= cst t k) -> sample_ok ex t') /\
    (forall u, valid t' u -> valid t u) /\ (forall X (f : tvar -> X) u, (forall x, f (vs_idx None x) = f x) -> f (t_info t' u) = f (t_info t u)) /\
    t_ncon t' = length L /\ t_nvar t' = t_nvar t /\ t_rat t' = t_rat t /\ t_undo t' = t_undo t /\ t_cone t' = t_cone t /\ t_empty t' = t_empty t /\ t_neq t' = t_neq t.
Proof.
  intros C Hi Ew Zr Im Fw. pose proof (c_arr _ _ C) as A. pose proof (c_flg _ _ C) as F. set (w := con (t_ncon t - 1)) in *.
  pose proof (dr_row_ok t i Ew) as Dr. pose proof (dr_core L l t i C Hi Ew) as C'.
  pose proof (dr_valid L l t i C Hi) as Vd. pose proof (@dr_flag L l t i C Hi) as Fl. pose proof (dr_value L l t i C Hi) as Vl. pose proof (dr_sample L l t i C Hi Ew) as Sm. pose proof (dr_ncon L l t i C Hi) as Nc.
  pose proof (dr_src L l t i C Hi Ew) as Src. pose proof (dr_nrow t i) as Nr. pose proof (dr_ncon1 t i) as Eq.
  cbv zeta in Dr, C', Vd, Fl, Vl, Sm, Nc, Src, Nr. destruct Eq as (_ & Env & Erd & _).
  set (t1 := if Nat.eqb i (nrow t - 1) then t else swap_rows t i (nrow t - 1)) in *.
  set (t' := w_ncon (w_rows (w_rv t1 (removelast (t_rv t1))) (removelast (t_rows t1))) (t_ncon t - 1)) in *.
  exists t'. split; [exact Dr|]. fold w in Vd. change (t_red t') with (t_red t1) in *.
  assert (Rw : v_row (t_info t w) = true) by (rewrite <- Ew; apply (a_row _ A i); lia).
  assert (Fl' : forall X (f : tvar -> X) u, (forall x, f (vs_idx None x) = f x) -> f (t_info t' u) = f (t_info t u)) by exact Fl.
  assert (Nv : t_nvar t' = t_nvar t) by exact Env.
  assert (Zw : forall p, length p = (1 + t_nvar t)%nat -> (forall v, valid t' v -> v_zero (t_info t' v) = true -> v_row (t_info t' v) = false -> value L p v = 0) ->
     forall v, valid t v -> v_zero (t_info t v) = true -> v_row (t_info t v) = false -> value (L ++ [l]) p v = 0).
  { intros p Lp H v V Z0 R0. assert (V' : valid t' v) by (apply Vd; split; [exact V|intros ->; congruence]). rewrite Vl by exact V'. apply H; [exact V'|rewrite (Fl' _ v_zero) by reflexivity; exact Z0|rewrite (Fl' _ v_row) by reflexivity; exact R0]. }
  assert (Fe : forall p, feas L t' p <-> feas (L ++ [l]) t p).
  { intros p. split.
    - intros Fp. pose proof Fp as (Lp & H). rewrite Nv in Lp. pose proof (Zr p Lp (Zw p Lp (feas_zero_cols _ _ _ Fp))) as Z0. split; [exact Lp|]. intros v V. split; [apply Z0; exact V|].
      intros N1 R1. destruct (Z.eq_dec v w) as [->|Nw]; [rewrite Ew in Fw; destruct Fw as [Zv|Nn]; [rewrite Z0; [lia|exact V|exact Zv]|congruence]|].
      assert (V' : valid t' v) by (apply Vd; auto). rewrite Vl by exact V'. apply (H v V'); [rewrite (Fl' _ v_nonneg) by reflexivity; exact N1|rewrite (Fl' _ v_red) by reflexivity; exact R1].
    - intros (Lp & H). split; [rewrite Nv; exact Lp|]. intros v V'. destruct (proj1 (Vd v) V') as (V & _). destruct (H v V) as (H1 & H2). rewrite (Fl' _ v_zero), (Fl' _ v_nonneg), (Fl' _ v_red) by reflexivity. rewrite <- Vl by exact V'. auto. }
  split; [|split; [exact Fe|split; [exact Sm|split; [intros u Vu; apply Vd; exact Vu|split; [exact Fl'|split; [exact Nc|split; [exact Nv|]]]]]]].
  - constructor; [exact C'| |].
    + intros p Lp H v V' Z0. rewrite Nv in Lp. destruct (proj1 (Vd v) V') as (V & _). rewrite <- Vl by exact V'. apply (Zr p Lp (Zw p Lp H) v V). rewrite <- (Fl' _ v_zero) by reflexivity. exact Z0.
    + intros p Ad Fp v V' N1. destruct (proj1 (Vd v) V') as (V & _). rewrite <- Vl by exact V'. apply (Im p Ad); [apply Fe; exact Fp|exact V|]. rewrite <- (Fl' _ v_nonneg) by reflexivity. exact N1.
  - unfold t', t1. destruct (Nat.eqb i (nrow t - 1)); repeat split; reflexivity.
Qed.
Lemma drop_last_ok t v i : arranged t -> live_row t v i -> v = con (t_ncon t - 1) -> drop_last_con_in_row t v = drop_row t i.
Proof.
  intros A Lr ->. unfold drop_last_con_in_row. destruct (a_row _ A i) as (_ & _ & Rw); [destruct Lr; lia|]. pose proof Lr as (_ & E). rewrite E in Rw. rewrite Rw, Z.eqb_refl. cbn [negb].
  rewrite (live_row_of t _ i A Lr). reflexivity.
Qed.

(** ** cut_to_hyperplane *)
Lemma dot_unit c k x : forall n (vals : list Z), (c < n)%nat -> length vals = n -> dot (zupd (repeat 0 n) c k) vals = k * nth c vals x.
Proof. intros n vals Hc Lv. rewrite dot_comm, dot_upd by (rewrite repeat_length; exact Hc). rewrite dot_comm, dot_repeat0, nth_repeat. rewrite (nth_indep _ x 0) by lia. ring. Qed.
Lemma cut_ok j L v fuel t : represents j L t -> valid t v -> v < 0 -> v_red (t_info t v) = false -> v_zero (t_info t v) = false -> v_nonneg (t_info t v) = true -> sample_ok None t -> t_rat t = false ->
  (forall p, 0 < hd 0 p -> feas L t p -> value L p v < hd 0 p) ->
  wp (cut_to_hyperplane fuel t v) (fun t' => represents j L t' /\ step true L t t' /\ sample_ok None t').
Proof.
  intros R V Ng Rd Z0 Nn D Rt H1. pose proof (r_core _ _ _ R) as C. pose proof (c_arr _ _ C) as A. pose proof (c_flg _ _ C) as F.
  unfold cut_to_hyperplane. rewrite Z0, Rd, Nn. cbn [negb orb]. set (w := con (t_ncon t)). set (l := map Z.opp (nth (Z.to_nat (- 1 - v)) L [])).
  assert (Lv : forall p, dot l p = - value L p v) by (intros p; unfold l, value; rewrite (proj2 (Z.ltb_lt v 0)) by lia; apply dot_opp).
  assert (Ll : length l = (1 + t_nvar t)%nat). { unfold l. rewrite map_length. apply (c_wid _ _ C), nth_In. rewrite (c_len _ _ C). unfold valid in V. lia. }
  (* the new row *)
  assert (X : exists r, (if v_row (t_info t v) then do i <- row_of t v ;; Ok (den t i :: seq_neg (tl (nth i (t_rows t) [])))
             else do c <- col_of t v ;; Ok (zupd (1 :: seq_clr (1 + ncol t)) (2 + c) (-1))) = Ok r /\ length r = (2 + ncol t)%nat /\ 0 < nth 0 r 0 /\
     forall p, length p = (1 + t_nvar t)%nat -> (forall v, valid t v -> gone t v -> value L p v = 0) -> nth 0 r 0 * dot l p = dot (tl r) (hd 0 p :: map (value L p) (t_cv t))).
  { destruct (live_of t v A F V Rd Z0) as [(i & Lr)|(c & Hc & Ec)].
    - destruct (live_row_info t v i A F Lr) as (_ & -> & _). rewrite (live_row_of t v i A Lr). cbn [bind]. eexists. split; [reflexivity|]. destruct Lr as (Hi & Ei). pose proof (a_wid _ A i ltac:(lia)) as W. pose proof (a_den _ A i ltac:(lia)) as Dn.
      split; [cbn [length]; unfold seq_neg; rewrite map_length; destruct (nth i (t_rows t) []); cbn in *; lia|]. split; [exact Dn|].
      intros p Lp G. cbn [nth tl]. pose proof (c_rel _ _ C p Lp G i ltac:(lia)) as H. unfold row_holds in H. rewrite Ei in H. rewrite Lv. unfold seq_neg. rewrite dot_opp. lia.
    - destruct (a_col _ A c) as (_ & _ & Rc); [lia|]. rewrite Ec in Rc. rewrite Rc. rewrite (col_of_eq t c v A) by (auto; lia). cbn [bind]. eexists. split; [reflexivity|].
      split; [rewrite zupd_length; cbn [length]; unfold seq_clr; rewrite repeat_length; lia|]. split; [reflexivity|].
      intros p Lp G. change (zupd (1 :: seq_clr (1 + ncol t)) (2 + c) (-1)) with (1 :: zupd (repeat 0 (1 + ncol t)) (1 + c) (-1)). cbn [nth tl].
      rewrite (dot_unit _ _ 0); [|lia|cbn [length]; rewrite map_length; reflexivity]. cbn [plus nth]. rewrite nth_vals, Ec, Lv by lia. ring. }
  destruct X as (r & -> & Lr & Dr & Hr). cbn [bind].
  change (w_ncon (w_rows (w_rv (upd t w (fun _ => mkvar (Some (nrow t)) true false false false false false false)) (t_rv (upd t w (fun _ => mkvar (Some (nrow t)) true false false false false false false)) ++ [w]))
      (t_rows (upd t w (fun _ => mkvar (Some (nrow t)) true false false false false false false)) ++ [r])) (S (t_ncon (upd t w (fun _ => mkvar (Some (nrow t)) true false false false false false false))))) with (with_row t r).
  set (t1 := with_row t r). set (L' := L ++ [l]).
  pose proof (wr_represents j L t l r C Ll Lr Dr Hr R) as R1. pose proof (wr_feas L t l r C Ll Lr) as F1. pose proof (wr_sample L t l r C Ll Lr None D) as D1. pose proof (proj2 (wr_live L t l r C Ll Lr (nrow t)) eq_refl) as Lv1.
  pose proof (wr_value L t l C) as Vl. pose proof (wr_value_new L t l C) as Vw. pose proof (wr_old t l r Ll Lr) as Old. pose proof (wr_valid t l r Ll Lr) as Vd.
  fold w in Lv1, Vw, Vd. fold t1 in R1, F1, D1, Lv1, Old, Vd. fold L' in R1, F1, Vl, Vw.
  apply wp_bind. eapply wp_weak; [apply (sign_of_max_ok j L' w fuel t1 R1); [left; exists (nrow t); exact Lv1|exact D1]|].
  intros [t2 s] (R2 & E2 & D2 & Rd2 & S2).
  assert (Fp : forall p, 0 < hd 0 p -> (feas L' t2 p <-> feas L t p)) by (intros p Hp; rewrite (e_feas _ _ _ E2 p Hp); apply F1).
  assert (Vd2 : forall u, valid t2 u <-> valid t u \/ u = w) by (intros u; rewrite (evolve_valid _ _ _ _ E2); apply Vd).
  assert (Nc2 : t_ncon t2 = S (t_ncon t)) by (rewrite (e_ncon _ _ _ E2); reflexivity).
  assert (Ew : w = con (t_ncon t2 - 1)) by (rewrite Nc2; unfold w; f_equal; lia).
  assert (Kp : forall u, valid t u -> v_zero (t_info t2 u) = v_zero (t_info t u) /\ v_marked (t_info t2 u) = v_marked (t_info t u) /\ (v_nonneg (t_info t u) = true -> v_nonneg (t_info t2 u) = true)).
  { intros u Vu. destruct (e_keep _ _ _ E2 u) as (-> & _ & -> & _). destruct (e_grow _ _ _ E2 u) as (_ & X & _). rewrite Old in * by exact Vu. auto. }
  assert (Nw2 : v_nonneg (t_info t2 w) = false).
  { rewrite (evolve_nonneg _ _ _ _ E2 Rd2). unfold t1. rewrite wr_info. fold w. rewrite Z.eqb_refl. reflexivity. }
  destruct S2 as [(-> & p & Hp & Fe & Pw)|(Le & i2 & Lr2 & Es & M2)].
  { exfalso. apply (Fp p Hp) in Fe. rewrite Vw, Lv in Pw. destruct Fe as (_ & H). destruct (H v V) as (_ & H2). specialize (H2 Nn Rd). lia. }
  pose proof (r_core _ _ _ R2) as C2. pose proof (c_arr _ _ C2) as A2. pose proof (c_flg _ _ C2) as F2. pose proof Lr2 as (Hi2 & Ei2).
  assert (Ei2' : rowv t2 i2 = con (t_ncon t2 - 1)) by congruence.
  destruct (live_row_info t2 w i2 A2 F2 Lr2) as (Vw2 & Rw2 & _ & Ix2).
  destruct (Z.ltb_spec s 0) as [Neg|Ge].
  - rewrite (drop_last_ok t2 w i2 A2 Lr2 Ew).
    destruct (drop_represents j L l t2 i2 C2 Hi2 Ei2') as (t3 & -> & R3 & Fe3 & D3 & Vd3 & Fl3 & E_1 & E_2 & E_3 & E_4 & E_5 & E_6 & E_7).
    { apply (r_zero _ _ _ R2). } { apply (r_imp _ _ _ R2). } { right. rewrite Ei2. exact Nw2. }
    cbn [bind wp]. destruct (mark_empty_w t3) as (l3 & ->). split; [apply represents_empty; exact R3|]. split; [|apply sample_empty, D3; intros k Hk _ _; apply D2; [exact Hk|discriminate]].
    assert (Ne : forall p, adm true p -> ~ feas L t p).
    { intros p (Hp & H0) Fe. specialize (H0 eq_refl). pose proof (H1 p Hp Fe) as Lt. pose proof (at_max_le j L' t2 w i2 p R2 Lr2 M2 (proj2 (Fp p Hp) Fe)) as U. rewrite Vw, Lv in U.
      pose proof (a_den _ A2 i2 (proj2 Hi2)) as Dp. destruct Fe as (_ & Q). destruct (Q v V) as (_ & Q2). specialize (Q2 Nn Rd). assert (Cn : cst t2 i2 < 0) by (clear - Es Neg; destruct (cst t2 i2); cbn in Es; lia).
      clear - H0 Lt U Dp Q2 Cn. nia. }
    constructor.
    + cbn. rewrite E_2, (e_nvar _ _ _ E2). reflexivity.
    + cbn. rewrite E_1. apply (c_len _ _ C).
    + cbn. rewrite E_3, (e_rat _ _ _ E2). reflexivity.
    + cbn. rewrite E_4, (e_undo _ _ _ E2). reflexivity.
    + cbn. rewrite E_5, (e_cone _ _ _ E2). reflexivity.
    + cbn. rewrite E_7, (e_neq _ _ _ E2). reflexivity.
    + intros u Vu Zu. change (v_zero (t_info t3 u) = true). rewrite (Fl3 _ v_zero) by reflexivity. destruct (Kp u Vu) as (-> & _). exact Zu.
    + intros u Vu Zu. change (v_nonneg (t_info t3 u) = true). rewrite (Fl3 _ v_nonneg) by reflexivity. apply (Kp u Vu). exact Zu.
    + intros u Vu Zu. change (v_marked (t_info t3 u) = true) in Zu. rewrite (Fl3 _ v_marked) in Zu by reflexivity. destruct (Kp u Vu) as (_ & <- & _). exact Zu.
    + intros p Ad. change (feas L t3 p <-> feas L t p). rewrite Fe3. apply Fp. apply Ad.
    + intros _. right. intros p Ad Fe. change (feas L t3 p) in Fe. apply (Ne p Ad). apply Fp; [apply Ad|]. apply Fe3. exact Fe.
  - assert (Cs : cst t2 i2 = 0) by (clear - Es Le Ge; destruct (cst t2 i2); cbn in Es; lia).
    set (t2' := upd t2 w (vs_nonneg true)).
    assert (Nw : w < 0) by (unfold w, con; lia).
    pose proof (sn_represents j L' t2 w R2 Vw2 Nw Rd2) as R2'. pose proof (sn_feas L' t2 w Vw2 Rd2) as F2'. fold t2' in R2', F2'.
    assert (D2' : sample_ok None t2').
    { intros k Hk _ Nk. destruct (Nat.eq_dec k i2) as [->|N]; [change (cst t2' i2) with (cst t2 i2); rewrite Cs; apply Z.le_refl|]. apply (D2 k Hk); [discriminate|]. unfold t2' in Nk. rewrite sn_info in Nk. change (rowv (upd t2 w (vs_nonneg true)) k) with (rowv t2 k) in Nk.
      rewrite (proj2 (Z.eqb_neq _ _)) in Nk; [exact Nk|]. intros E. apply N. apply (rowv_inj t2); [exact A2|exact (proj2 Hk)|exact (proj2 Hi2)|congruence]. }
    assert (Nn2' : v_nonneg (t_info t2' w) = true) by (unfold t2'; rewrite sn_info, Z.eqb_refl; reflexivity).
    unfold close_row. rewrite Nn2'. cbn [negb andb bind]. apply wp_bind.
    assert (El : exists lg, upd t2' w (vs_zero true) = w_log (upd t2' w (vs_zero true)) lg) by (exists (t_log t2); reflexivity). destruct El as (lg & El). rewrite El.
    apply wp_bind. eapply wp_weak; [apply (shut_ok j L' t2' w i2 R2' Lr2 (sn_max t2 w i2 M2) Cs Nn2' lg)|]. intros t3 (Al & Sh). cbn [bind wp].
    set (t4 := if manifestly_empty t3 then mark_empty t3 else t3).
    assert (X : exists b lg, t4 = w_empty (w_log t3 lg) b /\ (b = true -> t_empty t3 = true \/ forall p, adm true p -> ~ feas L' t3 p)).
    { unfold t4. destruct (manifestly_empty t3) eqn:Me.
      - destruct (mark_empty_w t3) as (lg' & ->). exists true, lg'. split; [reflexivity|]. intros _. apply (manifestly_empty_ok true L' t3 (al_core _ _ _ _ _ Al)); [auto|exact Me].
      - exists (t_empty t3), (t_log t3). split; [destruct t3; reflexivity|]. auto. }
    destruct X as (b & lg' & E4 & Eb). rewrite E4.
    set (t5 := w_empty (w_log t3 lg') b). pose proof (al_core _ _ _ _ _ Al) as C3. assert (C5 : core L' t5) by (destruct C3 as [A3 F3 ? ? ? ?]; constructor; try assumption; [destruct A3|destruct F3]; constructor; assumption).
    pose proof (al_row _ _ _ _ _ Al) as Lr5. change (live_row t5 w i2) in Lr5. assert (Nc5 : t_ncon t5 = t_ncon t2) by (change (t_ncon t5) with (t_ncon t3); rewrite (h_ncon _ _ _ _ Sh); reflexivity).
    rewrite (drop_last_ok t5 w i2 (c_arr _ _ C5) Lr5) by congruence. pose proof Lr5 as (Hi5 & Ei5).
    destruct (drop_represents j L l t5 i2 C5 Hi5) as (t6 & -> & R6 & Fe6 & D6 & Vd6 & Fl6 & E_1 & E_2 & E_3 & E_4 & E_5 & E_6 & E_7).
    { congruence. } { apply (al_zero _ _ _ _ _ Al). } { apply (al_imp _ _ _ _ _ Al). } { left. rewrite Ei5. apply (al_zv _ _ _ _ _ Al). }
    cbn [wp]. split; [exact R6|]. 
    assert (Fe : forall p, adm true p -> (feas L t6 p <-> feas L t p)).
    { intros p Ad. rewrite Fe6. change (feas (L ++ [l]) t5 p) with (feas L' t3 p). rewrite (h_feas _ _ _ _ Sh), F2', Vw, Lv. pose proof Ad as (Hp & H0). rewrite (Fp p Hp). split; [tauto|]. intros Fe.
      specialize (H0 eq_refl). pose proof (H1 p Hp Fe) as H3. pose proof Fe as (_ & Q). destruct (Q v V) as (_ & Q2). specialize (Q2 Nn Rd). assert (value L p v = 0) as -> by (clear - H0 H3 Q2; lia). split; [split; [exact Fe|apply Z.le_refl]|reflexivity]. }
    split.
    + constructor.
      * rewrite E_2. change (t_nvar t5) with (t_nvar t3). rewrite (h_nvar _ _ _ _ Sh). change (t_nvar t2') with (t_nvar t2). rewrite (e_nvar _ _ _ E2). reflexivity.
      * rewrite E_1. apply (c_len _ _ C).
      * rewrite E_3. change (t_rat t5) with (t_rat t3). rewrite (h_rat _ _ _ _ Sh). change (t_rat t2') with (t_rat t2). rewrite (e_rat _ _ _ E2). reflexivity.
      * rewrite E_4. change (t_undo t5) with (t_undo t3). rewrite (h_undo _ _ _ _ Sh). change (t_undo t2') with (t_undo t2). rewrite (e_undo _ _ _ E2). reflexivity.
      * rewrite E_5. change (t_cone t5) with (t_cone t3). rewrite (h_cone _ _ _ _ Sh). change (t_cone t2') with (t_cone t2). rewrite (e_cone _ _ _ E2). reflexivity.
      * rewrite E_7. change (t_neq t5) with (t_neq t3). rewrite (h_neq _ _ _ _ Sh). change (t_neq t2') with (t_neq t2). rewrite (e_neq _ _ _ E2). reflexivity.
      * intros u Vu Zu. rewrite (Fl6 _ v_zero) by reflexivity. change (v_zero (t_info t3 u) = true). apply (h_zero _ _ _ _ Sh). unfold t2'. rewrite sn_flag by reflexivity. destruct (Kp u Vu) as (-> & _). exact Zu.
      * intros u Vu Zu. rewrite (Fl6 _ v_nonneg) by reflexivity. change (v_nonneg (t_info t3 u) = true). destruct (h_flag _ _ _ _ Sh u) as (_ & -> & _). unfold t2'. rewrite sn_info. destruct (u =? w); [reflexivity|]. apply (Kp u Vu). exact Zu.
      * intros u Vu Zu. rewrite (Fl6 _ v_marked) in Zu by reflexivity. change (v_marked (t_info t3 u) = true) in Zu. destruct (h_flag _ _ _ _ Sh u) as (_ & _ & _ & E). rewrite E in Zu. unfold t2' in Zu. rewrite sn_flag in Zu by reflexivity. destruct (Kp u Vu) as (_ & <- & _). exact Zu.
      * exact Fe.
      * rewrite E_6. change (t_empty t5) with b. intros Et. destruct (Eb Et) as [E0|N]; [left|right].
        -- rewrite (h_empty _ _ _ _ Sh) in E0. change (t_empty t2') with (t_empty t2) in E0. rewrite (e_empty _ _ _ E2) in E0. exact E0.
        -- intros p Ad Fq. apply (N p Ad). apply Fe6 in Fq. exact Fq.
    + apply D6. intros k Hk Nk Nx Nk2. apply (h_sample _ _ _ _ Sh None D2' k Hk); [discriminate|exact Nk2].
Qed.
