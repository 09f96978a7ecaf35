(** Adding a row to the tableau, and dropping it again. *)
From Coq Require Import ZArith List Bool Arith Lia.
From Verif Require Import SeqModel SeqSpec SeqProofs MatModel BMapModel BMapLists BMapGauss2 BElimSpec BElimFM TabModel TabSpec TabBase TabStruct TabMark TabPivot TabStep TabKill.
Import ListNotations.
Open Scope Z_scope.

(** the flags of a new constraint *)
Definition new_var (n : nat) : tvar := mkvar (Some n) true false false false false false false.
Definition with_row (t : tab) (r : list Z) : tab :=
  let w := con (t_ncon t) in
  let t1 := upd t w (fun _ => new_var (nrow t)) in
  w_ncon (w_rows (w_rv t1 (t_rv t1 ++ [w])) (t_rows t1 ++ [r])) (S (t_ncon t1)).
Lemma value_app L l p v : - Z.of_nat (length L) <= v -> value (L ++ [l]) p v = value L p v.
Proof. intros H. unfold value. destruct (Z.ltb_spec v 0); [|reflexivity]. rewrite app_nth1 by lia. reflexivity. Qed.
Lemma value_new L l p n : length L = n -> value (L ++ [l]) p (con n) = dot l p.
Proof. intros H. unfold value, con. rewrite (proj2 (Z.ltb_lt _ _)) by lia. replace (Z.to_nat (-1 - (-1 - Z.of_nat n))) with n by lia. rewrite app_nth2 by lia. rewrite <- H, Nat.sub_diag. reflexivity. Qed.
Section Add.
Variables (int : bool) (L : list (list Z)) (t : tab) (l r : list Z).
Hypothesis C : core L t.
Hypothesis Ll : length l = (1 + t_nvar t)%nat.
Hypothesis Lr : length r = (2 + ncol t)%nat.
Hypothesis Dr : 0 < nth 0 r 0.
Hypothesis Hr : forall p, length p = (1 + t_nvar t)%nat -> (forall v, valid t v -> gone t v -> value L p v = 0) -> nth 0 r 0 * dot l p = dot (tl r) (hd 0 p :: map (value L p) (t_cv t)).
Let w := con (t_ncon t).
Let t' := with_row t r.
Let A : arranged t. Proof. apply C. Qed.
Let F : flagged t. Proof. apply C. Qed.
Lemma wr_new v : valid t v -> v <> w. Proof. unfold valid, w, con. lia. Qed.
Lemma wr_info u : t_info t' u = if u =? w then new_var (nrow t) else t_info t u. Proof. reflexivity. Qed.
Lemma wr_old u : valid t u -> t_info t' u = t_info t u.
Proof. intros V. rewrite wr_info. rewrite (proj2 (Z.eqb_neq _ _)) by (apply wr_new; exact V). reflexivity. Qed.
Lemma wr_valid u : valid t' u <-> valid t u \/ u = w.
Proof. unfold valid, t', with_row, w, con. cbn [w_ncon t_ncon t_nvar w_rows w_rv upd w_info]. lia. Qed.
Lemma wr_nrow : nrow t' = S (nrow t). Proof. unfold nrow, t', with_row. cbn [w_ncon t_rv w_rows w_rv]. rewrite app_length. cbn [length upd w_info t_rv]. lia. Qed.
Lemma wr_rowv i : (i < nrow t)%nat -> rowv t' i = rowv t i. Proof. intros H. unfold rowv, t', with_row. cbn [w_ncon t_rv w_rows w_rv]. apply app_nth1. exact H. Qed.
Lemma wr_rowv_new : rowv t' (nrow t) = w. Proof. unfold rowv, t', with_row. cbn [w_ncon t_rv w_rows w_rv upd w_info]. rewrite app_nth2 by apply le_n. unfold nrow. rewrite Nat.sub_diag. reflexivity. Qed.
Lemma wr_row i : (i < nrow t)%nat -> nth i (t_rows t') [] = nth i (t_rows t) [].
Proof. intros H. unfold t', with_row. cbn [w_ncon t_rows w_rows w_rv upd w_info]. apply app_nth1. rewrite (a_len _ A). exact H. Qed.
Lemma wr_row_new : nth (nrow t) (t_rows t') [] = r.
Proof. unfold t', with_row. cbn [w_ncon t_rows w_rows w_rv upd w_info]. rewrite app_nth2 by (rewrite (a_len _ A); apply le_n). rewrite (a_len _ A), Nat.sub_diag. reflexivity. Qed.
Lemma wr_gone u : valid t' u -> (gone t' u <-> valid t u /\ gone t u).
Proof.
  intros V. apply wr_valid in V. destruct V as [V| ->].
  - unfold gone. rewrite wr_old by exact V. tauto.
  - unfold gone. rewrite wr_info, Z.eqb_refl. cbn. split; [intros (X & _); discriminate|]. intros (X & _). exfalso. apply (wr_new _ X). reflexivity.
Qed.
Lemma wr_live i : live_row t' w i <-> i = nrow t.
Proof.
  assert (Hn : (t_red t <= nrow t)%nat) by apply F. split.
  - intros (H & E). rewrite wr_nrow in H. destruct (Nat.eq_dec i (nrow t)) as [|N]; [assumption|]. exfalso. rewrite wr_rowv in E by lia. destruct (a_row _ A i) as (V & _); [lia|]. apply (wr_new _ V). exact E.
  - intros ->. split; [rewrite wr_nrow; change (t_red t') with (t_red t); lia|apply wr_rowv_new].
Qed.
Lemma wr_arr : arranged t'.
Proof.
  constructor.
  - rewrite wr_nrow. unfold t', with_row. cbn [w_ncon t_rows w_rows]. rewrite app_length. cbn [length upd w_info t_rows w_rv]. rewrite (a_len _ A). lia.
  - intros i Hi. rewrite wr_nrow in Hi. change (ncol t') with (ncol t). destruct (Nat.eq_dec i (nrow t)) as [->|N]; [rewrite wr_row_new; exact Lr|]. rewrite wr_row by lia. apply (a_wid _ A). lia.
  - intros i Hi. rewrite wr_nrow in Hi. destruct (Nat.eq_dec i (nrow t)) as [->|N].
    + rewrite wr_rowv_new, wr_info, Z.eqb_refl. split; [apply wr_valid; right; reflexivity|]. split; reflexivity.
    + rewrite wr_rowv by lia. destruct (a_row _ A i) as (V & I & R); [lia|]. split; [apply wr_valid; left; exact V|]. rewrite wr_old by exact V. auto.
  - intros c Hc. change (colv t' c) with (colv t c). destruct (a_col _ A c Hc) as (V & I & R). split; [apply wr_valid; left; exact V|]. rewrite wr_old by exact V. auto.
  - intros v i V E. apply wr_valid in V. destruct V as [V| ->].
    + rewrite wr_old in * by exact V. pose proof (a_inv _ A v i V E) as H. destruct (v_row (t_info t v)); [|exact H]. destruct H as (H1 & H2). rewrite wr_nrow, wr_rowv by exact H1. split; [lia|exact H2].
    + rewrite wr_info, Z.eqb_refl in *. cbn in E. injection E as <-. cbn [new_var v_row]. rewrite wr_nrow, wr_rowv_new. split; [lia|reflexivity].
  - intros i Hi. rewrite wr_nrow in Hi. unfold den, ent. destruct (Nat.eq_dec i (nrow t)) as [->|N]; [rewrite wr_row_new; exact Dr|]. rewrite wr_row by lia. apply (a_den _ A). lia.
Qed.
Lemma wr_flg : flagged t'.
Proof.
  constructor.
  - apply F.
  - rewrite wr_nrow. change (t_red t') with (t_red t). pose proof (f_red _ F). lia.
  - intros i Hi. rewrite wr_nrow in Hi. change (t_red t') with (t_red t). destruct (Nat.eq_dec i (nrow t)) as [->|N].
    + rewrite wr_rowv_new, wr_info, Z.eqb_refl. symmetry. apply Nat.ltb_ge. apply F.
    + rewrite wr_rowv by lia. destruct (a_row _ A i) as (V & _); [lia|]. rewrite wr_old by exact V. apply (f_rows _ F). lia.
  - intros c Hc. change (colv t' c) with (colv t c). destruct (a_col _ A c Hc) as (V & _). rewrite wr_old by exact V. apply (f_cols _ F). exact Hc.
  - intros v V I. apply wr_valid in V. destruct V as [V| ->]; [rewrite wr_old in * by exact V; apply (f_gone _ F); assumption|]. rewrite wr_info, Z.eqb_refl in I. discriminate.
  - intros v V P. apply wr_valid in V. destruct V as [V| ->]; [rewrite wr_old by exact V; apply (f_var _ F); assumption|]. unfold w, con in P. lia.
Qed.
Lemma wr_value p v : valid t v -> value (L ++ [l]) p v = value L p v.
Proof. intros V. apply value_app. rewrite (c_len _ _ C). apply V. Qed.
Lemma wr_value_new p : value (L ++ [l]) p w = dot l p.
Proof. apply value_new. apply (c_len _ _ C). Qed.
Lemma wr_vals p : map (value (L ++ [l]) p) (t_cv t') = map (value L p) (t_cv t).
Proof.
  apply (nth_ext _ _ 0 0); [rewrite !map_length; reflexivity|]. intros c Hc. rewrite map_length in Hc. change (t_cv t') with (t_cv t) in *.
  rewrite !(nth_map_d _ _ 0 0) by exact Hc. apply wr_value. apply (a_col _ A c Hc).
Qed.
Lemma wr_core : core (L ++ [l]) t'.
Proof.
  constructor.
  - exact wr_arr.
  - exact wr_flg.
  - rewrite app_length, (c_len _ _ C). cbn [length]. change (t_ncon t') with (S (t_ncon t)). lia.
  - intros x Hx. change (t_nvar t') with (t_nvar t). apply in_app_or in Hx. destruct Hx as [Hx|[<-|[]]]; [apply (c_wid _ _ C); exact Hx|exact Ll].
  - intros p Lp G i Hi. change (t_nvar t') with (t_nvar t) in Lp.
    assert (G0 : forall v, valid t v -> gone t v -> value L p v = 0). { intros v V Gv. rewrite <- wr_value by exact V. assert (V' : valid t' v) by (apply wr_valid; left; exact V). apply G; [exact V'|]. apply wr_gone; auto. }
    unfold row_holds. rewrite wr_vals. rewrite wr_nrow in Hi. unfold den, ent. destruct (Nat.eq_dec i (nrow t)) as [->|N].
    + rewrite wr_row_new, wr_rowv_new, wr_value_new. apply Hr; assumption.
    + rewrite wr_row, wr_rowv by lia. rewrite wr_value by (apply (a_row _ A i); lia). apply (c_rel _ _ C p Lp G0 i). lia.
  - intros x z. destruct (c_ind _ _ C x z) as (k & p & K & Lp & Hh & Cv & G). exists k, p. split; [exact K|]. split; [exact Lp|]. split; [exact Hh|]. split.
    + intros c Hc. change (colv t' c) with (colv t c). rewrite wr_value by (apply (a_col _ A c Hc)). apply Cv. exact Hc.
    + intros v V Gv. apply wr_gone in Gv; [|exact V]. destruct Gv as (V0 & Gv). rewrite wr_value by exact V0. apply G; assumption.
Qed.
Lemma wr_feas p : feas (L ++ [l]) t' p <-> feas L t p.
Proof.
  split; intros (Lp & H); (split; [exact Lp|]); intros v V.
  - assert (V' : valid t' v) by (apply wr_valid; left; exact V). specialize (H v V'). rewrite wr_old, wr_value in H by exact V. exact H.
  - apply wr_valid in V. destruct V as [V| ->]; [rewrite wr_old, wr_value by exact V; apply H; exact V|]. rewrite wr_info, Z.eqb_refl. cbn. split; discriminate.
Qed.
Lemma wr_represents : represents int L t -> represents int (L ++ [l]) t'.
Proof.
  intros R. constructor.
  - exact wr_core.
  - intros p Lp H v V Zv. apply wr_valid in V. destruct V as [V| ->]; [|rewrite wr_info, Z.eqb_refl in Zv; discriminate]. rewrite wr_old in Zv by exact V. rewrite wr_value by exact V.
    apply (r_zero _ _ _ R p Lp); [|exact V|exact Zv]. intros u Vu Zu Ru. rewrite <- wr_value by exact Vu. apply H; [apply wr_valid; left; exact Vu|rewrite wr_old by exact Vu; exact Zu|rewrite wr_old by exact Vu; exact Ru].
  - intros p Ad Fe v V Nn. apply wr_feas in Fe. apply wr_valid in V. destruct V as [V| ->]; [|rewrite wr_info, Z.eqb_refl in Nn; discriminate]. rewrite wr_old in Nn by exact V. rewrite wr_value by exact V.
    apply (r_imp _ _ _ R p Ad Fe v V Nn).
Qed.
Lemma wr_sample ex : sample_ok ex t -> sample_ok ex t'.
Proof.
  intros D i Hi Nx Nn. rewrite wr_nrow in Hi. change (t_red t') with (t_red t) in Hi. destruct (Nat.eq_dec i (nrow t)) as [->|N]; [rewrite wr_rowv_new, wr_info, Z.eqb_refl in Nn; discriminate|].
  rewrite wr_rowv in * by lia. rewrite wr_old in Nn by (apply (a_row _ A i); lia). unfold cst, ent. rewrite wr_row by lia. apply D; auto. lia.
Qed.
Lemma wr_cst : cst t' (nrow t) = nth 1 r 0. Proof. unfold cst, ent. rewrite wr_row_new. reflexivity. Qed.
Lemma wr_den : den t' (nrow t) = nth 0 r 0. Proof. unfold den, ent. rewrite wr_row_new. reflexivity. Qed.
Lemma wr_cf c : cf t' (nrow t) c = nth (2 + c) r 0. Proof. unfold cf, ent. rewrite wr_row_new. reflexivity. Qed.
End Add.

(** dropping the last constraint, which is in a row *)
Section Drop.
Variables (int : bool) (L : list (list Z)) (l : list Z) (t : tab) (i : nat).
Hypothesis C : core (L ++ [l]) t.
Hypothesis Hi : (t_red t <= i < nrow t)%nat.
Hypothesis Ew : rowv t i = con (t_ncon t - 1).
Let w := con (t_ncon t - 1).
Let n := (nrow t - 1)%nat.
Let t1 := if Nat.eqb i n then t else swap_rows t i n.
Let t' := w_ncon (w_rows (w_rv t1 (removelast (t_rv t1))) (removelast (t_rows t1))) (t_ncon t - 1).
Let A : arranged t. Proof. apply C. Qed.
Let F : flagged t. Proof. apply C. Qed.
Let Hn : (n < nrow t)%nat. Proof. unfold n. lia. Qed.
Let Nc : t_ncon t = S (length L). Proof. pose proof (c_len _ _ C) as H. rewrite app_length in H. cbn [length] in H. lia. Qed.
Lemma dr_A1 : arranged t1.
Proof. unfold t1. destruct (Nat.eqb_spec i n) as [E|N]; [exact A|]. apply swr_arr; [exact A|lia|exact Hn|exact N]. Qed.
Lemma dr_flag {X} (f : tvar -> X) u : (forall x, f (vs_idx None x) = f x) -> f (t_info t1 u) = f (t_info t u).
Proof. intros H. unfold t1. destruct (Nat.eqb_spec i n) as [E|N]; [reflexivity|]. apply swr_flag; [exact A|lia|exact Hn|exact N|exact H]. Qed.
Lemma dr_nrow1 : nrow t1 = nrow t. Proof. unfold t1. destruct (Nat.eqb i n); [reflexivity|apply swr_nrow]. Qed.
Lemma dr_cv1 : t_cv t1 = t_cv t. Proof. unfold t1. destruct (Nat.eqb i n); reflexivity. Qed.
Lemma dr_ncon1 : t_ncon t1 = t_ncon t /\ t_nvar t1 = t_nvar t /\ t_red t1 = t_red t /\ t_dead t1 = t_dead t. Proof. unfold t1. destruct (Nat.eqb i n); repeat split; reflexivity. Qed.
Lemma dr_rowv1 k : rowv t1 k = if Nat.eqb k n then w else if Nat.eqb k i then rowv t n else rowv t k.
Proof.
  unfold t1. destruct (Nat.eqb_spec i n) as [E|N]; [|rewrite swr_rowv by (assumption || lia); destruct (Nat.eqb k n); [exact Ew|reflexivity]]. 
  rewrite <- E. destruct (Nat.eqb_spec k i) as [->|]; [exact Ew|reflexivity].
Qed.
Lemma dr_row1 k : nth k (t_rows t1) [] = if Nat.eqb k n then nth i (t_rows t) [] else if Nat.eqb k i then nth n (t_rows t) [] else nth k (t_rows t) [].
Proof.
  unfold t1. destruct (Nat.eqb_spec i n) as [E|N]; [|apply swr_row; assumption || lia].
  rewrite <- E. destruct (Nat.eqb_spec k i) as [->|]; reflexivity.
Qed.
Lemma dr_nrow : nrow t' = n. Proof. unfold t', nrow. cbn [w_ncon w_rows w_rv t_rv]. rewrite removelast_length. fold (nrow t1). rewrite dr_nrow1. reflexivity. Qed.
Lemma dr_rowv k : (k < n)%nat -> rowv t' k = if Nat.eqb k i then rowv t n else rowv t k.
Proof. intros H. unfold rowv at 1, t'. cbn [w_ncon w_rows w_rv t_rv]. rewrite nth_removelast by (fold (nrow t1); rewrite dr_nrow1; exact H). fold (rowv t1 k). rewrite dr_rowv1, (proj2 (Nat.eqb_neq k n)) by lia. reflexivity. Qed.
Lemma dr_row k : (k < n)%nat -> nth k (t_rows t') [] = if Nat.eqb k i then nth n (t_rows t) [] else nth k (t_rows t) [].
Proof.
  intros H. unfold t'. cbn [w_ncon w_rows t_rows]. rewrite nth_removelast; [rewrite dr_row1, (proj2 (Nat.eqb_neq k n)) by lia; reflexivity|]. cbn [w_rv t_rows]. rewrite (a_len _ dr_A1), dr_nrow1. exact H.
Qed.
(** every row of the result is a row of the original *)
Lemma dr_src k : (k < n)%nat -> exists k0, (k0 < nrow t)%nat /\ rowv t' k = rowv t k0 /\ nth k (t_rows t') [] = nth k0 (t_rows t) [] /\ k0 <> i /\ (Nat.ltb k (t_red t) = Nat.ltb k0 (t_red t)).
Proof.
  intros H. rewrite dr_rowv, dr_row by exact H. destruct (Nat.eqb_spec k i) as [->|N].
  - exists n. split; [exact Hn|]. split; [reflexivity|]. split; [reflexivity|]. split; [lia|]. rewrite !(proj2 (Nat.ltb_ge _ _)) by lia. reflexivity.
  - exists k. split; [lia|]. auto.
Qed.
Lemma dr_valid u : valid t' u <-> valid t u /\ u <> w.
Proof. unfold valid, t', w, con. cbn [w_ncon t_ncon t_nvar w_rows w_rv]. destruct dr_ncon1 as (_ & -> & _). lia. Qed.
Lemma dr_vw : forall k, (k < nrow t)%nat -> k <> i -> rowv t k <> w.
Proof. intros k Hk N E. apply N. apply (rowv_inj t); [exact A|exact Hk|lia|]. rewrite Ew. exact E. Qed.
Lemma dr_info u : t_info t' u = t_info t1 u. Proof. reflexivity. Qed.
Lemma dr_rw : v_row (t_info t w) = true. Proof. unfold w. rewrite <- Ew. apply (a_row _ A i). lia. Qed.
Lemma dr_arr : arranged t'.
Proof.
  pose proof dr_A1 as A1. destruct dr_ncon1 as (E1 & E2 & E3 & E4).
  constructor.
  - rewrite dr_nrow. unfold t'. cbn [w_ncon w_rows t_rows]. rewrite removelast_length. cbn [w_rv t_rows]. rewrite (a_len _ A1), dr_nrow1. reflexivity.
  - intros k Hk. rewrite dr_nrow in Hk. destruct (dr_src k Hk) as (k0 & H0 & _ & -> & _). change (ncol t') with (ncol t1). unfold ncol. rewrite dr_cv1. apply (a_wid _ A). exact H0.
  - intros k Hk. rewrite dr_nrow in Hk. assert (Hk1 : (k < nrow t1)%nat) by (rewrite dr_nrow1; lia). destruct (a_row _ A1 k Hk1) as (V & I & R).
    assert (E : rowv t' k = rowv t1 k) by (rewrite dr_rowv, dr_rowv1 by exact Hk; rewrite (proj2 (Nat.eqb_neq k n)) by lia; reflexivity). rewrite E, dr_info. split; [|auto].
    apply dr_valid. split; [unfold valid in *; rewrite E1, E2 in V; exact V|]. rewrite <- E. destruct (dr_src k Hk) as (k0 & H0 & -> & _ & Nk & _). apply dr_vw; assumption.
  - intros c Hc. change (colv t' c) with (colv t1 c). destruct (a_col _ A1 c Hc) as (V & I & R). rewrite dr_info. split; [|auto]. apply dr_valid. split; [unfold valid in *; rewrite E1, E2 in V; exact V|].
    intros E. rewrite E in R. rewrite (dr_flag v_row) in R by reflexivity. rewrite dr_rw in R. discriminate.
  - intros v k V E. rewrite dr_info in *. apply dr_valid in V. destruct V as (V & Nv). assert (V1 : valid t1 v) by (unfold valid in *; rewrite E1, E2; exact V).
    pose proof (a_inv _ A1 v k V1 E) as H. destruct (v_row (t_info t1 v)); [|exact H]. destruct H as (H1 & H2). rewrite dr_nrow1 in H1. rewrite dr_nrow.
    assert (k <> n). { intros ->. rewrite dr_rowv1, Nat.eqb_refl in H2. congruence. }
    split; [unfold n in *; lia|]. rewrite dr_rowv by (unfold n in *; lia). rewrite dr_rowv1 in H2. rewrite (proj2 (Nat.eqb_neq k n)) in H2 by assumption. exact H2.
  - intros k Hk. rewrite dr_nrow in Hk. destruct (dr_src k Hk) as (k0 & H0 & _ & E & _). unfold den, ent. rewrite E. apply (a_den _ A). exact H0.
Qed.
Lemma dr_flg : flagged t'.
Proof.
  destruct dr_ncon1 as (E1 & E2 & E3 & E4). constructor.
  - change (t_dead t') with (t_dead t1). change (ncol t') with (ncol t1). unfold ncol. rewrite E4, dr_cv1. apply F.
  - rewrite dr_nrow. change (t_red t') with (t_red t1). rewrite E3. unfold n. lia.
  - intros k Hk. rewrite dr_nrow in Hk. destruct (dr_src k Hk) as (k0 & H0 & -> & _ & _ & Lt). rewrite dr_info, (dr_flag v_red) by reflexivity. change (t_red t') with (t_red t1). rewrite E3, Lt. apply (f_rows _ F). exact H0.
  - intros c Hc. change (colv t' c) with (nth c (t_cv t1) 0). change (ncol t') with (ncol t1) in Hc. unfold ncol in Hc. rewrite dr_cv1 in *. rewrite dr_info, (dr_flag v_zero), (dr_flag v_red) by reflexivity. change (t_dead t') with (t_dead t1). rewrite E4. apply (f_cols _ F). exact Hc.
  - intros v V I. rewrite dr_info in *. apply dr_valid in V. destruct V as (V & Nv). rewrite (dr_flag v_row), (dr_flag v_red), (dr_flag v_zero) by reflexivity. apply (f_gone _ F); [exact V|].
    revert I. unfold t1. destruct (Nat.eqb_spec i n) as [E|N]; [auto|]. apply swr_idx; [exact A|lia|exact Hn|exact N].
  - intros v V P. rewrite dr_info. apply dr_valid in V. destruct V as (V & Nv). rewrite (dr_flag v_zero), (dr_flag v_nonneg), (dr_flag v_red) by reflexivity. apply (f_var _ F); assumption.
Qed.
Lemma dr_gone u : valid t u -> (gone t' u <-> gone t u).
Proof.
  intros V. unfold gone. rewrite dr_info, (dr_flag v_row) by reflexivity. assert (E : v_idx (t_info t1 u) = None <-> v_idx (t_info t u) = None); [|rewrite E; reflexivity].
  unfold t1. destruct (Nat.eqb_spec i n) as [E|N]; [reflexivity|]. apply swr_idx; [exact A|lia|exact Hn|exact N].
Qed.
Lemma dr_value p v : valid t' v -> value (L ++ [l]) p v = value L p v.
Proof. intros V. apply value_app. unfold valid, t' in V. cbn [w_ncon t_ncon] in V. rewrite Nc in V. lia. Qed.
Lemma dr_vals p : map (value (L ++ [l]) p) (t_cv t') = map (value L p) (t_cv t').
Proof.
  apply (nth_ext _ _ 0 0); [rewrite !map_length; reflexivity|]. intros c Hc. rewrite map_length in Hc. rewrite !(nth_map_d _ _ 0 0) by exact Hc. apply dr_value. apply (a_col _ dr_arr c Hc).
Qed.
Lemma dr_gone_w p : (forall v, valid t' v -> gone t' v -> value L p v = 0) -> forall v, valid t v -> gone t v -> value (L ++ [l]) p v = 0.
Proof.
  intros G v V Gv. assert (Nw : v <> w). { intros ->. destruct Gv as (_ & R). rewrite dr_rw in R. discriminate. }
  assert (V' : valid t' v) by (apply dr_valid; auto). rewrite dr_value by exact V'. apply G; [exact V'|]. apply dr_gone; assumption.
Qed.
Lemma dr_core : core L t'.
Proof.
  destruct dr_ncon1 as (E1 & E2 & E3 & E4). constructor.
  - exact dr_arr.
  - exact dr_flg.
  - change (t_ncon t') with (t_ncon t - 1)%nat. rewrite Nc. lia.
  - intros x Hx. change (t_nvar t') with (t_nvar t1). rewrite E2. apply (c_wid _ _ C). apply in_or_app. left. exact Hx.
  - intros p Lp G k Hk. change (t_nvar t') with (t_nvar t1) in Lp. rewrite E2 in Lp. rewrite dr_nrow in Hk. destruct (dr_src k Hk) as (k0 & H0 & Ev & Er & _).
    pose proof (c_rel _ _ C p Lp (dr_gone_w p G) k0 H0) as H. unfold row_holds in *. rewrite <- dr_vals. rewrite <- dr_value by (apply (a_row _ dr_arr k); rewrite dr_nrow; exact Hk).
    unfold den, ent in *. rewrite Ev, Er. change (t_cv t') with (t_cv t1). rewrite dr_cv1. exact H.
  - intros x z. destruct (c_ind _ _ C x z) as (k & p & K & Lp & Hh & Cv & G). exists k, p. change (t_nvar t') with (t_nvar t1). rewrite E2. split; [exact K|]. split; [exact Lp|]. split; [exact Hh|]. split.
    + intros c Hc. rewrite <- dr_value by (apply (a_col _ dr_arr c Hc)). change (colv t' c) with (nth c (t_cv t1) 0). change (ncol t') with (ncol t1) in Hc. unfold ncol in Hc. rewrite dr_cv1 in *. apply Cv. exact Hc.
    + intros v V Gv. rewrite <- dr_value by exact V. apply dr_valid in V. destruct V as (V & _). apply G; [exact V|]. apply dr_gone; assumption.
Qed.
Lemma dr_row_ok : drop_row t i = Ok t'.
Proof. unfold drop_row. rewrite (proj2 (Z.eqb_eq _ _) Ew). cbn [negb]. fold n. fold t1. unfold t'. destruct dr_ncon1 as (-> & _). reflexivity. Qed.
Lemma dr_sample ex : (forall k, (t_red t <= k < nrow t)%nat -> k <> i -> Some (rowv t k) <> ex -> v_nonneg (t_info t (rowv t k)) = true -> 0 <= cst t k) -> sample_ok ex t'.
Proof.
  intros H k Hk Nx Nn. rewrite dr_nrow in Hk. change (t_red t') with (t_red t1) in Hk. destruct dr_ncon1 as (_ & _ & E3 & _). rewrite E3 in Hk.
  destruct (dr_src k) as (k0 & H0 & Ev & Er & Ni & Lt); [lia|]. rewrite (proj2 (Nat.ltb_ge k (t_red t))) in Lt by lia. symmetry in Lt. apply Nat.ltb_ge in Lt.
  unfold cst, ent. rewrite Er. rewrite Ev in *. rewrite dr_info, (dr_flag v_nonneg) in Nn by reflexivity. apply H; auto.
Qed.
Lemma dr_ncon : t_ncon t' = length L. Proof. change (t_ncon t') with (t_ncon t - 1)%nat. lia. Qed.
End Drop.
