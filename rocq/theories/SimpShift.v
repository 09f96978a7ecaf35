(** isl_basic_map_shift_div and the reduction of the coefficients of integer
    divisions keep the integer points. *)
From Coq Require Import ZArith List Bool Lia Arith Permutation.
From Verif Require Import SeqModel SeqSpec SeqProofs MatModel BMapModel BMapSpec BMapSem BMapLists BMapNorm BMapGauss BMapGauss2 BMapOrder BDupModel BDupProofs BElimModel BElimSpec BElimCols BElimProofs BElimFM BElimVars SimpModel SimpSpec SimpBase SimpDrop SimpDivs.
Import ListNotations.
Open Scope Z_scope.

(** two systems with the same solutions up to the values of the local variables *)
Lemma pres_map b b' : good b -> shape b b' -> wf b' -> acyclic b' -> denoms (b_div b') ->
  (forall v, length v = (1 + total b)%nat -> admissible (b_rat b) v -> system (b_eq b) (b_ineq b) v ->
     exists w, length w = (1 + total b)%nat /\ firstn (1 + nvar b) w = firstn (1 + nvar b) v /\ system (b_eq b') (b_ineq b') w) ->
  (forall v, length v = (1 + total b)%nat -> admissible (b_rat b) v -> system (b_eq b') (b_ineq b') v ->
     exists w, length w = (1 + total b)%nat /\ firstn (1 + nvar b) w = firstn (1 + nvar b) v /\ system (b_eq b) (b_ineq b) w /\
       (hd 0 v = 1 -> divisions (b_div b) (1 + nvar b) w -> divisions (b_div b') (1 + nvar b) v)) ->
  (b_empty b = true -> b_ineq b = [] -> b_ineq b' = []) -> pres b b'.
Proof.
  intros G SH W A D F1 F2 EM. pose proof G as (W0 & A0 & D0 & I0 & R0 & B0). destruct (shape_nvar _ _ SH) as [NV NT]. pose proof SH as (S1 & S2 & S3 & S4 & S5 & S6).
  assert (TT : total b = (nvar b + ndiv b)%nat) by reflexivity.
  assert (HH : forall (v w : list Z), firstn (1 + nvar b) w = firstn (1 + nvar b) v -> hd 0 w = hd 0 v) by (intros [|x v] [|y w] H; cbn in *; congruence).
  assert (SPL : forall p w : list Z, length p = (1 + nvar b)%nat -> firstn (1 + nvar b) w = p -> w = p ++ skipn (1 + nvar b) w) by (intros p w _ Ep; rewrite <- (firstn_skipn (1 + nvar b) w) at 1; f_equal; exact Ep).
  assert (FA : forall p e : list Z, length p = (1 + nvar b)%nat -> firstn (1 + nvar b) (p ++ e) = p) by (intros p e Lp; rewrite <- Lp, firstn_app, firstn_all, Nat.sub_diag; cbn [firstn]; apply app_nil_r).
  apply pres_gen; auto.
  - apply shape_same. exact SH.
  - intros v Lv Hv Sv. rewrite NV. destruct (F2 v) as (w & Lw & Fw & Sw & DW); [lia|split; [lia|auto]|exact Sv|]. apply DW; [exact Hv|]. apply I0; [lia|rewrite (HH _ _ Fw); exact Hv|exact Sw].
  - rewrite S4. exact R0.
  - intros F. rewrite S6 in F. destruct (B0 F) as (B1 & B2 & B3). unfold ndiv in S4, TT. rewrite B1 in S4, TT. split; [destruct (b_div b'); [reflexivity|discriminate]|]. split; [auto|]. cbn [length] in TT. rewrite NV, S5. intros v Lv Hv H.
    destruct (F2 v) as (w & Lw & Fw & Sw & _); [lia|exact Hv|split; [exact H|rewrite EM; auto]|]. apply (B3 w); [lia| |apply Sw]. unfold admissible. rewrite (HH _ _ Fw). exact Hv.
  - intros p e Lp Le Hp Sp. destruct (F1 (p ++ e)) as (w & Lw & Fw & Sw); [rewrite app_length; lia|apply adm_app; [eapply len_ne; exact Lp|exact Hp]|exact Sp|]. rewrite FA in Fw by exact Lp. exists (skipn (1 + nvar b) w). split; [rewrite skipn_length; lia|]. rewrite <- (SPL p w Lp Fw). exact Sw.
  - intros p e Lp Le Hp Sp. destruct (F2 (p ++ e)) as (w & Lw & Fw & Sw & _); [rewrite app_length; lia|apply adm_app; [eapply len_ne; exact Lp|exact Hp]|exact Sp|]. rewrite FA in Fw by exact Lp. exists (skipn (1 + nvar b) w). split; [rewrite skipn_length; lia|]. rewrite <- (SPL p w Lp Fw). exact Sw.
Qed.

Definition shifted (pos c : nat) (s : Z) (v : list Z) : list Z := zupd v c (nth c v 0 + s * nth pos v 0).
Lemma shift_row_eq pos c s r : nth c r 0 = 0 -> shift_row pos c s r = r.
Proof. intros H. unfold shift_row. rewrite H. reflexivity. Qed.
Lemma shift_row_length pos c s r : length (shift_row pos c s r) = length r.
Proof. unfold shift_row. destruct (_ =? 0); [reflexivity|apply zupd_length]. Qed.
Lemma shift_row_dot pos c s r v : pos <> c -> (pos < length r)%nat -> (c < length v)%nat -> dot (shift_row pos c s r) (shifted pos c s v) = dot r v.
Proof.
  intros N Lr Lv. unfold shift_row. assert (E : dot r (shifted pos c s v) = dot r v + s * nth pos v 0 * nth c r 0) by (unfold shifted; rewrite dot_upd by exact Lv; ring).
  destruct (Z.eqb_spec (nth c r 0) 0) as [Z0|Z0]; [rewrite E, Z0; ring|]. rewrite dot_zupd by exact Lr. rewrite E. unfold shifted. rewrite nth_zupd. destruct (Nat.eqb_spec pos c); [congruence|]. cbn [andb]. ring.
Qed.
Lemma tl_zupd l i x : tl (zupd l (S i) x) = zupd (tl l) i x. Proof. destruct l; [destruct i; reflexivity|reflexivity]. Qed.
Lemma tl_shift_row pos c s r : tl (shift_row (S pos) (S c) s r) = shift_row pos c s (tl r).
Proof. unfold shift_row. rewrite <- !nth_tl. destruct (_ =? 0); [reflexivity|]. apply tl_zupd. Qed.
Lemma hd_shift_row pos c s r : hd 0 (shift_row (S pos) c s r) = hd 0 r.
Proof. unfold shift_row. destruct (_ =? 0); [reflexivity|apply hd_zupd_S]. Qed.
Lemma shift_row_dot_inv pos c s r w : (pos < length r)%nat -> (c < length w)%nat -> dot (shift_row pos c s r) w = dot r (shifted pos c (- s) w).
Proof.
  intros Lr Lw. unfold shift_row, shifted. rewrite dot_upd by exact Lw. destruct (Z.eqb_spec (nth c r 0) 0) as [Z0|Z0]; [rewrite Z0; ring|]. rewrite dot_zupd by exact Lr. ring.
Qed.
Lemma shifted_length pos c s v : length (shifted pos c s v) = length v. Proof. apply zupd_length. Qed.
Lemma firstn_zupd l : forall n i x, (n <= i)%nat -> firstn n (zupd l i x) = firstn n l.
Proof. induction l as [|y l IH]; intros [|n] [|i] x H; cbn; try reflexivity; try lia. f_equal. apply IH. lia. Qed.
Lemma nth_shift_row pos c s r i : i <> pos -> nth i (shift_row pos c s r) 0 = nth i r 0.
Proof. intros N. unfold shift_row. destruct (_ =? 0); [reflexivity|]. rewrite nth_zupd. destruct (Nat.eqb_spec i pos); [congruence|reflexivity]. Qed.

Lemma shift_div_pres b div pos s : good b -> (div < ndiv b)%nat -> (pos <= total b)%nat -> hd 0 (nth div (b_div b) []) <> 0 -> nth (1 + pos) (nth div (b_div b) []) 0 <> 0 ->
  let b' := shift_div b div pos s in pres b b' /\ ndiv b' = ndiv b /\ (forall k, hd 0 (nth k (b_div b') []) = hd 0 (nth k (b_div b) [])).
Proof.
  intros G Hd Hp Hh Hn. cbn zeta. unfold shift_div. destruct (Z.eqb_spec s 0) as [|_]; [split; [apply pres_refl; exact G|]; auto|].
  pose proof G as (W & A & D & I & R & B). pose proof W as (We & Wi & Wd). destruct (good_int b div G Hd) as [RF EF]. assert (TT : total b = (nvar b + ndiv b)%nat) by reflexivity.
  set (c := (1 + nvar b + div)%nat). set (d := nth div (b_div b) []) in *. cbn zeta. set (ds := lset (b_div b) div _).
  set (b' := set_div _ _). destruct A as (rank & A).
  assert (Ld : length d = (2 + total b)%nat) by (apply rows_nth; assumption).
  assert (PC : pos <> c). { intros ->. apply (Nat.lt_irrefl (rank div)). apply A; auto. }
  assert (DC : nth (1 + c) d 0 = 0). { destruct (Z.eq_dec (nth (1 + c) d 0) 0) as [|E]; [assumption|]. exfalso. apply (Nat.lt_irrefl (rank div)). apply A; auto. }
  assert (ND : ndiv b' = ndiv b) by (unfold ndiv; cbn [b_div b' set_div set_ineq set_eq]; rewrite map_length; apply lset_length).
  assert (TB : total b' = total b) by (unfold total; rewrite ND; reflexivity).
  assert (ROW : forall k, (k < ndiv b)%nat -> nth k (b_div b') [] = if Nat.eqb k div then zupd d (1 + pos) (nth (1 + pos) d 0 + s * hd 0 d) else if hd 0 (nth k (b_div b) []) =? 0 then nth k (b_div b) [] else shift_row (1 + pos) (1 + c) s (nth k (b_div b) [])).
  { intros k Hk. cbn [b_div b' set_div set_ineq set_eq]. rewrite (map_nth_nil (fun r => if hd 0 r =? 0 then r else shift_row (1 + pos) (1 + c) s r)) by (unfold ds; rewrite lset_length; exact Hk). unfold ds. rewrite nth_lset by exact Hd. destruct (Nat.eqb_spec k div) as [->|]; [|reflexivity].
    destruct (_ =? 0); [reflexivity|]. apply shift_row_eq. rewrite nth_zupd. destruct (Nat.eqb_spec (1 + c) (1 + pos)); [lia|]. exact DC. }
  assert (HD : forall k, (k < ndiv b)%nat -> hd 0 (nth k (b_div b') []) = hd 0 (nth k (b_div b) [])).
  { intros k Hk. rewrite ROW by exact Hk. destruct (Nat.eqb_spec k div) as [->|]; [cbn [Nat.add]; apply hd_zupd_S|]. destruct (_ =? 0); [reflexivity|]. apply hd_shift_row. }
  assert (EL : forall v, length v = (1 + total b)%nat -> forall r, length r = (1 + total b)%nat -> dot (shift_row pos c s r) v = dot r (shifted pos c (- s) v)) by (intros v Lv r Lr; apply shift_row_dot_inv; [lia|unfold c; lia]).
  assert (EF2 : forall v, length v = (1 + total b)%nat -> forall r, length r = (1 + total b)%nat -> dot (shift_row pos c s r) (shifted pos c s v) = dot r v) by (intros v Lv r Lr; apply shift_row_dot; [exact PC|lia|unfold c; lia]).
  split.
  - apply pres_map; auto.
    + repeat split. exact ND.
    + split; [|split]; unfold rows_of; rewrite TB.
      * cbn [b_eq b' set_div set_ineq set_eq]. rewrite Forall_map. revert We. apply Forall_impl. intros r Lr. rewrite shift_row_length. exact Lr.
      * cbn [b_ineq b' set_div set_ineq set_eq]. rewrite Forall_map. revert Wi. apply Forall_impl. intros r Lr. rewrite shift_row_length. exact Lr.
      * apply rows_iff. change (length (b_div b')) with (ndiv b'). rewrite ND. intros k Hk. rewrite ROW by exact Hk. pose proof (rows_nth _ _ _ Wd Hk) as Lk. destruct (Nat.eqb_spec k div); [rewrite zupd_length; exact Ld|]. destruct (_ =? 0); [exact Lk|]. rewrite shift_row_length. exact Lk.
    + exists rank. intros k j Hk Hj. rewrite ND in Hk, Hj. rewrite (HD k Hk). intros N1. rewrite ROW by exact Hk. destruct (Nat.eqb_spec k div) as [->|NK].
      * rewrite nth_zupd. destruct (Nat.eqb_spec (2 + nvar b' + j) (1 + pos)) as [EP|EP]; intros N2.
        -- apply A; auto. change (nvar b') with (nvar b) in EP. rewrite EP. exact Hn.
        -- apply A; auto.
      * destruct (Z.eqb_spec (hd 0 (nth k (b_div b) [])) 0) as [|N0]; [congruence|]. destruct (Nat.eq_dec (2 + nvar b' + j) (1 + pos)) as [EP|EP].
        -- intros N2. unfold shift_row in N2. destruct (Z.eqb_spec (nth (1 + c) (nth k (b_div b) []) 0) 0) as [Z0|Z0]; [apply A; auto|]. apply Nat.lt_trans with (rank div); apply A; auto. change (nvar b') with (nvar b) in EP. rewrite EP. exact Hn.
        -- rewrite nth_shift_row by exact EP. intros N2. apply A; auto.
    + apply (Forall_nth_iff _ _ []). change (length (b_div b')) with (ndiv b'). rewrite ND. intros k Hk. rewrite (HD k Hk). apply (proj1 (Forall_nth_iff _ _ []) D). exact Hk.
    + intros v Lv Hv [Se Si]. exists (shifted pos c s v). split; [rewrite shifted_length; exact Lv|]. split; [apply firstn_zupd; unfold c; lia|]. split; cbn [b_eq b_ineq b' set_div set_ineq set_eq]; rewrite Forall_map; apply Forall_forall; intros r Hr; unfold zero_on, nonneg_on; rewrite EF2; auto.
      * apply (proj1 (Forall_forall _ _) Se). exact Hr.
      * apply (proj1 (Forall_forall _ _) We). exact Hr.
      * apply (proj1 (Forall_forall _ _) Si). exact Hr.
      * apply (proj1 (Forall_forall _ _) Wi). exact Hr.
    + intros v Lv Hv [Se Si]. exists (shifted pos c (- s) v). set (w := shifted pos c (- s) v). split; [unfold w; rewrite shifted_length; exact Lv|]. split; [apply firstn_zupd; unfold c; lia|]. cbn [b_eq b_ineq b' set_div set_ineq set_eq] in Se, Si. rewrite Forall_map in Se, Si. split.
      * split; apply Forall_forall; intros r Hr; unfold zero_on, nonneg_on, w; rewrite <- EL; auto.
        -- apply (proj1 (Forall_forall _ _) Se). exact Hr.
        -- apply (proj1 (Forall_forall _ _) We). exact Hr.
        -- apply (proj1 (Forall_forall _ _) Si). exact Hr.
        -- apply (proj1 (Forall_forall _ _) Wi). exact Hr.
      * intros _ DV k Hk. change (length (b_div b')) with (ndiv b') in Hk. rewrite ND in Hk. specialize (DV k Hk). unfold division in *. rewrite (HD k Hk). pose proof (rows_nth _ _ _ Wd Hk) as Lk. destruct (Z.eq_dec (hd 0 (nth k (b_div b) [])) 0) as [Z0|Z0]; [left; exact Z0|]. right. destruct DV as [|DV]; [congruence|]. rewrite ROW by exact Hk. destruct (Nat.eqb_spec k div) as [->|NK].
        -- fold d in DV, Z0 |- *. cbn [Nat.add]. rewrite tl_zupd. assert (Ltd : length (tl d) = (1 + total b)%nat) by (destruct d; cbn in *; lia). rewrite dot_zupd by lia. rewrite nth_tl. unfold w, shifted in DV. rewrite dot_upd in DV by (unfold c; lia). rewrite nth_tl in DV. change (S c) with (1 + c)%nat in DV. rewrite DC in DV. rewrite nth_zupd in DV. fold c in DV. replace (Nat.eqb c c && Nat.ltb c (length v)) with true in DV by (symmetry; rewrite Nat.eqb_refl; apply Nat.ltb_lt; unfold c; lia).
           change (S (nvar b + div)) with c. cbn [Nat.add] in *. nia.
        -- destruct (Z.eqb_spec (hd 0 (nth k (b_div b) [])) 0) as [|_]; [congruence|]. cbn [Nat.add]. rewrite tl_shift_row. rewrite EL by (try exact Lv; destruct (nth k (b_div b) []); cbn in *; lia). replace (nth (S (nvar b + k)) v 0) with (nth (1 + nvar b + k) w 0); [exact DV|]. unfold w, shifted. rewrite nth_zupd. destruct (Nat.eqb_spec (1 + nvar b + k) c) as [E|]; [unfold c in E; lia|reflexivity].
    + congruence.
  - split; [exact ND|]. intros k. destruct (Nat.lt_ge_cases k (ndiv b)) as [Hk|Hk]; [apply HD; exact Hk|]. rewrite !nth_overflow; [reflexivity|exact Hk|]. change (length (b_div b')) with (ndiv b'). lia.
Qed.

(** ** reduce_div_coefficients *)
Definition keeps (b b' : bmap) : Prop := pres b b' /\ ndiv b' = ndiv b /\ (forall k, hd 0 (nth k (b_div b') []) = hd 0 (nth k (b_div b) [])).
Lemma keeps_refl b : good b -> keeps b b. Proof. intros G. split; [apply pres_refl; exact G|]. split; reflexivity. Qed.
Lemma keeps_trans a b c : keeps a b -> keeps b c -> keeps a c.
Proof. intros (A1 & A2 & A3) (B1 & B2 & B3). split; [eapply pres_trans; eassumption|]. split; [congruence|]. intros k. congruence. Qed.
Lemma keeps_fold (f : bmap -> nat -> bmap) (P : nat -> Prop) b0 : (forall b i, keeps b0 b -> P i -> keeps b (f b i)) -> forall l b, keeps b0 b -> Forall P l -> keeps b0 (fold_left f l b).
Proof.
  intros H. induction l as [|i l IH]; intros b K F; [exact K|]. inversion_clear F. cbn [fold_left]. apply IH; [|assumption]. eapply keeps_trans; [exact K|]. apply H; assumption.
Qed.
Lemma keeps_good a b : keeps a b -> good b. Proof. intros ((_ & G & _) & _). exact G. Qed.
Lemma keeps_total a b : keeps a b -> total b = total a.
Proof. intros ((SS & _) & N & _). destruct (same_space_nvar _ _ SS) as [NV _]. unfold total. congruence. Qed.
Lemma reduce_of_div_keeps b div : good b -> (div < ndiv b)%nat -> hd 0 (nth div (b_div b) []) <> 0 -> keeps b (reduce_div_coefficients_of_div b div).
Proof.
  intros G Hd Hh. unfold reduce_div_coefficients_of_div. apply (keeps_fold _ (fun i => (i <= total b)%nat)); [|apply keeps_refl; exact G|apply Forall_forall; intros i Hi; apply in_seq in Hi; lia].
  intros b1 i K Hi. pose proof (keeps_good _ _ K) as G1. destruct (needs_reduction b1 div i) eqn:E; [|apply keeps_refl; exact G1]. unfold reduce_coefficient_in_div. pose proof K as (_ & N1 & H1). apply shift_div_pres; auto; [lia|rewrite (keeps_total _ _ K); exact Hi|rewrite H1; exact Hh|].
  unfold needs_reduction in E. destruct (Z.eqb_spec (nth (1 + i) (nth div (b_div b1) []) 0) 0); [discriminate|assumption].
Qed.
Lemma reduce_div_coefficients_pres b : good b -> keeps b (reduce_div_coefficients b).
Proof.
  intros G. unfold reduce_div_coefficients. apply (keeps_fold _ (fun i => (i < ndiv b)%nat)); [|apply keeps_refl; exact G|apply Forall_forall; intros i Hi; apply in_seq in Hi; lia].
  intros b1 i K Hi. pose proof (keeps_good _ _ K) as G1. destruct (Z.eqb_spec (hd 0 (nth i (b_div b1) [])) 0); [apply keeps_refl; exact G1|]. pose proof K as (_ & N1 & _). apply reduce_of_div_keeps; auto. lia.
Qed.
