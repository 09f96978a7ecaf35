(** The optimum computed by isl_basic_map_solve_lp. *)
From Coq Require Import ZArith List Bool Arith Lia.
From Verif Require Import SeqModel SeqSpec SeqProofs MatModel BMapModel BMapSpec BMapLists BMapSem BMapGauss2 BMapOrder BElimSpec BElimFM TabModel TabSpec TabBase TabStruct TabMark TabPivot TabStep TabSign TabMin TabKill TabAdd TabClose TabCut TabDetect TabRestore TabBuild TabMap LpModel LpSpec LpUndo LpMin.
Import ListNotations.
Open Scope Z_scope.

(** ** what does not change tab->in_undo *)
Lemma push_inundo t u : t_inundo (push t u) = t_inundo t.
Proof. unfold push. destruct (t_undo t); reflexivity. Qed.
Lemma push_var_inundo t u v t' : push_var t u v = Ok t' -> t_inundo t' = t_inundo t.
Proof.
  unfold push_var. destruct (v_row (t_info t v)); intros H; apply bind_ok in H; destruct H as (i & _ & H); injection H as <-; apply push_inundo.
Qed.
Lemma swap_inundo t i j : t_inundo (swap_rows t i j) = t_inundo t. Proof. reflexivity. Qed.
Lemma mark_inundo t i t' b : mark_redundant t i = Ok (t', b) -> t_inundo t' = t_inundo t.
Proof.
  unfold mark_redundant. set (t1 := upd t (rowv t i) (vs_red true)). assert (E1 : t_inundo t1 = t_inundo t) by reflexivity. clearbody t1. generalize (rowv t i) as v. intros v.
  destruct (Nat.ltb i (t_red t1)); [discriminate|]. destruct (t_preserve t1 || t_undo t1 || (0 <=? v)).
  - intros H. apply bind_ok in H. destruct H as (t2 & H2 & H). assert (E2 : t_inundo t2 = t_inundo t1).
    { destruct ((0 <=? v) && negb (v_nonneg (t_info t1 v))); [apply push_var_inundo in H2; rewrite H2; reflexivity|injection H2 as <-; reflexivity]. }
    apply bind_ok in H. destruct H as (t3 & H3 & H). injection H as <- <-. apply push_var_inundo in H3. rewrite H3. cbn [w_red t_inundo]. destruct (Nat.eqb i (t_red t2)); [|rewrite swap_inundo]; congruence.
  - intros H. injection H as <- <-. cbn [w_rows w_rv t_inundo upd w_info]. destruct (Nat.eqb i (nrow t1 - 1)); [|rewrite swap_inundo]; congruence.
Qed.
Lemma sweep_inundo : forall k i c t t', sweep k i c t = Ok t' -> t_inundo t' = t_inundo t.
Proof.
  induction k as [|k IH]; intros i c t t'; cbn [sweep]; [intros [= <-]; reflexivity|]. destruct (cf t i c =? 0); [apply IH|]. destruct (negb (v_frozen (t_info t (rowv t i))) && row_is_redundant t i); [|apply IH].
  intros H. apply bind_ok in H. destruct H as ((t1, b) & H1 & H). apply mark_inundo in H1. rewrite <- H1. apply (IH _ _ _ _ H).
Qed.
Lemma pivot_inundo t i c t' : pivot t i c = Ok t' -> t_inundo t' = t_inundo t.
Proof. unfold pivot. destruct (t_inundo (pivot_step t i c)) eqn:X; [intros [= <-]; reflexivity|]. intros H. apply sweep_inundo in H. rewrite H. reflexivity. Qed.
Lemma restore_row_inundo : forall fuel t v t' s, restore_row fuel t v = Ok (t', s) -> t_inundo t' = t_inundo t.
Proof.
  induction fuel as [|f IH]; intros t v t' s; cbn [restore_row]; [discriminate|]. intros H. apply bind_ok in H. destruct H as (i & _ & H).
  destruct (cst t i <? 0); [|injection H as <- _; reflexivity]. apply bind_ok in H. destruct H as ([(r, c)|] & _ & H); [|injection H as <- _; reflexivity].
  apply bind_ok in H. destruct H as (t1 & H1 & H). apply pivot_inundo in H1. rewrite <- H1. destruct (v_row (t_info t1 v)); [apply (IH _ _ _ _ H)|injection H as <- _; reflexivity].
Qed.
Lemma add_row_inundo t e t' : add_row t e = Ok t' -> t_inundo t' = t_inundo t.
Proof. unfold add_row. intros H. apply bind_ok in H. destruct H as (r & _ & H). injection H as <-. unfold allocate_con. cbv zeta. rewrite push_inundo. reflexivity. Qed.
Lemma kill_inundo t c t' b : kill_col t c = Ok (t', b) -> t_inundo t' = t_inundo t.
Proof.
  unfold kill_col. set (t1 := upd t (colv t c) (vs_zero true)). assert (E1 : t_inundo t1 = t_inundo t) by reflexivity. clearbody t1. generalize (colv t c) as v. intros v. destruct (t_undo t1).
  - intros H. apply bind_ok in H. destruct H as (t2 & H2 & H). injection H as <- <-. apply push_var_inundo in H2. cbn [w_dead t_inundo]. rewrite <- E1, <- H2. destruct (Nat.eqb c (t_dead t2)); reflexivity.
  - intros H. injection H as <- <-. cbn [w_rows w_cv t_inundo upd w_info]. rewrite <- E1. destruct (Nat.eqb c (ncol t1 - 1)); reflexivity.
Qed.
Lemma add_eqs_inundo : forall l t t', add_eqs t l = Ok t' -> t_inundo t' = t_inundo t.
Proof.
  induction l as [|e l IH]; intros t t'; cbn [add_eqs]; [intros [= <-]; reflexivity|]. intros H. apply bind_ok in H. destruct H as (t1 & H1 & H). apply IH in H. rewrite H. clear H IH.
  unfold add_eq0 in H1. apply bind_ok in H1. destruct H1 as (t2 & H2 & H1). apply bind_ok in H1. destruct H1 as (i & _ & H1). destruct (first_live t2 i) as [c|]; [|discriminate].
  apply bind_ok in H1. destruct H1 as (t3 & H3 & H1). apply bind_ok in H1. destruct H1 as ((t4, b) & H4 & H1). injection H1 as <-. apply add_row_inundo in H2. apply pivot_inundo in H3. apply kill_inundo in H4. cbn [w_neq t_inundo]. congruence.
Qed.
Lemma add_ineq_inundo fuel t e t' : add_ineq fuel t e = Ok t' -> t_inundo t' = t_inundo t.
Proof.
  unfold add_ineq. intros H. apply bind_ok in H. destruct H as (t1 & H1 & H). apply add_row_inundo in H1. apply bind_ok in H. destruct H as (t2 & H2 & H). apply push_var_inundo in H2. cbn [upd w_info t_inundo] in H2. rewrite H1 in H2. rewrite <- H2. clear H1 H2.
  apply bind_ok in H. destruct H as (i & _ & H). destruct (row_is_redundant t2 i).
  - apply bind_ok in H. destruct H as ((t3, b) & H3 & H). injection H as <-. apply mark_inundo in H3. exact H3.
  - apply bind_ok in H. destruct H as ((t3, s) & H3 & H). apply restore_row_inundo in H3. rewrite <- H3. destruct (s <? 0).
    + injection H as <-. unfold mark_empty. cbn [w_empty t_inundo]. destruct (negb (t_empty t3) && t_undo t3); [apply push_inundo|reflexivity].
    + match type of H with (if ?x then _ else _) = _ => destruct x end; [|injection H as <-; reflexivity]. apply bind_ok in H. destruct H as (j & _ & H). destruct (row_is_redundant t3 j); [|injection H as <-; reflexivity].
      apply bind_ok in H. destruct H as ((t4, b) & H4 & H). injection H as <-. apply mark_inundo in H4. exact H4.
Qed.
Lemma add_ineqs_inundo fuel : forall l t t', add_ineqs fuel t l = Ok t' -> t_inundo t' = t_inundo t.
Proof.
  induction l as [|e l IH]; intros t t'; cbn [add_ineqs]; [intros [= <-]; reflexivity|]. intros H. apply bind_ok in H. destruct H as (t1 & H1 & H). apply add_ineq_inundo in H1. rewrite <- H1. destruct (t_empty t1); [injection H as <-; reflexivity|apply IH; exact H].
Qed.
Lemma from_inundo fuel b t : b_empty b = false -> from_basic_map fuel b = Ok t -> t_inundo t = false.
Proof.
  intros Ne. unfold from_basic_map. rewrite Ne. intros H. apply bind_ok in H. destruct H as (t1 & H1 & H). apply add_eqs_inundo in H1. apply add_ineqs_inundo in H. rewrite H, H1. reflexivity.
Qed.

(** ** isl_tab_get_sample_value *)
Definition var_sample (t : tab) (vec : list Z) (j : nat) : Prop :=
  match v_row (t_info t (Z.of_nat j)) with
  | false => nth (S j) vec 0 = 0
  | true => exists i, (i < nrow t)%nat /\ v_idx (t_info t (Z.of_nat j)) = Some i /\ den t i * nth (S j) vec 0 = cst t i * hd 0 vec
  end.
Lemma scale_hd l m : hd 0 (seq_scale l m) = hd 0 l * m.
Proof. destruct l; reflexivity. Qed.
Lemma scale_nth l m i : nth i (seq_scale l m) 0 = nth i l 0 * m.
Proof. unfold seq_scale. rewrite <- (map_nth (fun x => x * m)). reflexivity. Qed.
Lemma scale_len l m : length (seq_scale l m) = length l.
Proof. apply map_length. Qed.
Lemma var_scale t vec m j : var_sample t vec j -> var_sample t (seq_scale vec m) j.
Proof. unfold var_sample. destruct (v_row _); [|rewrite scale_nth; intros ->; ring]. intros (i & Hi & Ei & E). exists i. split; [exact Hi|]. split; [exact Ei|]. rewrite scale_nth, scale_hd, !Z.mul_assoc, E. reflexivity. Qed.
Lemma var_app t vec x j : (S j < length vec)%nat -> var_sample t vec j -> var_sample t (vec ++ [x]) j.
Proof. intros H. unfold var_sample. rewrite app_nth1 by exact H. destruct vec; [cbn in H; lia|]. auto. Qed.
Lemma lcm_step h d : 0 < h -> 0 < d -> let m := d / Z.gcd h d in 0 < m /\ d * ((h * m) / d) = h * m.
Proof.
  intros Hh Hd. cbn zeta. pose proof (Z.gcd_nonneg h d) as G0. assert (G : Z.gcd h d <> 0) by (intros E; apply Z.gcd_eq_0_r in E; lia).
  destruct (Z.gcd_divide_l h d) as (a & Ea), (Z.gcd_divide_r h d) as (c & Ec). set (g := Z.gcd h d) in *. assert (0 < g) by lia. clearbody g. rewrite Ec, Z.div_mul by lia.
  assert (0 < c) by nia. split; [assumption|]. replace (h * c) with (a * (c * g)) by (rewrite Ea; ring). rewrite Z.div_mul by nia. ring.
Qed.
Lemma sample_loop_ok L t : core L t -> forall n i vec, (i + n = t_nvar t)%nat -> length vec = S i -> 0 < hd 0 vec -> (forall j, (j < i)%nat -> var_sample t vec j) ->
  exists s, sample_loop t n i vec = Ok s /\ length s = (1 + t_nvar t)%nat /\ 0 < hd 0 s /\ forall j, (j < t_nvar t)%nat -> var_sample t s j.
Proof.
  intros C. pose proof (c_arr _ _ C) as A. induction n as [|n IH]; intros i vec Hn Lv Hp Hj.
  { exists vec. split; [reflexivity|]. split; [lia|]. split; [exact Hp|]. intros j H. apply Hj. lia. }
  cbn [sample_loop]. destruct (v_row (t_info t (Z.of_nat i))) eqn:Rw; cbn [negb].
  - assert (V : valid t (Z.of_nat i)) by (unfold valid; lia). destruct (v_idx (t_info t (Z.of_nat i))) as [r|] eqn:Ix.
    2: { destruct (f_gone _ (c_flg _ _ C) (Z.of_nat i) V Ix) as (X & _). lia. }
    pose proof (a_inv _ A _ _ V Ix) as Iv. rewrite Rw in Iv. destruct Iv as (Hr & _). unfold row_of. rewrite Ix, (proj2 (Nat.ltb_lt _ _) Hr). cbn [bind]. unfold divexact.
    pose proof (a_den _ A r Hr) as Dr. destruct (lcm_step (hd 0 vec) (den t r) Hp Dr) as (Mp & Em). cbn zeta in Mp, Em. set (m := den t r / Z.gcd (hd 0 vec) (den t r)) in *. clearbody m. rewrite scale_hd.
    apply IH; [lia|rewrite app_length, scale_len; cbn [length]; lia| |].
    + destruct vec as [|x vec]; [cbn in Lv; lia|]. cbn in Hp |- *. nia.
    + intros j Hj'. destruct (Nat.eq_dec j i) as [->|].
      * unfold var_sample. rewrite Rw. exists r. split; [exact Hr|]. split; [exact Ix|]. rewrite app_nth2, scale_len, Lv, Nat.sub_diag by (rewrite scale_len; lia). cbn [nth].
        replace (hd 0 (seq_scale vec m ++ [hd 0 vec * m / den t r * cst t r])) with (hd 0 vec * m) by (destruct vec; [cbn in Lv; lia|reflexivity]). rewrite Z.mul_assoc, Em. ring.
      * apply var_app; [rewrite scale_len; lia|]. apply var_scale, Hj. lia.
  - apply IH; [lia|rewrite app_length; cbn [length]; lia|destruct vec; [cbn in Lv; lia|exact Hp]|]. intros j Hj'. destruct (Nat.eq_dec j i) as [->|].
    + unfold var_sample. rewrite Rw. rewrite app_nth2, Lv, Nat.sub_diag by lia. reflexivity.
    + apply var_app; [lia|]. apply Hj. lia.
Qed.
Lemma at_sample_feas L t p : represents false L t -> sample_ok None t -> at_sample L t p -> 0 <= hd 0 p -> feas L t p.
Proof.
  intros R D Sp Hp. pose proof (r_core _ _ _ R) as C. pose proof (c_arr _ _ C) as A. pose proof (c_flg _ _ C) as F. pose proof Sp as (Lp & Cv & G).
  assert (Cl : forall v, valid t v -> v_row (t_info t v) = false -> value L p v = 0).
  { intros v V Rv. destruct (v_idx (t_info t v)) as [j|] eqn:E; [|apply G; [exact V|split; assumption]]. destruct (at_col _ _ _ A V E Rv) as (Hj & Ej). rewrite <- Ej. apply Cv. exact Hj. }
  split; [exact Lp|]. intros v V. split; [intros Zv; apply (r_zero _ _ _ R p Lp); auto|]. intros Nn Rd. destruct (v_row (t_info t v)) eqn:Rv; [|rewrite Cl by assumption; lia].
  destruct (live_row_at t v A F V Rv Rd) as (i & Hi & Ei). pose proof (at_sample_row L t p i C Sp ltac:(lia)) as E. rewrite Ei in E. pose proof (a_den _ A i ltac:(lia)).
  assert (0 <= cst t i) by (apply D; [exact Hi|discriminate|rewrite Ei; exact Nn]). nia.
Qed.
Lemma value_ratio L k h p s : length s = length p -> (forall j, k * nth j s 0 = h * nth j p 0) -> forall v, k * value L s v = h * value L p v.
Proof.
  intros Ls H v. unfold value. destruct (v <? 0); [|apply H]. generalize (nth (Z.to_nat (-1 - v)) L []) as l. revert p Ls H. induction s as [|x s IH]; intros [|y p] Ls H l; try discriminate; [rewrite !(dot_comm l); cbn; ring|].
  destruct l as [|a l]; [cbn; ring|]. cbn [dot]. pose proof (H O) as H0. cbn in H0. assert (IH' : k * dot l s = h * dot l p) by (apply IH; [cbn in Ls; lia|intros j; exact (H (S j))]). rewrite !Z.mul_add_distr_l, IH'. replace (k * (a * x)) with (a * (k * x)) by ring. rewrite H0. ring.
Qed.
Lemma sample_value_ok L t : represents false L t -> sample_ok None t -> exists s, sample_value t = Ok s /\ 0 < hd 0 s /\ at_sample L t s /\ feas L t s.
Proof.
  intros R D. pose proof (r_core _ _ _ R) as C. pose proof (c_arr _ _ C) as A. unfold sample_value.
  destruct (sample_loop_ok L t C (t_nvar t) 0 [1]) as (s0 & -> & Ls & Hs & Vs); try lia; [reflexivity|cbn; lia|]. cbn [bind].
  destruct (norm_ok s0) as (g & Gp & Ln & Ng); [destruct s0; cbn in Hs |- *; lia|]. exists (seq_normalize s0). split; [reflexivity|].
  assert (H0 : forall x, hd 0 x = nth 0 x 0) by (intros [|? ?]; reflexivity).
  assert (Hn : hd 0 s0 = g * hd 0 (seq_normalize s0)) by (rewrite !H0; apply Ng). assert (Hp : 0 < hd 0 (seq_normalize s0)) by nia. split; [exact Hp|].
  destruct (c_ind _ _ C 1 (fun _ => 0)) as (k & p & K & Lp & Hh & Cv & G).
  assert (Sp : at_sample L t p) by (split; [exact Lp|]; split; [intros c Hc; rewrite Cv by exact Hc; ring|exact G]).
  assert (Ra : forall j, k * nth j s0 0 = hd 0 s0 * nth j p 0).
  { intros [|j]; [rewrite <- !H0, Hh; ring|]. destruct (lt_dec j (t_nvar t)) as [Hj|N]; [|rewrite !nth_overflow by lia; ring]. assert (V : valid t (Z.of_nat j)) by (unfold valid; lia).
    assert (Vp : value L p (Z.of_nat j) = nth (S j) p 0). { unfold value. rewrite (proj2 (Z.ltb_ge _ _)) by lia. f_equal. lia. }
    specialize (Vs j Hj). unfold var_sample in Vs. destruct (v_row (t_info t (Z.of_nat j))) eqn:Rw.
    - destruct Vs as (i & Hi & Ix & E). pose proof (at_sample_row L t p i C Sp Hi) as E2. pose proof (a_inv _ A _ _ V Ix) as Iv2. rewrite Rw in Iv2. destruct Iv2 as (_ & Ev). rewrite Ev, Vp, Hh in E2. pose proof (a_den _ A i Hi). nia.
    - rewrite Vs. destruct (v_idx (t_info t (Z.of_nat j))) as [c|] eqn:Ix.
      + destruct (at_col _ _ _ A V Ix Rw) as (Hc & Ec). specialize (Cv c Hc). rewrite Ec, Vp in Cv. rewrite Cv. ring.
      + rewrite <- Vp, G; [ring|exact V|split; assumption]. }
  assert (Vv : forall v, (k * g) * value L (seq_normalize s0) v = hd 0 s0 * value L p v).
  { apply value_ratio; [lia|]. intros j. rewrite <- Ra, Ng. ring. }
  assert (Sn : at_sample L t (seq_normalize s0)).
  { split; [lia|]. split; [intros c Hc; specialize (Vv (colv t c)); rewrite Cv in Vv by exact Hc; nia|]. intros v V Gv. specialize (Vv v). rewrite G in Vv by assumption. nia. }
  split; [exact Sn|]. apply at_sample_feas; auto. lia.
Qed.
(** ** isl_basic_map_solve_lp *)
Lemma falls_below (S : list Z -> Prop) f n : (forall q, S q -> length q = (1 + n)%nat /\ 0 < hd 0 q) -> (exists q, S q) -> falls S f n -> unbounded_below S f.
Proof.
  intros HS (q & Sq) (r & Lr & Hr & Dr & Cl) B. destruct (HS q Sq) as (Lq & Hq). set (m := Z.max 0 (dot f q - B * hd 0 q + 1)). exists (plus_times q m r). split; [apply Cl; [exact Sq|lia]|].
  rewrite plus_dot, plus_hd, Hr by lia. assert (0 <= m) by lia. assert (dot f q - B * hd 0 q + 1 <= m) by lia. nia.
Qed.
Lemma dot_opp f p : dot (map Z.opp f) p = - dot f p.
Proof. revert p. induction f as [|a f IH]; intros [|x p]; cbn [map dot]; try ring. - rewrite IH. ring. Qed.
Lemma falls_above (S : list Z -> Prop) f n : (forall q, S q -> length q = (1 + n)%nat /\ 0 < hd 0 q) -> (exists q, S q) -> falls S (map Z.opp f) n -> unbounded_above S f.
Proof. intros HS Ex Fl B. destruct (falls_below S _ n HS Ex Fl (- B)) as (p & Sp & H). exists p. split; [exact Sp|]. rewrite dot_opp in H. lia. Qed.
Lemma dot_app (f g p e : list Z) : length f = length p -> dot (f ++ g) (p ++ e) = dot f p + dot g e.
Proof. revert p. induction f as [|a f IH]; intros [|x p] E; try discriminate; [reflexivity|]. cbn [app dot]. rewrite IH by (cbn in E; lia). ring. Qed.
Lemma dot_divs f p n : length p = (length f + n)%nat -> dot (f ++ repeat 0 n) p = dot f (firstn (length f) p).
Proof. intros E. rewrite <- (firstn_skipn (length f) p) at 1. rewrite dot_app by (rewrite firstn_length; lia). rewrite dot_repeat0. ring. Qed.
Lemma firstn_hd (p : list Z) n : hd 0 (firstn (S n) p) = hd 0 p.
Proof. destruct p; reflexivity. Qed.
Lemma plus_firstn : forall n p m r, firstn n (plus_times p m r) = plus_times (firstn n p) m (firstn n r).
Proof. induction n as [|n IH]; intros [|x p] m [|y r]; cbn [plus_times firstn]; try reflexivity. rewrite IH. reflexivity. Qed.
(** from the points with local variables to those without *)
Section Project.
Variables (W : list Z -> Prop) (n k : nat).
Hypothesis HW : forall v, W v -> length v = (1 + n + k)%nat /\ 0 < hd 0 v.
Definition shadow (q : list Z) : Prop := length q = (1 + n)%nat /\ exists e, length e = k /\ W (q ++ e).
Lemma shadow_first v : W v -> shadow (firstn (1 + n) v).
Proof.
  intros Wv. destruct (HW v Wv) as (Lv & _). split; [rewrite firstn_length; lia|]. exists (skipn (1 + n) v). split; [rewrite skipn_length; lia|]. rewrite firstn_skipn. exact Wv.
Qed.
Lemma shadow_hd q : shadow q -> length q = (1 + n)%nat /\ 0 < hd 0 q.
Proof. intros (Lq & e & Le & We). split; [exact Lq|]. destruct (HW _ We) as (_ & H). destruct q; [cbn in Lq; lia|exact H]. Qed.
Variables (f : list Z) (denom : Z).
Hypothesis Lf : length f = (1 + n)%nat.
Lemma shadow_dot q e : length q = (1 + n)%nat -> dot (f ++ repeat 0 k) (q ++ e) = dot f q.
Proof. intros Lq. rewrite dot_app by lia. rewrite dot_repeat0. ring. Qed.
Lemma shadow_min a d : minimum W (f ++ repeat 0 k) denom a d -> minimum shadow f denom a d.
Proof.
  intros (Dp & Lo & v & Wv & E). split; [exact Dp|]. split.
  - intros q (Lq & e & Le & We). specialize (Lo _ We). rewrite shadow_dot in Lo by exact Lq. destruct q; [cbn in Lq; lia|exact Lo].
  - exists (firstn (1 + n) v). split; [apply shadow_first; exact Wv|]. destruct (HW v Wv) as (Lv & _). rewrite dot_divs in E by lia. rewrite Lf in E. rewrite <- E. destruct v; reflexivity.
Qed.
Lemma shadow_falls r : length r = (1 + n + k)%nat -> hd 0 r = 0 -> dot (f ++ repeat 0 k) r < 0 -> (forall p m, W p -> 0 <= m -> W (plus_times p m r)) -> falls shadow f n.
Proof.
  intros Lr Hr Dr Cl. exists (firstn (1 + n) r). split; [rewrite firstn_length; lia|]. split; [destruct r; exact Hr|]. split; [rewrite dot_divs, Lf in Dr by lia; exact Dr|].
  intros q m (Lq & e & Le & We) Hm. specialize (Cl _ m We Hm). apply shadow_first in Cl. rewrite plus_firstn in Cl. rewrite <- Lq in Cl at 1. rewrite firstn_len_app in Cl. exact Cl.
Qed.
End Project.
Lemma min_max S f denom a d : minimum S (map Z.opp f) denom a d -> maximum S f denom (- a) d.
Proof.
  intros (Dp & Lo & p & Sp & E). split; [exact Dp|]. split; [intros q Sq; specialize (Lo q Sq); rewrite dot_opp in Lo; lia|]. exists p. split; [exact Sp|]. rewrite dot_opp in E. lia.
Qed.
Lemma gauss_keeps_empty b b' p : wf b -> acyclic b -> gauss b = Ok (b', p) -> b_empty b = true -> b_empty b' = true.
Proof.
  intros W A E Em. unfold gauss in E. destruct (order_divs_ok b W A) as (b1 & E1 & RN & O1 & D1 & _). rewrite E1 in E. pose proof RN as (SH & W1 & _).
  destruct (gauss_ordered_ok b1 W1 O1) as (b2 & p2 & E2 & [[ST EC]|(EM & _)]); rewrite E2 in E; injection E as <- <-; [|exact EM].
  destruct ST as (SH' & _). destruct SH as (_ & _ & _ & _ & _ & S6), SH' as (_ & _ & _ & _ & _ & S6'). congruence.
Qed.
Definition prog (f : list Z) (b : bmap) : list Z := f ++ repeat 0 (ndiv b).
Lemma solve_lp_min fuel b f denom exact b' p : wf b -> acyclic b -> length f = (1 + nvar b)%nat -> 0 < denom -> gauss b = Ok (b', p) ->
  wp (do t <- from_basic_map fuel b' ;; do (t, r) <- tab_min fuel t (prog f b) denom exact ;;
      do sol <- match r with Lp_ok _ _ => sample_value t | _ => Ok [] end ;; Ok (r, sol)) (fun '(o, sol) => lp_spec (pts b) (nvar b) (ndiv b) f denom false exact o sol).
Proof.
  intros Wb Ac Lf Hd Eg. destruct (gauss_ok b Wb Ac) as (b2 & p2 & Eg2 & Sp & Wb' & _ & _ & Pt & Ec & Nd). rewrite Eg in Eg2. injection Eg2 as <- <-.
  assert (Nv : nvar b' = nvar b) by (destruct Sp as (S1 & S2 & S3 & _); unfold nvar; congruence).
  destruct (b_empty b') eqn:Em'.
  - unfold from_basic_map. rewrite Em'. cbn [bind]. unfold tab_min, mark_empty. cbn [w_empty t_empty bind]. cbn [wp lp_spec]. intros q (Lq & Hq & Pq). apply (Pt q Lq Hq) in Pq. destruct Pq as (X & _). congruence.
  - assert (Em : b_empty b = false) by (destruct (b_empty b) eqn:E; [rewrite (gauss_keeps_empty b b' p Wb Ac Eg E) in Em'; discriminate|reflexivity]).
    destruct (Ec Em eq_refl) as (ps & Ech). destruct (Nd eq_refl) as (Ndv & _). assert (Tt : total b' = (nvar b + ndiv b)%nat) by (unfold total; rewrite Nv, Ndv; reflexivity).
    pose proof (from_basic_map_keeps fuel b' Wb' Em') as K. pose proof (from_echelon fuel b' ps Wb' Em' Ech) as Nn. pose proof (from_basic_map_ok fuel b' Wb' Em') as K2.
    destruct (from_basic_map fuel b') as [t| | |] eqn:Ef; try contradiction; [|exact I]. cbn [bind]. cbn [wpn] in K2. destruct K2 as (_ & Ntv & _).
    assert (Pe : forall q, pts b q -> exists e, length e = ndiv b /\ system (b_eq b') (b_ineq b') (q ++ e)).
    { intros q (Lq & Hq & Pq). apply (Pt q Lq Hq) in Pq. destruct Pq as (_ & e & Le & Se). rewrite Ndv in Le. eauto. }
    destruct (t_empty t) eqn:Et.
    + unfold tab_min. rewrite Et. cbn [bind wp lp_spec]. intros q Pq. destruct (Pe q Pq) as (e & Le & Se). destruct Pq as (Lq & Hq & _). apply (K (q ++ e)); [rewrite app_length, Tt; lia|destruct q; [cbn in Lq; lia|exact Hq]|exact Se].
    + destruct K as (R & D & _ & Fe). set (L := b_eq b' ++ b_ineq b') in *. pose (W := fun v => 0 < hd 0 v /\ feas L t v).
      assert (HW : forall v, W v -> length v = (1 + nvar b + ndiv b)%nat /\ 0 < hd 0 v). { intros v (Hv & Fv). apply (Fe v Hv) in Fv. destruct Fv as (Lv & _). rewrite Tt in Lv. split; [lia|exact Hv]. }
      assert (Eq : forall q, shadow W (nvar b) (ndiv b) q <-> pts b q).
      { intros q. split.
        - intros Sq. destruct (shadow_hd W _ _ HW q Sq) as (Lq & Hq). destruct Sq as (_ & e & Le & (Hv & Fv)). split; [exact Lq|]. split; [exact Hq|]. apply (Pt q Lq Hq). split; [exact Em'|]. exists e. split; [rewrite Ndv; exact Le|]. apply (Fe _ Hv) in Fv. apply Fv.
        - intros Pq. destruct (Pe q Pq) as (e & Le & Se). destruct Pq as (Lq & Hq & _). split; [exact Lq|]. exists e. split; [exact Le|]. assert (Hv : 0 < hd 0 (q ++ e)) by (destruct q; [cbn in Lq; lia|exact Hq]). split; [exact Hv|]. apply (Fe _ Hv). split; [rewrite app_length, Tt; lia|exact Se]. }
      assert (Lp : length (prog f b) = (1 + t_nvar t)%nat) by (unfold prog; rewrite app_length, repeat_length, Ntv, Tt; lia).
      apply wp_bind. eapply wp_weak; [apply (tab_min_ok L fuel t (prog f b) denom exact R D Et (from_inundo fuel b' t Em' Ef) Lp Hd)|].
      intros [t' o] (R' & D' & Fe' & _ & Mn). unfold min_spec in Mn. destruct o as [| |a d]; [contradiction| |].
      * cbn [bind wp lp_spec]. destruct Mn as (r & Lr & Hr & Dr & Cl). split.
        { destruct (sample_point false L t R D) as (k & v & K0 & Hv & Fv & _). exists (firstn (1 + nvar b) v). apply Eq, shadow_first; [exact HW|]. split; [lia|exact Fv]. }
        destruct (shadow_falls W (nvar b) (ndiv b) HW f Lf r) as (r' & A1 & A2 & A3 & A4); [rewrite Lr, Ntv, Tt; lia|exact Hr|exact Dr|exact Cl|].
        exists r'. split; [exact A1|]. split; [exact A2|]. split; [exact A3|]. intros q m Pq Hm. apply Eq. apply A4; [apply Eq; exact Pq|exact Hm].
      * destruct Mn as (a0 & d0 & Mn & At & Rd). destruct (sample_value_ok L t' R' D') as (s & -> & Hs & Sp' & Fs). cbn [bind wp lp_spec]. exists a0, d0.
        assert (Ws : W s) by (split; [exact Hs|apply (Fe' s Hs); exact Fs]). specialize (At s Sp'). destruct (HW s Ws) as (Ls & _).
        apply (shadow_min W (nvar b) (ndiv b) HW f denom Lf) in Mn. split.
        { destruct Mn as (M1 & M2 & q & M3 & M4). split; [exact M1|]. split; [intros x Px; apply M2, Eq; exact Px|]. exists q. split; [apply Eq; exact M3|exact M4]. }
        split; [exact Rd|]. split; [exact Ls|]. split; [apply Eq, shadow_first; assumption|]. unfold prog in At. rewrite dot_divs, Lf in At by lia. exact At.
Qed.
Lemma solve_lp_ok fuel b max f denom exact : wf b -> acyclic b -> length f = (1 + nvar b)%nat -> 0 < denom ->
  wp (solve_lp fuel b max (prog f b) denom exact) (fun '(o, sol) => lp_spec (pts b) (nvar b) (ndiv b) f denom max exact o sol).
Proof.
  intros Wb Ac Lf Hd. unfold solve_lp. destruct (gauss_ok b Wb Ac) as (b' & p & Eg & _). rewrite Eg. cbn [bind].
  assert (En : seq_neg (prog f b) = prog (map Z.opp f) b). { unfold prog, seq_neg. rewrite map_app. f_equal. induction (ndiv b) as [|k IH]; [reflexivity|]. cbn. rewrite IH. reflexivity. }
  set (g := if max then map Z.opp f else f). assert (Eg' : (if max then seq_neg (prog f b) else prog f b) = prog g b) by (unfold g; destruct max; [exact En|reflexivity]). rewrite Eg'.
  assert (Lg : length g = (1 + nvar b)%nat) by (unfold g; destruct max; rewrite ?map_length; exact Lf).
  pose proof (solve_lp_min fuel b g denom exact b' p Wb Ac Lg Hd Eg) as H. destruct (from_basic_map fuel b') as [t| | |]; cbn [bind] in *; try exact H. destruct (tab_min fuel t (prog g b) denom exact) as [[t' r]| | |]; cbn [bind] in *; try exact H.
  destruct (match r with Lp_ok _ _ => sample_value t' | _ => Ok [] end) as [sol| | |]; cbn [bind] in *; try exact H. cbn [wp] in *. unfold g in H. destruct max; [|destruct r; exact H].
  destruct r as [| |a d]; cbn [lp_spec] in *; try exact H. destruct H as (a0 & d0 & Mn & Rd & Ls & Ps & At). exists (- a0), d0. split; [apply min_max; exact Mn|]. split.
  - destruct exact; destruct Rd as (R1 & R2); [split; congruence|]. split; [exact R1|]. unfold rounded_up, rounded_down in *. lia.
  - split; [exact Ls|]. split; [exact Ps|]. rewrite dot_opp in At. lia.
Qed.
