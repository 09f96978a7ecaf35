(** Evaluation, coefficients, construction and NaN of affine expressions. *)
From Coq Require Import ZArith List Bool QArith Arith Lia Qfield ZifyBool.
From Verif Require Import SeqModel SeqSpec SeqProofs MatModel ValModel ValSpec ValProofs LocalModel LocalSpec LocalProofs SpaceModel SpaceSpec QpModel QpSpec QpProofs AffModel AffSpec AffBase AffNorm AffProofs AffArith AffPull.
Import ListNotations.
Open Scope Z_scope.

Lemma opt_eqb_refl a : opt_eqb a a = true.
Proof. destruct a; cbn; [apply Z.eqb_refl|reflexivity]. Qed.
Fixpoint het_refl (s : space) : has_equal_tuples s s = true.
Proof.
  destruct s as [np ni no i0 i1 n0 n1 l]. cbn. rewrite !Nat.eqb_refl, !opt_eqb_refl. cbn [andb]. destruct n0 as [a|]; [rewrite (het_refl a)|]; (destruct n1 as [b|]; [rewrite (het_refl b)|]); reflexivity.
Qed.
Lemma is_equal_refl s : is_equal s s = true.
Proof.
  unfold is_equal, has_equal_params, match_. rewrite het_refl, andb_true_r. assert (T : tuple_is_equal s Param s Param = true). { unfold tuple_is_equal. rewrite Nat.eqb_refl, opt_eqb_refl. cbn [andb]. destruct (nested s Param); [apply het_refl|reflexivity]. }
  rewrite T. cbn [negb]. assert (F : forallb (fun i => opt_eqb (get_id s Param i) (get_id s Param i)) (seq 0 (dim s Param)) = true) by (apply forallb_forall; intros i _; apply opt_eqb_refl). destruct (ids s); [exact F|reflexivity].
Qed.
Theorem mod_val_ok junk f x : wf_aff f -> vd x = 1 -> 0 < vn x ->
  exists g, aff_mod junk f x = Ok g /\ a_sp g = a_sp f /\ wf_aff g /\ forall v r n, avalue f v r -> is_floor (r / inject_Z (vn x)) n -> avalue g v (r - inject_Z (vn x) * inject_Z n).
Proof. intros W D N. exact (mod_ok junk f x W D N (is_equal_refl _)). Qed.

(** ** evaluation *)
Lemma norm_q n d r : d <> 0 -> (inject_Z d * r == inject_Z n)%Q -> means (v_normalize (mkv n d)) (EFin r).
Proof. intros N E. apply normalize_means; [exact N|]. unfold Qeq in E. cbn in E. lia. Qed.
Theorem eval_ok f v r : wf_aff f -> avalue f v r -> exists x, aff_eval f v = Ok x /\ means x (EFin r).
Proof.
  intros W A. pose proof W as ((WD & K & L) & P). pose proof (avalue_point _ _ _ A) as (Lv & V0). destruct A as (w & Sw & Fw & E). unfold aff_eval. destruct v as [|v0 vt] eqn:Ev; [cbn in Lv; discriminate|]. rewrite <- Ev in *.
  destruct (extend_point_ok (a_d f) (a_div f) v WD K Lv V0) as (w' & E' & Sw' & Fw'). rewrite E'. cbn [LocalModel.bind]. eexists. split; [reflexivity|]. assert (w' = w) by (eapply sat_unique; eauto; congruence). subst w'.
  pose proof Sw as (_ & W0 & _). rewrite W0, Z.mul_1_r. apply norm_q; [lia|]. rewrite inner_ok. exact E.
Qed.
Theorem eval_nan f v : nan_aff f -> (int_point (a_d f) v \/ v = []) -> exists x, aff_eval f v = Ok x /\ means x ENan.
Proof.
  intros ((WD & K & L) & Z0) [(Lv & V0)| ->]; [|exists v_nan; split; [reflexivity|split; reflexivity]]. unfold aff_eval. destruct v as [|v0 vt] eqn:Ev; [cbn in Lv; discriminate|]. rewrite <- Ev in *.
  destruct (extend_point_ok (a_d f) (a_div f) v WD K Lv V0) as (w & E & _). rewrite E. cbn [LocalModel.bind]. eexists. split; [reflexivity|]. rewrite (Z0 0%nat). replace (seq_inner_product (skipn 1 (a_v f)) w) with 0; [split; reflexivity|]. symmetry. rewrite inner_ok. apply dot_zeros. intros j. rewrite nth_skipn. apply Z0.
Qed.
Lemma eval_void f : aff_eval f [] = Ok v_nan.
Proof. reflexivity. Qed.
Lemma qdot_scaled k : forall l w, ~ (k == 0)%Q -> (qdot l (map (fun x => inject_Z x / k) w) == inject_Z (dot l w) / k)%Q.
Proof.
  induction l as [|a l IH]; intros w N; [cbn [qdot dot]; unfold Qdiv; rewrite Qmult_0_l; reflexivity|]. destruct w as [|b w]; [cbn [map qdot dot]; unfold Qdiv; rewrite Qmult_0_l; reflexivity|].
  cbn [map qdot dot]. rewrite (IH w N), inject_Z_plus, inject_Z_mult. field. exact N.
Qed.
(** at a rational point, if there are no integer divisions *)
Theorem eval_rat f k t : wf_aff f -> a_div f = [] -> 0 < k -> length t = a_d f ->
  exists x r, aff_eval f (k :: t) = Ok x /\ means x (EFin r) /\ rat_value f (map (fun c => inject_Z c / inject_Z k)%Q (k :: t)) r.
Proof.
  intros ((_ & _ & L) & P) N Hk Lt. unfold aff_eval. rewrite N. unfold extend_point. cbn [divs_known forallb negb]. replace (length (k :: t)) with (1 + a_d f)%nat by (cbn [length]; lia). rewrite Nat.eqb_refl. cbn [negb LocalModel.bind].
  set (D := seq_inner_product (skipn 1 (a_v f)) (k :: t)). set (m := nth 0 (a_v f) 0) in *. eexists. exists (inject_Z D / inject_Z (m * k))%Q. split; [reflexivity|]. split.
  - cbn [nth]. apply norm_q; [nia|]. field. apply inj_nz. nia.
  - split; [rewrite map_length; cbn [length]; lia|]. exists []. unfold a_n. rewrite N. split; [reflexivity|]. split; [intros i Hi; cbn in Hi; lia|]. cbn [map]. rewrite app_nil_r. rewrite (qdot_scaled (inject_Z k) (skipn 1%nat (a_v f)) (k :: t)) by (apply inj_nz; lia). fold m. unfold D. rewrite inner_ok, inject_Z_mult. field. split; apply inj_nz; lia.
Qed.
(** a rational point and integer divisions: an error *)
Lemma eval_rat_div f v : a_div f <> [] -> v <> [] -> nth 0 v 0 <> 1 -> aff_eval f v = Null.
Proof.
  intros N Nv H. unfold aff_eval. destruct v as [|x t]; [contradiction|]. unfold extend_point. destruct (divs_known _); [|reflexivity]. destruct (Nat.eqb _ _); [|reflexivity]. cbn [negb]. destruct (a_div f); [contradiction|]. destruct (Z.eqb_spec (nth 0 (x :: t) 0) 1); [contradiction|reflexivity].
Qed.

(** ** coefficients *)
Lemma coef_means f c : wf_aff f -> means (v_normalize (v_rat_raw (nth c (a_v f) 0) (nth 0 (a_v f) 0))) (EFin (coef f c)).
Proof. intros (_ & P). apply norm_q; [lia|]. unfold coef. field. apply inj_nz. lia. Qed.
Theorem get_constant_ok f : wf_aff f -> means (aff_get_constant f) (EFin (coef f 1)).
Proof. intros W. unfold aff_get_constant. rewrite not_nan by exact W. apply coef_means. exact W. Qed.
Theorem get_coefficient_ok f pos : wf_aff f -> (pos < a_d f + a_n f)%nat -> exists x, aff_get_coefficient f pos = Ok x /\ means x (EFin (coef f (2 + pos))).
Proof. intros W H. unfold aff_get_coefficient. rewrite not_nan by exact W. destruct (Nat.ltb_spec pos (a_d f + a_n f)); [|lia]. cbn [negb]. eexists. split; [reflexivity|]. apply coef_means. exact W. Qed.
(** the value in terms of the coefficients *)
Fixpoint sumq (f : aff) (c : nat) (w : list Z) : Q := match w with [] => 0 | x :: w' => coef f c * inject_Z x + sumq f (S c) w' end.
Lemma sumq_dot f : wf_aff f -> forall w c, (c + length w <= length (a_v f))%nat -> (inject_Z (nth 0%nat (a_v f) 0%Z) * sumq f c w == inject_Z (dot (skipn c (a_v f)) w))%Q.
Proof.
  intros W. pose proof W as (_ & P). induction w as [|x w IH]; intros c H; cbn [sumq length] in *; [rewrite dot_nil_r; ring|]. assert (E : skipn c (a_v f) = nth c (a_v f) 0 :: skipn (S c) (a_v f)).
  { generalize (a_v f) c ltac:(exact H). clear. induction l as [|a l IH]; intros c H; [cbn in H; lia|]. destruct c; [reflexivity|]. cbn [skipn nth]. apply IH. cbn in H. lia. }
  rewrite E. cbn [dot]. rewrite inject_Z_plus, inject_Z_mult. rewrite <- (IH (S c)) by lia. rewrite (coef_raw f c W). ring.
Qed.
Theorem coef_value f v r : wf_aff f -> avalue f v r <-> exists w, sat (a_d f) (a_div f) w /\ firstn (1 + a_d f) w = v /\ (r == sumq f 1 w)%Q.
Proof.
  intros W. pose proof W as ((_ & _ & L) & P). unfold a_n in L. split; intros (w & Sw & F & E); exists w; (split; [exact Sw|]); (split; [exact F|]); pose proof Sw as (Lw & _); pose proof (sumq_dot f W w 1 ltac:(lia)) as D.
  - apply (Qmult_inj_l _ _ (inject_Z (nth 0%nat (a_v f) 0%Z))); [apply inj_nz; lia|]. rewrite D. exact E.
  - rewrite E. exact D.
Qed.
Lemma recoef_changes f l' c q : wf_aff f -> (1 <= c < length (a_v f))%nat -> recoef (a_v f) l' c q -> changes f (with_v f l') c q.
Proof. intros W Hc R. destruct (recoef_value f l' c q W Hc R) as (Wg & C & _). split; [reflexivity|]. split; [reflexivity|]. split; assumption. Qed.
(** the value after changing a coefficient *)
Lemma changes_value f g c q : wf_aff f -> (1 <= c < length (a_v f))%nat -> changes f g c q -> forall v r x, avalue f v r -> position_value f v (c - 1) x -> avalue g v (r + (q - coef f c) * inject_Z x).
Proof.
  intros W Hc (Sp & Dv & Wg & C) v r x A (w & Sw & F & X). apply (coef_value f v r W) in A as (w' & Sw' & F' & E). assert (w' = w) by (destruct W as ((WD & K & _) & _); eapply sat_unique; eauto; congruence). subst w'.
  apply (coef_value g _ _ Wg). unfold a_d. rewrite Sp, Dv. exists w. split; [exact Sw|]. split; [exact F|]. rewrite E. subst x. pose proof Sw as (Lw & _). destruct W as ((_ & _ & L) & _). unfold a_n in L.
  assert (G : forall u k, (1 <= k)%nat -> (sumq g k u == sumq f k u + (if Nat.leb k c && Nat.ltb c (k + length u) then (q - coef f c) * inject_Z (nth (c - k) u 0%Z) else 0))%Q).
  { induction u as [|a u IH]; intros k Hk; cbn [sumq length].
    - destruct (Nat.leb_spec k c), (Nat.ltb_spec c (k + 0)); cbn [andb]; try lia; ring.
    - rewrite (IH (S k)) by lia. rewrite (C k Hk). destruct (Nat.eqb_spec k c) as [->|N].
      + destruct (Nat.leb_spec (S c) c); [lia|]. destruct (Nat.leb_spec c c); [|lia]. destruct (Nat.ltb_spec c (c + S (length u))); [|lia]. cbn [andb]. rewrite Nat.sub_diag. cbn [nth]. ring.
      + destruct (Nat.leb_spec (S k) c), (Nat.leb_spec k c), (Nat.ltb_spec c (S k + length u)), (Nat.ltb_spec c (k + S (length u))); cbn [andb]; try lia; try ring.
        replace (c - k)%nat with (S (c - S k)) by lia. cbn [nth]. ring. }
  rewrite (G w 1%nat ltac:(lia)). destruct (Nat.leb_spec 1 c); [|lia]. destruct (Nat.ltb_spec c (1 + length w)); [|lia]. cbn [andb]. reflexivity.
Qed.
Lemma in_range f pos : wf_aff f -> (pos < a_d f + a_n f)%nat -> (1 <= 2 + pos < length (a_v f))%nat.
Proof. intros ((_ & _ & L) & _) H. lia. Qed.
Lemma cst_range f : wf_aff f -> (1 <= 1 < length (a_v f))%nat.
Proof. intros ((_ & _ & L) & _). lia. Qed.
Lemma same_changes f c q : wf_aff f -> (coef f c == q)%Q -> changes f f c q.
Proof. intros W E. split; [reflexivity|]. split; [reflexivity|]. split; [exact W|]. intros i Hi. destruct (Nat.eqb_spec i c) as [->|]; [exact E|reflexivity]. Qed.
Theorem add_constant_ok f k : wf_aff f -> changes f (aff_add_constant f k) 1 (coef f 1 + inject_Z k).
Proof.
  intros W. unfold aff_add_constant. destruct (Z.eqb_spec k 0) as [->|N]; [apply same_changes; [exact W|change (inject_Z 0) with 0%Q; ring]|].
  destruct (add_num_recoef f 1 k W (cst_range f W)) as (l' & E & R). rewrite E. apply recoef_changes; [exact W|apply cst_range; exact W|exact R].
Qed.
Theorem add_coefficient_ok f pos k : wf_aff f -> (pos < a_d f + a_n f)%nat -> exists g, aff_add_coefficient f pos k = Ok g /\ changes f g (2 + pos) (coef f (2 + pos) + inject_Z k).
Proof.
  intros W H. unfold aff_add_coefficient. destruct (Nat.ltb_spec pos (a_d f + a_n f)); [|lia]. cbn [negb]. eexists. split; [reflexivity|]. destruct (add_num_recoef f (2 + pos) k W (in_range f pos W H)) as (l' & E & R). rewrite E. apply recoef_changes; [exact W|apply in_range; assumption|exact R].
Qed.
Lemma set_num_changes f c k : wf_aff f -> (1 <= c < length (a_v f))%nat -> changes f (aff_set_num f c k) c (inject_Z k / inject_Z (nth 0%nat (a_v f) 0%Z)).
Proof. intros W H. unfold aff_set_num. rewrite not_nan by exact W. apply recoef_changes; [exact W|exact H|]. apply upd_recoef; [exact H|apply W|]. field. apply inj_nz. destruct W. lia. Qed.
Theorem set_constant_ok f k : wf_aff f -> changes f (aff_set_constant f k) 1 (inject_Z k / inject_Z (nth 0%nat (a_v f) 0%Z)).
Proof. intros W. apply set_num_changes; [exact W|apply cst_range; exact W]. Qed.
Theorem set_coefficient_ok f pos k : wf_aff f -> (pos < a_d f + a_n f)%nat -> exists g, aff_set_coefficient f pos k = Ok g /\ changes f g (2 + pos) (inject_Z k / inject_Z (nth 0%nat (a_v f) 0%Z)).
Proof. intros W H. unfold aff_set_coefficient. destruct (Nat.ltb_spec pos (a_d f + a_n f)); [|lia]. cbn [negb]. eexists. split; [reflexivity|]. apply set_num_changes; [exact W|apply in_range; assumption]. Qed.
Lemma fin_val x q : means x (EFin q) -> 0 < vd x /\ (vq x == q)%Q.
Proof. intros (A & _ & B). split; [exact A|]. unfold vq. destruct q as [n d]. cbn [Qnum Qden] in B. unfold Qdiv, Qinv, inject_Z. destruct (vd x) as [|p|p] eqn:E; try lia. cbn. unfold Qeq, Qmult. cbn. nia. Qed.
Lemma rat_not_nan x : 0 < vd x -> v_is_nan x = false /\ v_is_rat x = true.
Proof. unfold v_is_nan, v_is_rat. lia. Qed.
Lemma val_zero x : v_is_zero x = true -> (vq x == 0)%Q.
Proof. unfold v_is_zero, vq. intros H. assert (E : vn x = 0) by lia. rewrite E. change (inject_Z 0) with 0%Q. unfold Qdiv. ring. Qed.
Lemma changes_ext f g c q q' : (q == q')%Q -> changes f g c q -> changes f g c q'.
Proof. intros E (A & B & C & D). split; [exact A|]. split; [exact B|]. split; [exact C|]. intros i Hi. rewrite (D i Hi). destruct (Nat.eqb i c); [exact E|reflexivity]. Qed.
Theorem add_constant_val_ok f x q : wf_aff f -> means x (EFin q) -> exists g, aff_add_constant_val f x = Ok g /\ changes f g 1 (coef f 1 + q).
Proof.
  intros W M. destruct (fin_val x q M) as (P & E). destruct (rat_not_nan x P) as (N & R). unfold aff_add_constant_val. rewrite not_nan by exact W. cbn [orb]. destruct (v_is_zero x) eqn:Z0.
  - exists f. split; [reflexivity|]. apply same_changes; [exact W|]. rewrite <- E, (val_zero x Z0). ring.
  - rewrite N, R. cbn [negb]. eexists. split; [reflexivity|]. destruct (add_rat_recoef f 1 x W (cst_range f W) P) as (l' & El & Rl). rewrite El. apply (changes_ext f _ 1 (coef f 1 + vq x)); [rewrite E; reflexivity|]. apply recoef_changes; [exact W|apply cst_range; exact W|exact Rl].
Qed.
Theorem add_coefficient_val_ok f pos x q : wf_aff f -> (pos < a_d f + a_n f)%nat -> means x (EFin q) -> exists g, aff_add_coefficient_val f pos x = Ok g /\ changes f g (2 + pos) (coef f (2 + pos) + q).
Proof.
  intros W H M. destruct (fin_val x q M) as (P & E). destruct (rat_not_nan x P) as (N & R). unfold aff_add_coefficient_val. destruct (v_is_zero x) eqn:Z0.
  - exists f. split; [reflexivity|]. apply same_changes; [exact W|]. rewrite <- E, (val_zero x Z0). ring.
  - destruct (Nat.ltb_spec pos (a_d f + a_n f)); [|lia]. rewrite not_nan by exact W. rewrite R. cbn [negb]. eexists. split; [reflexivity|]. destruct (add_rat_recoef f (2 + pos) x W (in_range f pos W H) P) as (l' & El & Rl). rewrite El. apply (changes_ext f _ _ (coef f (2 + pos) + vq x)); [rewrite E; reflexivity|]. apply recoef_changes; [exact W|apply in_range; assumption|exact Rl].
Qed.
Theorem set_constant_val_ok f x q : wf_aff f -> means x (EFin q) -> exists g, aff_set_constant_val f x = Ok g /\ changes f g 1 q.
Proof.
  intros W M. destruct (fin_val x q M) as (P & E). destruct (rat_not_nan x P) as (N & R). unfold aff_set_constant_val. rewrite not_nan by exact W. rewrite R. cbn [negb]. eexists. split; [reflexivity|].
  destruct (set_rat_recoef f 1 x W (cst_range f W) P) as (l' & El & Rl). rewrite El. apply (changes_ext f _ _ (vq x)); [exact E|]. apply recoef_changes; [exact W|apply cst_range; exact W|exact Rl].
Qed.
Theorem set_coefficient_val_ok f pos x q : wf_aff f -> (pos < a_d f + a_n f)%nat -> means x (EFin q) -> exists g, aff_set_coefficient_val f pos x = Ok g /\ changes f g (2 + pos) q.
Proof.
  intros W H M. destruct (fin_val x q M) as (P & E). destruct (rat_not_nan x P) as (N & R). unfold aff_set_coefficient_val. destruct (Nat.ltb_spec pos (a_d f + a_n f)); [|lia]. rewrite not_nan by exact W. rewrite R. cbn [negb]. eexists. split; [reflexivity|].
  destruct (set_rat_recoef f (2 + pos) x W (in_range f pos W H) P) as (l' & El & Rl). rewrite El. apply (changes_ext f _ _ (vq x)); [exact E|]. apply recoef_changes; [exact W|apply in_range; assumption|exact Rl].
Qed.
(** ** construction *)
Lemma known_divs M : known M -> divs_known M = true.
Proof. intros K. unfold divs_known. apply forallb_forall. intros r Hr. apply (In_nth _ _ []) in Hr as (i & Hi & <-). specialize (K i Hi). lia. Qed.
Lemma alloc_ok s M v : wf_divs (dim_all s) M -> known M -> is_set s = true -> aff_alloc s M v = Ok (mkaff s M v).
Proof. intros _ K S. unfold aff_alloc. rewrite known_divs by exact K. rewrite S. reflexivity. Qed.
Lemma build_wf s M v : wf_divs (dim_all s) M -> known M -> length v = (2 + dim_all s + length M)%nat -> 0 < nth 0 v 0 -> wf_aff (mkaff s M v).
Proof. intros W K L P. split; [split; [exact W|]; split; [exact K|exact L]|exact P]. Qed.
Theorem val_ok s M x q : wf_divs (dim_all s) M -> known M -> is_set s = true -> means x (EFin q) ->
  exists f, aff_val s M x = Ok f /\ a_sp f = s /\ a_div f = M /\ wf_aff f /\ forall v, int_point (dim_all s) v -> avalue f v q.
Proof.
  intros W K S Mx. destruct (fin_val x q Mx) as (P & E). destruct (rat_not_nan x P) as (N & R). unfold aff_val. rewrite R. cbn [negb andb]. rewrite alloc_ok by assumption. eexists. split; [reflexivity|]. split; [reflexivity|]. split; [reflexivity|].
  assert (Wf : wf_aff (mkaff s M (vd x :: vn x :: seq_clr (dim_all s + length M)))). { apply build_wf; [exact W|exact K|unfold seq_clr; cbn [length]; rewrite repeat_length; lia|exact P]. }
  split; [exact Wf|]. intros v Hv. destruct (avalue_total _ v Wf Hv) as (r & A). apply (avalue_ext _ v r); [|exact A]. rewrite <- E. unfold vq. apply (cst_value _ Wf) in A; [exact A|]. apply is_cst_ok. intros i Hi. cbn [a_v]. destruct i as [|[|i]]; try lia. cbn [nth]. apply nth_repeat.
Qed.
Theorem zero_ok s M : wf_divs (dim_all s) M -> known M -> is_set s = true -> exists f, aff_zero s M = Ok f /\ a_sp f = s /\ a_div f = M /\ wf_aff f /\ forall v, int_point (dim_all s) v -> avalue f v 0.
Proof. intros W K S. apply (val_ok s M (mkv 0 1) 0 W K S). cbn. repeat split; lia. Qed.
Theorem var_ok s M pos : wf_divs (dim_all s) M -> known M -> is_set s = true -> (pos < dim_all s + length M)%nat ->
  exists f, aff_var s M pos = Ok f /\ a_sp f = s /\ a_div f = M /\ wf_aff f /\ forall w, sat (dim_all s) M w -> avalue f (firstn (1 + dim_all s) w) (inject_Z (nth (1 + pos) w 0)).
Proof.
  intros W K S H. unfold aff_var. destruct (Nat.ltb_spec pos (dim_all s + length M)); [|lia]. cbn [negb]. rewrite alloc_ok by assumption. eexists. split; [reflexivity|]. split; [reflexivity|]. split; [reflexivity|].
  assert (Wf : wf_aff (mkaff s M (1 :: zupd (seq_clr (1 + dim_all s + length M)) (1 + pos) 1))). { apply build_wf; [exact W|exact K|unfold seq_clr; cbn [length]; rewrite zupd_length, repeat_length; lia|reflexivity]. }
  split; [exact Wf|]. intros w Sw. exists w. split; [exact Sw|]. split; [reflexivity|]. unfold a_d, a_v, a_sp. cbn [skipn nth]. pose proof Sw as (Lw & _).
  assert (D : dot (zupd (seq_clr (1 + dim_all s + length M)) (1 + pos) 1) w = nth (1 + pos) w 0). { rewrite dot_zupd by (unfold seq_clr; rewrite repeat_length; lia). unfold seq_clr. rewrite dot_repeat0, nth_repeat. ring. }
  rewrite D. change (inject_Z 1) with 1%Q. ring.
Qed.
Theorem nan_ok s M : wf_divs (dim_all s) M -> known M -> is_set s = true -> exists f, aff_nan s M = Ok f /\ a_sp f = s /\ nan_aff f.
Proof.
  intros W K S. unfold aff_nan. rewrite alloc_ok by assumption. eexists. split; [reflexivity|]. split; [reflexivity|]. split; [split; [exact W|]; split; [exact K|cbn [a_v]; unfold seq_clr; rewrite repeat_length; reflexivity]|]. intros i. cbn [a_v]. apply nth_repeat.
Qed.
(** ** NaN *)
Lemma nan_neg f : nan_aff f -> aff_neg f = f.
Proof. intros N. unfold aff_neg. rewrite nan_is_nan by exact N. reflexivity. Qed.
Theorem nan_unary f : nan_aff f -> nan_aff (aff_neg f) /\ aff_floor f = Ok f /\ aff_ceil f = Ok f /\ (forall k, aff_scale f k = f) /\ (forall k, aff_scale_down f k = Ok f) /\ (forall k, aff_add_constant f k = f) /\ (forall x, aff_add_constant_val f x = Ok f).
Proof.
  intros N. pose proof (nan_is_nan f N) as E. split; [rewrite nan_neg; exact N|]. unfold aff_floor, aff_ceil, aff_scale, aff_scale_down, aff_add_constant, aff_add_num, aff_add_constant_val. rewrite E. repeat split. intros k. destruct (k =? 0); reflexivity.
Qed.
Theorem nan_binary junk f g : is_equal (a_sp f) (a_sp g) = true -> (nan_aff f /\ (wf_aff g \/ nan_aff g)) \/ (wf_aff f /\ nan_aff g) ->
  exists h, (aff_add junk f g = Ok h /\ nan_aff h) /\ (aff_sub junk f g = Ok h /\ nan_aff h) /\ (aff_mul f g = Ok h /\ nan_aff h) /\ (aff_div false f g = Ok h /\ nan_aff h).
Proof.
  intros E H. assert (Sn : a_sp (aff_neg g) = a_sp g) by (unfold aff_neg; destruct (aff_is_nan g); reflexivity). unfold aff_sub, aff_add, aff_mul, aff_div. rewrite Sn, E. cbn [negb]. destruct H as [(N & _)|(W & N)].
  - exists f. rewrite (nan_is_nan f N). repeat (split; [split; [reflexivity|exact N]|]). split; [reflexivity|exact N].
  - exists g. rewrite (not_nan f W), (nan_neg g N), (nan_is_nan g N). repeat (split; [split; [reflexivity|exact N]|]). split; [reflexivity|exact N].
Qed.
Theorem nan_mod junk f x : nan_aff f -> vd x = 1 -> 0 < vn x -> aff_mod junk f x = Ok f.
Proof.
  intros N D P. pose proof (nan_is_nan f N) as E. unfold aff_mod, v_is_int. rewrite D. change (1 =? 1) with true. cbn [negb].
  assert (E1 : aff_scale_down_val f x = Ok f). { unfold aff_scale_down_val, v_is_rat, v_is_pos. destruct (v_is_one x); [reflexivity|]. destruct (Z.eqb_spec (vd x) 0); [lia|]. destruct (Z.ltb_spec 0 (vn x)); [|lia]. cbn [negb]. unfold aff_scale. rewrite E. unfold aff_scale_down. rewrite E. reflexivity. }
  rewrite E1. cbn [LocalModel.bind]. assert (E2 : aff_floor f = Ok f) by (unfold aff_floor; rewrite E; reflexivity). rewrite E2. cbn [LocalModel.bind].
  assert (E3 : aff_scale_val f x = Ok f). { unfold aff_scale_val, v_is_rat. destruct (v_is_one x); [reflexivity|]. destruct (Z.eqb_spec (vd x) 0); [lia|]. cbn [negb]. unfold aff_scale. rewrite E. unfold aff_scale_down. rewrite E. reflexivity. }
  rewrite E3. cbn [LocalModel.bind]. unfold aff_sub, aff_add. rewrite (nan_neg f N), is_equal_refl, E. reflexivity.
Qed.
Theorem add_nan_const f : wf_ls f -> exists g, aff_add_constant_val f v_nan = Ok g /\ (wf_aff f -> nan_aff g).
Proof. intros W. unfold aff_add_constant_val. destruct (aff_is_nan f) eqn:E; cbn [orb v_is_zero v_nan vn vd Z.eqb negb andb]. - exists f. split; [reflexivity|]. intros X. rewrite (not_nan f X) in E. discriminate. - eexists. split; [reflexivity|]. intros _. apply set_nan_ok. exact W. Qed.
(** ** equality *)
Theorem plain_equal_sound f g : wf_aff f -> wf_aff g -> aff_plain_is_equal f g = true -> forall v r, avalue f v r <-> avalue g v r.
Proof.
  intros Wf Wg H. unfold aff_plain_is_equal in H. rewrite (not_nan f Wf), (not_nan g Wg) in H. cbn [orb] in H. destruct (is_equal (a_sp f) (a_sp g)) eqn:Es; [|discriminate]. cbn [negb] in H. destruct (mat_is_equal _ _ _) eqn:Em; [|discriminate]. cbn [negb] in H. apply andb_true_iff in H as (Hl & Hv). apply Nat.eqb_eq in Hl. apply (seq_eq_ok _ _ Hl) in Hv.
  assert (Ed : a_d f = a_d g) by apply (is_equal_dim _ _ Es). destruct Wf as ((WDf & Kf & Lf) & _), Wg as ((WDg & Kg & Lg) & _).
  assert (EQ : a_div f = a_div g).
  { pose proof Em as EM'. unfold mat_is_equal in EM'. apply andb_true_iff in EM' as (L1 & _). apply Nat.eqb_eq in L1. apply mat_is_equal_rows in Em as (_ & H1).
    - apply (nth_ext _ _ [] []); [exact L1|]. intros i Hi. specialize (H1 i Hi). destruct (WDf i Hi) as (X & _). destruct (WDg i ltac:(lia)) as (Y & _). rewrite !firstn_all2 in H1 by (unfold a_n; lia). exact H1.
    - intros i Hi. destruct (WDf i Hi) as (X & _). unfold a_n. lia.
    - intros i Hi. destruct (WDg i Hi) as (Y & _). unfold a_n. lia. }
  intros v r. unfold avalue. rewrite Ed, EQ, Hv. reflexivity.
Qed.
Theorem plain_equal_nan f g : nan_aff f \/ nan_aff g -> aff_plain_is_equal f g = false.
Proof. intros [N|N]; unfold aff_plain_is_equal; rewrite (nan_is_nan _ N); [reflexivity|]. rewrite orb_true_r. reflexivity. Qed.
