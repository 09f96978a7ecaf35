(** Proofs about ValModel. *)
From Coq Require Import ZArith QArith Qround List Bool Lia ZifyBool Znumtheory NsatzTactic.
From Verif Require Import ValModel ValSpec.
Import ListNotations.
Open Scope Z_scope.

(** hide [Zpos (Qden q)], which nsatz would take for a constant *)
Ltac nz :=
  repeat match goal with
  | |- context [Zpos (Qden ?q)] => generalize dependent (Zpos (Qden q)); intros
  | H : _ = _ :> bool |- _ => clear H
  | H : means _ _ |- _ => clear H
  end; nsatz.

Ltac means_inv H :=
  lazymatch type of H with
  | means _ ?e =>
    destruct e as [|[|]|?q]; cbn [means] in H;
    [destruct H as [?N ?D]|destruct H as [?N ?D]|destruct H as [?N ?D]|destruct H as (?D & ?G & ?E)]
  end.

Lemma means_fin_iff v q : means v (EFin q) <->
  0 < vd v /\ Z.gcd (vn v) (vd v) = 1 /\ (vn v # Z.to_pos (vd v) == q)%Q.
Proof.
  cbn [means]. unfold Qeq. cbn [Qnum Qden].
  split; intros (D & G & E); (split; [exact D|]; split; [exact G|]).
  - rewrite Z2Pos.id by exact D. exact E.
  - rewrite Z2Pos.id in E by exact D. exact E.
Qed.

Lemma means_ext v e e' : ext_eq e e' -> means v e -> means v e'.
Proof.
  destruct e as [|s|p], e' as [|t|q]; cbn [ext_eq]; try tauto; try (intros <-; tauto).
  intros Heq. rewrite !means_fin_iff. intros (D & G & E). rewrite <- Heq. auto.
Qed.

(** canonical representations are unique *)
Lemma coprime_cross n d n' d' :
  0 < d -> 0 < d' -> Z.gcd n d = 1 -> Z.gcd n' d' = 1 -> n * d' = n' * d -> n = n' /\ d = d'.
Proof.
  intros D D' G G' E.
  assert (d = d').
  { apply Z.divide_antisym_nonneg; try lia.
    - apply Z.gauss with n; [|rewrite Z.gcd_comm; exact G]. exists n'. lia.
    - apply Z.gauss with n'; [|rewrite Z.gcd_comm; exact G']. exists n. lia. }
  subst d'. split; [nia|reflexivity].
Qed.

Lemma means_unique v v' e e' : means v e -> means v' e' -> ext_eq e e' -> v = v'.
Proof.
  destruct v as [n d], v' as [n' d'].
  destruct e as [|[|]|p], e' as [|[|]|q]; cbn [means ext_eq vn vd]; intros H H' Heq;
    try tauto; try discriminate; try (f_equal; lia).
  destruct H as (D & G & E), H' as (D' & G' & E').
  unfold Qeq in Heq.
  destruct (coprime_cross n d n' d' D D' G G'); [|congruence].
  pose proof (Pos2Z.is_pos (Qden p)). pose proof (Pos2Z.is_pos (Qden q)).
  apply Z.mul_cancel_r with (Zpos (Qden p) * Zpos (Qden q)); [nia|].
  transitivity (n * Zpos (Qden p) * d' * Zpos (Qden q)); [ring|]. rewrite E.
  transitivity (Qnum p * Zpos (Qden q) * d * d'); [ring|]. rewrite Heq.
  transitivity (n' * Zpos (Qden q) * d * Zpos (Qden p)); [rewrite E'; ring|ring].
Qed.

(** a value denotes at most one extended rational *)
Lemma means_fun v e e' : means v e -> means v e' -> ext_eq e e'.
Proof.
  destruct e as [|[|]|p], e' as [|[|]|q]; cbn [means ext_eq]; try lia; try tauto.
  intros (D & G & E) (D' & G' & E'). unfold Qeq. nia.
Qed.

(** ** tests *)
Lemma t_nan v e : means v e -> v_is_nan v = match e with ENan => true | _ => false end.
Proof. intros H. unfold v_is_nan. means_inv H; lia. Qed.
Lemma t_infty v e : means v e -> v_is_infty v = match e with EInf true => true | _ => false end.
Proof. intros H. unfold v_is_infty. means_inv H; lia. Qed.
Lemma t_neginfty v e : means v e -> v_is_neginfty v = match e with EInf false => true | _ => false end.
Proof. intros H. unfold v_is_neginfty. means_inv H; lia. Qed.
Lemma t_rat v e : means v e -> v_is_rat v = match e with EFin _ => true | _ => false end.
Proof. intros H. unfold v_is_rat. means_inv H; lia. Qed.

Lemma means_sign v q : means v (EFin q) -> Z.sgn (Qnum q) = Z.sgn (vn v).
Proof. cbn [means]. intros (D & G & E). pose proof (Pos2Z.is_pos (Qden q)). nia. Qed.

Lemma t_zero v e : means v e -> v_is_zero v = match e with EFin q => Qeq_bool q 0 | _ => false end.
Proof.
  intros H. unfold v_is_zero. destruct e as [|[|]|q].
  1-3: cbn [means] in H; lia.
  pose proof (means_sign _ _ H). unfold Qeq_bool, Zeq_bool. cbn [Qnum Qden].
  destruct H as (D & G & E).
  rewrite Z.mul_1_r, Z.mul_0_l.
  destruct (Z.compare_spec (Qnum q) 0); lia.
Qed.

Lemma gcd_1_r n : Z.gcd n 1 = 1.
Proof. apply Z.gcd_1_r. Qed.

(** ** normalize *)
Lemma normalize_means n d q :
  d <> 0 -> n * Zpos (Qden q) = Qnum q * d -> means (v_normalize (mkv n d)) (EFin q).
Proof.
  intros Hd E. unfold v_normalize, v_is_int, v_is_rat. cbn [vn vd].
  destruct (Z.eqb_spec d 1) as [->|H1].
  { cbn [means vn vd]. split; [lia|]. split; [apply gcd_1_r|exact E]. }
  destruct (Z.eqb_spec d 0); [congruence|]. cbn [negb].
  set (v := if d <? 0 then mkv (- n) (- d) else mkv n d).
  assert (Hv : 0 < vd v /\ vn v * Zpos (Qden q) = Qnum q * vd v).
  { unfold v. destruct (Z.ltb_spec d 0); cbn [vn vd]; split; lia. }
  clearbody v. destruct Hv as [Hp Ev].
  assert (Hg0 : Z.gcd (vn v) (vd v) <> 0).
  { intros G. apply Z.gcd_eq_0_r in G. lia. }
  pose proof (Z.gcd_nonneg (vn v) (vd v)).
  destruct (Z.eqb_spec (Z.gcd (vn v) (vd v)) 1) as [G|G].
  - cbn [means]. auto.
  - cbn [means vn vd].
    destruct (Z.gcd_divide_l (vn v) (vd v)) as [a Ha].
    destruct (Z.gcd_divide_r (vn v) (vd v)) as [b Hb].
    pose proof (Z.gcd_div_gcd (vn v) (vd v) _ Hg0 eq_refl) as Gd.
    remember (Z.gcd (vn v) (vd v)) as g.
    assert (Ea : vn v / g = a) by (rewrite Ha; apply Z.div_mul; lia).
    assert (Eb : vd v / g = b) by (rewrite Hb; apply Z.div_mul; lia).
    rewrite Ea, Eb in *. split; [nia|]. split; [exact Gd|].
    apply Z.mul_cancel_r with g; [lia|]. nia.
Qed.

Lemma int_means n q : n * Zpos (Qden q) = Qnum q -> means (mkv n 1) (EFin q).
Proof. intros E. cbn [means vn vd]. split; [lia|]. split; [apply gcd_1_r|lia]. Qed.

Lemma set_nan_means v : means (v_set_nan v) ENan.
Proof. unfold v_set_nan, v_is_nan. destruct (Z.eqb_spec (vn v) 0), (Z.eqb_spec (vd v) 0); cbn; lia. Qed.

Lemma eneg_means v e : means v e -> means (v_neg v) (eneg e).
Proof.
  intros H. unfold v_neg. rewrite (t_nan _ _ H), (t_zero _ _ H).
  destruct e as [|[|]|q]; cbn [eneg negb]; try exact H.
  - cbn [means vn vd] in *. lia.
  - cbn [means vn vd] in *. lia.
  - destruct (Qeq_bool q 0) eqn:Z0.
    + apply Qeq_bool_eq in Z0. apply means_ext with (EFin q); [|exact H]. cbn. rewrite Z0. reflexivity.
    + cbn [means vn vd Qopp Qnum Qden] in *. destruct H as (D & G & E).
      rewrite Z.gcd_opp_l. split; [exact D|]. split; [exact G|]. lia.
Qed.

Lemma fin_d1 v q : means v (EFin q) -> v_is_int v = true -> vd v = 1 /\ vn v * Zpos (Qden q) = Qnum q.
Proof. cbn [means]. unfold v_is_int. intros (D & G & E) H. apply Z.eqb_eq in H. rewrite H in *. lia. Qed.

Lemma eadd_means v1 v2 e1 e2 : means v1 e1 -> means v2 e2 -> means (v_add v1 v2) (eadd e1 e2).
Proof.
  intros H1 H2. unfold v_add.
  rewrite (t_nan _ _ H1), (t_nan _ _ H2), (t_infty _ _ H1), (t_infty _ _ H2),
    (t_neginfty _ _ H1), (t_neginfty _ _ H2), (t_zero _ _ H1), (t_zero _ _ H2).
  destruct e1 as [|[|]|p], e2 as [|[|]|q]; cbn [andb orb eadd Bool.eqb]; auto using set_nan_means.
  destruct (Qeq_bool p 0) eqn:P0.
  { apply Qeq_bool_eq in P0. apply means_ext with (EFin q); [|exact H2]. cbn. rewrite P0. symmetry. apply Qplus_0_l. }
  destruct (Qeq_bool q 0) eqn:Q0.
  { apply Qeq_bool_eq in Q0. apply means_ext with (EFin p); [|exact H1]. cbn. rewrite Q0. symmetry. apply Qplus_0_r. }
  pose proof H1 as (D1 & G1 & E1). pose proof H2 as (D2 & G2 & E2).
  destruct (v_is_int v1 && v_is_int v2) eqn:I.
  - apply andb_prop in I as [I1 I2].
    destruct (fin_d1 _ _ H1 I1) as [-> F1], (fin_d1 _ _ H2 I2) as [_ F2].
    apply int_means. unfold Qplus. cbn [Qnum Qden]. rewrite Pos2Z.inj_mul. nz.
  - destruct (Z.eqb_spec (vd v1) (vd v2)) as [Ed|Ed].
    + apply normalize_means; [lia|]. unfold Qplus. cbn [Qnum Qden]. rewrite Pos2Z.inj_mul. nz.
    + apply normalize_means; [nia|]. unfold Qplus. cbn [Qnum Qden]. rewrite Pos2Z.inj_mul. nz.
Qed.

Lemma Qopp_eq0 q : Qeq_bool (- q) 0 = Qeq_bool q 0.
Proof. unfold Qeq_bool, Zeq_bool, Qopp. cbn [Qnum Qden]. destruct (Qnum q); reflexivity. Qed.

Lemma esub_means v1 v2 e1 e2 : means v1 e1 -> means v2 e2 -> means (v_sub v1 v2) (esub e1 e2).
Proof.
  intros H1 H2. unfold v_sub, esub.
  pose proof (eneg_means _ _ H2) as N2.
  rewrite (t_nan _ _ H1), (t_nan _ _ H2), (t_infty _ _ H1), (t_infty _ _ H2),
    (t_neginfty _ _ H1), (t_neginfty _ _ H2), (t_zero _ _ H1), (t_zero _ _ H2).
  destruct e1 as [|[|]|p], e2 as [|[|]|q]; cbn [andb orb eadd eneg negb Bool.eqb] in *; auto using set_nan_means.
  destruct (Qeq_bool q 0) eqn:Q0.
  { apply Qeq_bool_eq in Q0. apply means_ext with (EFin p); [|exact H1]. cbn. rewrite Q0.
    symmetry. apply Qplus_0_r. }
  destruct (Qeq_bool p 0) eqn:P0.
  { apply Qeq_bool_eq in P0. apply means_ext with (EFin (- q)); [|exact N2]. cbn. rewrite P0. symmetry. apply Qplus_0_l. }
  pose proof H1 as (D1 & G1 & E1). pose proof H2 as (D2 & G2 & E2).
  destruct (v_is_int v1 && v_is_int v2) eqn:I.
  - apply andb_prop in I as [I1 I2].
    destruct (fin_d1 _ _ H1 I1) as [-> F1], (fin_d1 _ _ H2 I2) as [_ F2].
    apply int_means. unfold Qplus, Qopp. cbn [Qnum Qden]. rewrite Pos2Z.inj_mul. nz.
  - destruct (Z.eqb_spec (vd v1) (vd v2)) as [Ed|Ed].
    + apply normalize_means; [lia|]. unfold Qplus, Qopp. cbn [Qnum Qden]. rewrite Pos2Z.inj_mul. nz.
    + apply normalize_means; [nia|]. unfold Qplus, Qopp. cbn [Qnum Qden]. rewrite Pos2Z.inj_mul. nz.
Qed.

Lemma Qcompare_0 q : (q ?= 0)%Q = (Qnum q ?= 0).
Proof. unfold Qcompare. cbn [Qnum Qden]. rewrite Z.mul_1_r, Z.mul_0_l. reflexivity. Qed.
Lemma Qeq_bool_0 q : Qeq_bool q 0 = (Qnum q =? 0).
Proof. unfold Qeq_bool, Zeq_bool. cbn [Qnum Qden]. rewrite Z.mul_1_r, Z.mul_0_l. destruct (Z.compare_spec (Qnum q) 0); lia. Qed.

Lemma emul_means v1 v2 e1 e2 : means v1 e1 -> means v2 e2 -> means (v_mul v1 v2) (emul e1 e2).
Proof.
  intros H1 H2. unfold v_mul, v_is_neg.
  pose proof (eneg_means _ _ H1) as N1. pose proof (eneg_means _ _ H2) as N2.
  rewrite (t_nan _ _ H1), (t_nan _ _ H2), (t_infty _ _ H1), (t_infty _ _ H2),
    (t_neginfty _ _ H1), (t_neginfty _ _ H2), (t_zero _ _ H1), (t_zero _ _ H2),
    (t_rat _ _ H1), (t_rat _ _ H2).
  destruct e1 as [|[|]|p], e2 as [|[|]|q]; cbn [andb orb negb emul eneg Bool.eqb] in *; auto;
    try (cbn [means] in H1, H2; destruct H1 as [A1 B1], H2 as [A2 B2]; rewrite ?A1, ?A2; cbn [Z.ltb Z.compare]; cbn [means]; auto; fail);
    unfold einf_times; rewrite ?Qcompare_0, ?Qeq_bool_0, ?orb_false_r.
  - pose proof (means_sign _ _ H2). destruct (Z.eqb_spec (Qnum q) 0) as [Z0|Z0].
    + rewrite Z0. apply set_nan_means.
    + destruct (Z.ltb_spec (vn v2) 0), (Z.compare_spec (Qnum q) 0); try lia; auto.
  - pose proof (means_sign _ _ H2). destruct (Z.eqb_spec (Qnum q) 0) as [Z0|Z0].
    + rewrite Z0. apply set_nan_means.
    + destruct (Z.ltb_spec (vn v2) 0), (Z.compare_spec (Qnum q) 0); try lia; auto.
  - pose proof (means_sign _ _ H1). destruct (Z.eqb_spec (Qnum p) 0) as [Z0|Z0]; cbn [andb].
    + rewrite Z0. apply set_nan_means.
    + destruct (Z.ltb_spec (vn v1) 0), (Z.compare_spec (Qnum p) 0); try lia; auto.
  - pose proof (means_sign _ _ H1). destruct (Z.eqb_spec (Qnum p) 0) as [Z0|Z0]; cbn [andb].
    + rewrite Z0. apply set_nan_means.
    + destruct (Z.ltb_spec (vn v1) 0), (Z.compare_spec (Qnum p) 0); try lia; auto.
  - rewrite andb_false_r. pose proof H1 as (D1 & G1 & E1). pose proof H2 as (D2 & G2 & E2).
    destruct (Z.eqb_spec (Qnum p) 0) as [P0|P0].
    { apply means_ext with (EFin p); [|exact H1]. cbn. unfold Qeq, Qmult. cbn [Qnum Qden]. rewrite P0. lia. }
    destruct (Z.eqb_spec (Qnum q) 0) as [Q0|Q0].
    { apply means_ext with (EFin q); [|exact H2]. cbn. unfold Qeq, Qmult. cbn [Qnum Qden]. rewrite Q0. lia. }
    destruct (v_is_int v1 && v_is_int v2) eqn:I.
    + apply andb_prop in I as [I1 I2].
      destruct (fin_d1 _ _ H1 I1) as [-> F1], (fin_d1 _ _ H2 I2) as [_ F2].
      apply int_means. unfold Qmult. cbn [Qnum Qden]. rewrite Pos2Z.inj_mul. nz.
    + apply normalize_means; [nia|]. unfold Qmult. cbn [Qnum Qden]. rewrite Pos2Z.inj_mul. nz.
Qed.

(** cross-multiplied form of the inverse *)
Lemma Qinv_cross q : Qnum q <> 0 -> Qnum (/ q) * Qnum q = Zpos (Qden q) * Zpos (Qden (/ q)).
Proof.
  destruct q as [[|p|p] d]; cbn [Qnum Qden Qinv]; intros H; [congruence| |]; nia.
Qed.

Lemma Qinv_sgn q : Z.sgn (Qnum (/ q)) = Z.sgn (Qnum q).
Proof. destruct q as [[|p|p] d]; reflexivity. Qed.

Lemma einv_means v e : means v e -> means (v_inv v) (einv e).
Proof.
  intros H. unfold v_inv.
  rewrite (t_nan _ _ H), (t_zero _ _ H), (t_infty _ _ H), (t_neginfty _ _ H).
  destruct e as [|[|]|q]; cbn [orb einv]; auto.
  - apply int_means. reflexivity.
  - apply int_means. reflexivity.
  - destruct (Qeq_bool q 0) eqn:Q0; [cbn; auto|]. rewrite Qeq_bool_0 in Q0. apply Z.eqb_neq in Q0.
    pose proof (means_sign _ _ H). destruct H as (D & G & E).
    apply normalize_means; [lia|]. pose proof (Qinv_cross q Q0).
    apply Z.mul_cancel_r with (Qnum q); [exact Q0|].
    pose proof (Pos2Z.is_pos (Qden q)). nia.
Qed.

Lemma set_zero_means v : means (v_set_si v 0) (EFin 0).
Proof.
  unfold v_set_si, v_is_int. destruct (Z.eqb_spec (vd v) 1), (Z.eqb_spec (vn v) 0); cbn [andb];
    try (apply (int_means 0 0); reflexivity).
  destruct v as [n d]; cbn in *; subst. apply (int_means 0 0). reflexivity.
Qed.

Lemma ediv_means v1 v2 e1 e2 : means v1 e1 -> means v2 e2 -> means (v_div v1 v2) (ediv e1 e2).
Proof.
  intros H1 H2. unfold v_div, v_is_neg.
  pose proof (eneg_means _ _ H1) as N1.
  rewrite (t_nan _ _ H1), (t_nan _ _ H2), (t_infty _ _ H1), (t_infty _ _ H2),
    (t_neginfty _ _ H1), (t_neginfty _ _ H2), (t_zero _ _ H1), (t_zero _ _ H2),
    (t_rat _ _ H1), (t_rat _ _ H2).
  destruct e1 as [|[|]|p], e2 as [|[|]|q]; cbn [andb orb negb emul ediv eneg Bool.eqb] in *;
    auto using set_nan_means; rewrite ?orb_false_r, ?Qeq_bool_0.
  - destruct (Z.eqb_spec (Qnum q) 0) as [Q0|Q0]; [apply set_nan_means|].
    unfold einf_times. rewrite Qcompare_0. pose proof (means_sign _ _ H2). pose proof (Qinv_sgn q).
    destruct (Z.ltb_spec (vn v2) 0), (Z.compare_spec (Qnum (/ q)) 0); try lia; auto.
  - destruct (Z.eqb_spec (Qnum q) 0) as [Q0|Q0]; [apply set_nan_means|].
    unfold einf_times. rewrite Qcompare_0. pose proof (means_sign _ _ H2). pose proof (Qinv_sgn q).
    destruct (Z.ltb_spec (vn v2) 0), (Z.compare_spec (Qnum (/ q)) 0); try lia; auto.
  - destruct (Z.eqb_spec (Qnum p) 0) as [P0|P0]; [|apply set_zero_means].
    apply means_ext with (EFin p); [|exact H1]. cbn. unfold Qeq. cbn [Qnum Qden]. lia.
  - destruct (Z.eqb_spec (Qnum p) 0) as [P0|P0]; [|apply set_zero_means].
    apply means_ext with (EFin p); [|exact H1]. cbn. unfold Qeq. cbn [Qnum Qden]. lia.
  - destruct (Z.eqb_spec (Qnum q) 0) as [Q0|Q0]; [apply set_nan_means|].
    destruct (Z.eqb_spec (Qnum p) 0) as [P0|P0].
    { apply means_ext with (EFin p); [|exact H1]. cbn. unfold Qeq, Qmult. cbn [Qnum Qden]. rewrite P0. lia. }
    pose proof (means_sign _ _ H2).
    pose proof H1 as (D1 & G1 & E1). pose proof H2 as (D2 & G2 & E2).
    pose proof (Qinv_cross q Q0) as C.
    assert (Hden : 0 < Zpos (Qden q)) by lia.
    destruct (v_is_int v2) eqn:I2.
    + destruct (fin_d1 _ _ H2 I2) as [D21 F2].
      apply normalize_means; [nia|]. unfold Qmult. cbn [Qnum Qden]. rewrite Pos2Z.inj_mul.
      apply Z.mul_cancel_r with (Qnum q); [exact Q0|].
      transitivity ((vn v1 * Zpos (Qden p)) * (Qnum q * Zpos (Qden (/ q)))); [ring|].
      rewrite E1. transitivity (Qnum p * vd v1 * vn v2 * (Zpos (Qden q) * Zpos (Qden (/ q)))).
      * rewrite <- F2. ring.
      * rewrite <- C. ring.
    + apply normalize_means; [nia|]. unfold Qmult. cbn [Qnum Qden]. rewrite Pos2Z.inj_mul.
      apply Z.mul_cancel_r with (Qnum q); [exact Q0|].
      transitivity ((vn v1 * Zpos (Qden p)) * (Qnum q * vd v2) * Zpos (Qden (/ q))); [ring|].
      rewrite E1, <- E2. transitivity (Qnum p * vd v1 * vn v2 * (Zpos (Qden q) * Zpos (Qden (/ q)))); [ring|].
      rewrite <- C. ring.
Qed.

(** ** the order *)
Lemma Qle_cross v1 v2 p q : means v1 (EFin p) -> means v2 (EFin q) ->
  Qle_bool p q = (vn v1 * vd v2 <=? vn v2 * vd v1).
Proof.
  intros (D1 & G1 & E1) (D2 & G2 & E2).
  apply eq_true_iff_eq. rewrite Qle_bool_iff, Z.leb_le. unfold Qle.
  pose proof (Pos2Z.is_pos (Qden p)). pose proof (Pos2Z.is_pos (Qden q)).
  set (dp := Zpos (Qden p)) in *. set (dq := Zpos (Qden q)) in *.
  rewrite (Z.mul_le_mono_pos_r (Qnum p * dq) _ (vd v1 * vd v2)) by nia.
  rewrite (Z.mul_le_mono_pos_r (vn v1 * vd v2) _ (dp * dq)) by nia.
  replace (Qnum p * dq * (vd v1 * vd v2)) with (vn v1 * dp * (vd v2 * dq))
    by (rewrite E1; ring).
  replace (Qnum q * dp * (vd v1 * vd v2)) with (vn v2 * dq * (vd v1 * dp))
    by (rewrite E2; ring).
  replace (vn v1 * vd v2 * (dp * dq)) with (vn v1 * dp * (vd v2 * dq)) by ring.
  replace (vn v2 * vd v1 * (dp * dq)) with (vn v2 * dq * (vd v1 * dp)) by ring.
  tauto.
Qed.

Lemma v_eq_ok v1 v2 e1 e2 : means v1 e1 -> means v2 e2 -> v_eq v1 v2 = eeq e1 e2.
Proof.
  intros H1 H2. unfold v_eq, eeq. rewrite (t_nan _ _ H1), (t_nan _ _ H2).
  destruct e1 as [|[|]|p], e2 as [|[|]|q]; cbn [orb andb ele]; try reflexivity;
    try (cbn [means] in *; lia).
  rewrite (Qle_cross _ _ _ _ H1 H2), (Qle_cross _ _ _ _ H2 H1).
  destruct H1 as (D1 & G1 & E1), H2 as (D2 & G2 & E2).
  apply eq_true_iff_eq. rewrite !andb_true_iff, !Z.eqb_eq, !Z.leb_le. split.
  - intros [-> ->]. lia.
  - intros H. apply coprime_cross; auto; lia.
Qed.

Lemma v_le_ok v1 v2 e1 e2 : means v1 e1 -> means v2 e2 -> v_le v1 v2 = ele e1 e2.
Proof.
  intros H1 H2. unfold v_le. rewrite (v_eq_ok _ _ _ _ H1 H2).
  rewrite (t_nan _ _ H1), (t_nan _ _ H2), (t_infty _ _ H1), (t_infty _ _ H2),
    (t_neginfty _ _ H1), (t_neginfty _ _ H2). unfold eeq, v_is_int.
  destruct e1 as [|[|]|p], e2 as [|[|]|q]; cbn [orb andb ele];
    try (cbn [means] in *; rewrite ?(proj2 H1), ?(proj2 H2), ?andb_false_r; reflexivity).
  rewrite !(Qle_cross _ _ _ _ H1 H2), !(Qle_cross _ _ _ _ H2 H1).
  destruct (Z.eqb_spec (vd v1) 1) as [->|], (Z.eqb_spec (vd v2) 1) as [->|]; cbn [andb];
    try lia; destruct (_ && _) eqn:?; lia.
Qed.

Lemma v_lt_ok v1 v2 e1 e2 : means v1 e1 -> means v2 e2 -> v_lt v1 v2 = elt e1 e2.
Proof.
  intros H1 H2. unfold v_lt, elt. rewrite (v_eq_ok _ _ _ _ H1 H2).
  rewrite (t_nan _ _ H1), (t_nan _ _ H2), (t_infty _ _ H1), (t_infty _ _ H2),
    (t_neginfty _ _ H1), (t_neginfty _ _ H2). unfold eeq, v_is_int.
  destruct e1 as [|[|]|p], e2 as [|[|]|q]; cbn [orb andb ele negb];
    try (cbn [means] in *; rewrite ?(proj2 H1), ?(proj2 H2), ?andb_false_r; reflexivity).
  rewrite !(Qle_cross _ _ _ _ H1 H2), !(Qle_cross _ _ _ _ H2 H1).
  destruct (Z.eqb_spec (vd v1) 1) as [->|], (Z.eqb_spec (vd v2) 1) as [->|]; cbn [andb];
    try lia; destruct (_ && _) eqn:?; lia.
Qed.

Lemma ele_trans a b c : ele a b = true -> ele b c = true -> ele a c = true.
Proof.
  destruct a as [|[|]|p], b as [|[|]|q], c as [|[|]|r]; cbn [ele]; auto; try discriminate.
  rewrite !Qle_bool_iff. apply Qle_trans.
Qed.
Lemma ele_total a b : a <> ENan -> b <> ENan -> ele a b = true \/ ele b a = true.
Proof.
  destruct a as [|[|]|p], b as [|[|]|q]; cbn [ele]; auto; try congruence.
  intros _ _. rewrite !Qle_bool_iff. destruct (Qlt_le_dec p q) as [H|H]; [left; apply Qlt_le_weak; exact H|auto].
Qed.
Lemma eeq_ext a b : eeq a b = true <-> a <> ENan /\ ext_eq a b.
Proof.
  unfold eeq. destruct a as [|[|]|p], b as [|[|]|q]; cbn [ele ext_eq andb]; try (split; [try discriminate; intuition congruence|intuition congruence]).
  rewrite andb_true_iff, !Qle_bool_iff. split.
  - intros [A B]. split; [congruence|]. apply Qle_antisym; assumption.
  - intros [_ ->]. split; apply Qle_refl.
Qed.

Lemma v_ne_ok v1 v2 e1 e2 : means v1 e1 -> means v2 e2 ->
  v_ne v1 v2 = match e1, e2 with ENan, _ | _, ENan => false | _, _ => negb (eeq e1 e2) end.
Proof.
  intros H1 H2. rewrite <- (v_eq_ok _ _ _ _ H1 H2). unfold v_ne, v_eq.
  rewrite (t_nan _ _ H1), (t_nan _ _ H2).
  destruct e1, e2; cbn [orb]; try reflexivity; rewrite negb_andb; reflexivity.
Qed.

Lemma v_int_means i : means (v_int i) (eint i).
Proof. apply int_means. cbn. lia. Qed.

Lemma v_gt_si_ok v e i : means v e -> v_gt_si v i = elt (eint i) e.
Proof.
  intros H. unfold v_gt_si, v_gt. rewrite (v_lt_ok _ _ _ _ (v_int_means i) H).
  destruct (v_is_int v) eqn:I.
  - rewrite <- (v_lt_ok _ _ _ _ (v_int_means i) H). unfold v_lt. rewrite I. cbn. lia.
  - rewrite (t_nan _ _ H), (t_infty _ _ H), (t_neginfty _ _ H).
    destruct e as [|[|]|q]; reflexivity.
Qed.
Lemma v_eq_si_ok v e i : means v e -> v_eq_si v i = eeq e (eint i).
Proof.
  intros H. rewrite <- (v_eq_ok _ _ _ _ H (v_int_means i)).
  unfold v_eq_si, v_eq, v_is_int, v_is_nan. cbn [vn vd v_int].
  destruct (Z.eqb_spec (vd v) 1) as [->|]; cbn; rewrite ?andb_false_r; cbn; try reflexivity.
  - rewrite andb_true_r. reflexivity.
  - destruct ((vn v =? 0) && (vd v =? 0)); reflexivity.
Qed.
Definition ecmp (a b : ext) : Z :=
  if elt a b then -1 else if elt b a then 1 else 0.
Lemma v_cmp_si_ok v e i : means v e -> v_cmp_si v i = ecmp e (eint i).
Proof.
  intros H. unfold ecmp. rewrite <- (v_lt_ok _ _ _ _ H (v_int_means i)), <- (v_lt_ok _ _ _ _ (v_int_means i) H).
  unfold v_cmp_si, v_lt. rewrite !(v_eq_ok _ _ _ _ H (v_int_means i)), !(v_eq_ok _ _ _ _ (v_int_means i) H).
  rewrite (t_nan _ _ H), (t_infty _ _ H), (t_neginfty _ _ H).
  cbn [v_is_nan v_is_infty v_is_neginfty v_is_int v_int vn vd].
  unfold v_is_int, v_is_nan, v_is_infty, v_is_neginfty. cbn [vn vd v_int]. rewrite !andb_false_r. cbn [Z.eqb Pos.eqb].
  destruct e as [|[|]|q].
  - cbn [means] in H. destruct H as [-> ->]. reflexivity.
  - cbn [means] in H. destruct H as [-> ->]. reflexivity.
  - cbn [means] in H. destruct H as [-> ->]. reflexivity.
  - unfold eeq, eint. cbn [ele]. rewrite (Qle_cross _ _ _ _ H (v_int_means i)), (Qle_cross _ _ _ _ (v_int_means i) H).
    destruct H as (D & G & E). cbn [v_int vn vd].
    destruct (Z.eqb_spec (vd v) 1) as [E1|E1]; cbn [andb orb].
    + destruct (Z.ltb_spec (vn v) i), (Z.ltb_spec i (vn v)); lia.
    + rewrite !Z.mul_1_r.
      destruct (Z.leb_spec (vn v) (i * vd v)), (Z.leb_spec (i * vd v) (vn v)); cbn [andb];
      destruct (Z.ltb_spec (vn v - i * vd v) 0), (Z.ltb_spec (i * vd v - vn v) 0); lia.
Qed.
Lemma v_sgn_ok v e : means v e -> e <> ENan -> v_sgn v = ecmp e (eint 0).
Proof.
  intros H Hn. rewrite <- (v_cmp_si_ok v e 0 H). unfold v_sgn, v_cmp_si, v_is_pos, v_is_int.
  rewrite (t_zero _ _ H), (t_nan _ _ H), (t_infty _ _ H), (t_neginfty _ _ H).
  destruct e as [|[|]|q]; [congruence| | |].
  - cbn [means] in H. destruct H as [-> ->]. reflexivity.
  - cbn [means] in H. destruct H as [-> ->]. reflexivity.
  - rewrite Qeq_bool_0. pose proof (means_sign _ _ H). destruct H as (D & G & E).
    destruct (Z.eqb_spec (vd v) 1), (Z.eqb_spec (Qnum q) 0), (Z.ltb_spec 0 (vn v)); lia.
Qed.
Lemma v_abs_eq_ok v1 v2 e1 e2 : means v1 e1 -> means v2 e2 ->
  v_abs_eq v1 v2 = eeq e1 e2 || eeq e1 (eneg e2).
Proof.
  intros H1 H2. rewrite <- (v_eq_ok _ _ _ _ H1 H2), <- (v_eq_ok _ _ _ _ H1 (eneg_means _ _ H2)).
  unfold v_abs_eq, v_eq. rewrite (t_nan _ _ H1), (t_nan _ _ H2), (t_nan _ _ (eneg_means _ _ H2)).
  assert (Hneg : e2 <> ENan -> vn (v_neg v2) = - vn v2 /\ vd (v_neg v2) = vd v2).
  { intros Hn. unfold v_neg. rewrite (t_nan _ _ H2). unfold v_is_zero.
    destruct e2; [congruence| |]; destruct (Z.eqb_spec (vn v2) 0); cbn [andb negb];
    destruct (vd v2 =? 0); cbn [negb vn vd]; split; lia. }
  destruct e1, e2; cbn [orb eneg]; try reflexivity;
    (destruct Hneg as [-> ->]; [discriminate|]); lia.
Qed.

Lemma eabs_means v e : means v e -> means (v_abs v) (eabs e).
Proof.
  intros H. unfold v_abs, v_is_nonneg, eabs. pose proof (eneg_means _ _ H) as N.
  rewrite (t_nan _ _ H). destruct e as [|[|]|q].
  - exact H.
  - cbn [means] in H. destruct H as [A B]. rewrite A. cbn. auto.
  - cbn [means ele] in *. destruct H as [A B]. rewrite A. exact N.
  - cbn [ele]. change (Qle_bool q 0) with (Qle_bool q (inject_Z 0)). rewrite (Qle_cross v (v_int 0) q (inject_Z 0) H (v_int_means 0)).
    cbn [v_int vn vd]. rewrite Z.mul_1_r, Z.mul_0_l.
    destruct (Z.leb_spec 0 (vn v)), (Z.leb_spec (vn v) 0); try lia; auto.
    apply means_ext with (EFin q); [|exact H]. cbn.
    assert (Qnum q = 0).
    { pose proof (means_sign _ _ H). lia. }
    unfold Qeq, Qopp. cbn [Qnum Qden]. lia.
Qed.

Lemma emin_means v1 v2 e1 e2 : means v1 e1 -> means v2 e2 -> means (v_min v1 v2) (emin e1 e2).
Proof.
  intros H1 H2. unfold v_min. rewrite (t_nan _ _ H1), (t_nan _ _ H2), (v_le_ok _ _ _ _ H1 H2).
  unfold emin. destruct e1, e2; auto; destruct (ele _ _); auto.
Qed.
Lemma emax_means v1 v2 e1 e2 : means v1 e1 -> means v2 e2 -> means (v_max v1 v2) (emax e1 e2).
Proof.
  intros H1 H2. unfold v_max, v_ge. rewrite (t_nan _ _ H1), (t_nan _ _ H2), (v_le_ok _ _ _ _ H2 H1).
  assert (K : e1 <> ENan -> e2 <> ENan -> means (if ele e2 e1 then v1 else v2) (if ele e1 e2 then e2 else e1)).
  { intros A B. destruct (ele e2 e1) eqn:L1, (ele e1 e2) eqn:L2; auto.
    - apply means_ext with e1; [|exact H1]. apply eeq_ext. unfold eeq. rewrite L1, L2. reflexivity.
    - destruct (ele_total e1 e2 A B); congruence. }
  unfold emax. destruct e1, e2; auto; apply K; discriminate.
Qed.

(** ** rounding *)
Lemma Qfloor_val v q : means v (EFin q) -> Qfloor q = vn v / vd v.
Proof.
  intros H. apply means_fin_iff in H as (D & G & E). rewrite <- E.
  cbn [Qfloor]. rewrite Z2Pos.id by exact D. reflexivity.
Qed.
Lemma Qceil_val v q : means v (EFin q) -> Qceiling q = - (- vn v / vd v).
Proof.
  intros H. apply means_fin_iff in H as (D & G & E). rewrite <- E.
  unfold Qceiling. cbn [Qfloor Qopp Qnum Qden]. rewrite Z2Pos.id by exact D. reflexivity.
Qed.
Lemma v_int_eq v : v_is_int v = true -> v = mkv (vn v) 1.
Proof. destruct v; unfold v_is_int; cbn. intros H. apply Z.eqb_eq in H. congruence. Qed.
Lemma efloor_means v e : means v e -> means (v_floor v) (efloor e).
Proof.
  intros H. unfold v_floor. destruct (v_is_int v) eqn:I.
  - destruct e as [|[|]|q]; auto. cbn [efloor]. rewrite (Qfloor_val _ _ H).
    rewrite (v_int_eq v I) at 1. destruct (fin_d1 _ _ H I) as [-> _]. apply int_means. cbn.
    rewrite Z.div_1_r. lia.
  - rewrite (t_rat _ _ H). destruct e as [|[|]|q]; cbn [negb efloor]; auto.
    rewrite (Qfloor_val _ _ H). apply int_means. cbn. lia.
Qed.
Lemma eceil_means v e : means v e -> means (v_ceil v) (eceil e).
Proof.
  intros H. unfold v_ceil. destruct (v_is_int v) eqn:I.
  - destruct e as [|[|]|q]; auto. cbn [eceil]. rewrite (Qceil_val _ _ H).
    rewrite (v_int_eq v I) at 1. destruct (fin_d1 _ _ H I) as [-> _]. apply int_means. cbn.
    rewrite Z.div_1_r. lia.
  - rewrite (t_rat _ _ H). destruct e as [|[|]|q]; cbn [negb eceil]; auto.
    rewrite (Qceil_val _ _ H). apply int_means. cbn. lia.
Qed.
Lemma etrunc_means v e : means v e -> means (v_trunc v) (etrunc e).
Proof.
  intros H. unfold v_trunc.
  assert (K : forall q, means v (EFin q) -> (if Qle_bool 0 q then Qfloor q else Qceiling q) = Z.quot (vn v) (vd v)).
  { intros q Hq. rewrite (Qfloor_val _ _ Hq), (Qceil_val _ _ Hq).
    change (Qle_bool 0 q) with (Qle_bool (inject_Z 0) q). rewrite (Qle_cross (v_int 0) v (inject_Z 0) q (v_int_means 0) Hq). cbn [v_int vn vd].
    destruct Hq as (D & _ & _). rewrite Z.mul_0_l, Z.mul_1_r.
    destruct (Z.leb_spec 0 (vn v)).
    - symmetry. apply Z.quot_div_nonneg; lia.
    - rewrite <- (Z.quot_div_nonneg (- vn v)) by lia. rewrite Z.quot_opp_l by lia. lia. }
  destruct (v_is_int v) eqn:I.
  - destruct e as [|[|]|q]; auto. cbn [etrunc]. rewrite (K _ H).
    rewrite (v_int_eq v I) at 1. destruct (fin_d1 _ _ H I) as [-> _]. apply int_means. cbn.
    rewrite Z.quot_1_r. lia.
  - rewrite (t_rat _ _ H). destruct e as [|[|]|q]; cbn [negb etrunc]; auto.
    rewrite (K _ H). apply int_means. cbn. lia.
Qed.

(** ** unsigned long operands *)
Lemma add_ui_means v e c : means v e -> means (v_add_ui v c) (eadd e (eint c)).
Proof.
  intros H. unfold v_add_ui. rewrite (t_rat _ _ H).
  destruct e as [|[|]|q]; cbn [negb eadd eint]; auto.
  destruct (Z.eqb_spec c 0) as [->|].
  - apply means_ext with (EFin q); [|exact H]. cbn. symmetry. apply Qplus_0_r.
  - destruct H as (D & G & E). cbn [means vn vd]. split; [exact D|]. split.
    + rewrite Z.gcd_comm, Z.add_comm, (Z.mul_comm (vd v)), Z.gcd_comm, Z.add_comm.
      rewrite Z.gcd_comm, Z.gcd_add_mult_diag_r, Z.gcd_comm. exact G.
    + unfold Qplus, inject_Z. cbn [Qnum Qden]. rewrite Pos.mul_1_r. nia.
Qed.
Lemma sub_ui_means v e c : means v e -> means (v_sub_ui v c) (esub e (eint c)).
Proof.
  intros H. replace (v_sub_ui v c) with (v_add_ui v (- c)).
  - apply means_ext with (eadd e (eint (- c))); [|apply add_ui_means; exact H].
    unfold esub, eint. cbn [eneg]. destruct e as [|[|]|q]; cbn; auto. reflexivity.
  - unfold v_add_ui, v_sub_ui. destruct (negb (v_is_rat v)); [reflexivity|].
    destruct (Z.eqb_spec c 0), (Z.eqb_spec (- c) 0); try lia; try reflexivity. f_equal. lia.
Qed.
Lemma mul_ui_means v e c : 0 <= c -> means v e -> means (v_mul_ui v c) (emul e (eint c)).
Proof.
  intros Hc H. unfold v_mul_ui. rewrite (t_rat _ _ H), (t_nan _ _ H).
  destruct e as [|[|]|q]; cbn [negb emul eint]; auto.
  - unfold einf_times. rewrite Qcompare_0. cbn [inject_Z Qnum].
    destruct (Z.eqb_spec c 0), (Z.compare_spec c 0); try lia; auto using set_nan_means.
  - unfold einf_times. rewrite Qcompare_0. cbn [inject_Z Qnum].
    destruct (Z.eqb_spec c 0), (Z.compare_spec c 0); try lia; auto using set_nan_means.
  - destruct (Z.eqb_spec c 1) as [->|].
    + apply means_ext with (EFin q); [|exact H]. cbn. symmetry. apply Qmult_1_r.
    + destruct H as (D & G & E). apply normalize_means; [lia|].
      unfold Qmult, inject_Z. cbn [Qnum Qden]. rewrite Pos.mul_1_r. nia.
Qed.
Lemma div_ui_means v e c : 0 <= c -> means v e -> means (v_div_ui v c) (ediv e (eint c)).
Proof.
  intros Hc H. unfold v_div_ui. rewrite (t_nan _ _ H), (t_zero _ _ H), (t_infty _ _ H), (t_neginfty _ _ H).
  destruct e as [|[|]|q]; cbn [orb ediv eint emul]; auto; rewrite !Qeq_bool_0; cbn [inject_Z Qnum].
  - destruct (Z.eqb_spec c 0); [apply set_nan_means|].
    unfold einf_times. rewrite Qcompare_0. pose proof (Qinv_sgn (inject_Z c)) as S. change (Qnum (inject_Z c)) with c in S.
    destruct (Z.eqb_spec c 1), (Z.compare_spec (Qnum (/ inject_Z c)) 0); try lia; auto.
  - destruct (Z.eqb_spec c 0); [apply set_nan_means|].
    unfold einf_times. rewrite Qcompare_0. pose proof (Qinv_sgn (inject_Z c)) as S. change (Qnum (inject_Z c)) with c in S.
    destruct (Z.eqb_spec c 1), (Z.compare_spec (Qnum (/ inject_Z c)) 0); try lia; auto.
  - destruct (Z.eqb_spec c 0) as [|C0]; [apply set_nan_means|].
    destruct (Z.eqb_spec c 1) as [->|].
    { apply means_ext with (EFin q); [|exact H]. cbn. unfold Qeq, Qmult. cbn. lia. }
    destruct (Z.eqb_spec (Qnum q) 0) as [Q0|Q0].
    { apply means_ext with (EFin q); [|exact H]. cbn. unfold Qeq, Qmult. cbn [Qnum Qden]. rewrite Q0. lia. }
    destruct H as (D & G & E). apply normalize_means; [nia|].
    pose proof (Qinv_cross (inject_Z c) C0) as C. cbn [inject_Z Qnum Qden] in C.
    unfold Qmult. cbn [Qnum Qden]. rewrite Pos2Z.inj_mul. unfold inject_Z.
    transitivity (vn v * Zpos (Qden q) * Zpos (Qden (/ (c # 1)))); [ring|].
    rewrite E. transitivity (Qnum q * vd v * (Qnum (/ (c # 1)) * c)); [unfold inject_Z in C; rewrite C; ring|ring].
Qed.

Theorem veval_means e : vexp_ok e = true -> means (veval e) (eeval e).
Proof.
  induction e; cbn [vexp_ok veval eeval]; intros Hok;
    try (apply andb_prop in Hok as [Hok1 Hok2]).
  - apply v_int_means.
  - unfold v_rat_raw. cbn [ediv eint]. rewrite Qeq_bool_0. cbn [inject_Z Qnum].
    destruct (Z.eqb_spec d 0) as [|D0]; [discriminate|].
    pose proof (Qinv_cross (inject_Z d) D0) as C. cbn [inject_Z Qnum Qden] in C.
    apply normalize_means; [exact D0|]. unfold Qmult, inject_Z. cbn [Qnum Qden]. rewrite Pos.mul_1_l. unfold inject_Z in C. transitivity (n * (Qnum (/ (d # 1)) * d)); [rewrite C; ring|ring].
  - cbn; auto.
  - cbn; auto.
  - cbn; auto.
  - apply eneg_means; auto.
  - apply einv_means; auto.
  - apply eabs_means; auto.
  - apply efloor_means; auto.
  - apply eceil_means; auto.
  - apply etrunc_means; auto.
  - apply emin_means; auto.
  - apply emax_means; auto.
  - apply eadd_means; auto.
  - apply esub_means; auto.
  - apply emul_means; auto.
  - apply ediv_means; auto.
  - apply add_ui_means; auto.
  - apply sub_ui_means; auto.
  - apply mul_ui_means; auto; lia.
  - apply div_ui_means; auto; lia.
Qed.

Lemma pow2_ok v i : means v (eint i) -> - 2 ^ 64 < i < 2 ^ 64 ->
  exists v', v_pow2 v = VOk v' /\
    means v' (EFin (if 0 <=? i then inject_Z (2 ^ i) else / inject_Z (2 ^ (- i)))).
Proof.
  intros H Hi.
  assert (v = mkv i 1) as -> by (eapply means_unique; [exact H|apply v_int_means|cbn; reflexivity]).
  unfold v_pow2, v_is_int, v_is_neg. cbn [vn vd Z.eqb Pos.eqb negb].
  destruct (Z.ltb_spec i 0), (Z.leb_spec 0 i); try lia.
  - replace ((0 <=? - i) && (- i <? 2 ^ 64)) with true by lia. cbn [negb].
    eexists. split; [reflexivity|]. rewrite Z.mul_1_l.
    assert (Hp : 0 < 2 ^ (- i)) by (apply Z.pow_pos_nonneg; lia).
    cbn [means vn vd]. split; [exact Hp|]. split; [apply Z.gcd_1_l|].
    pose proof (Qinv_cross (inject_Z (2 ^ (- i))) ltac:(cbn; lia)) as C.
    cbn [inject_Z Qnum Qden] in C. unfold inject_Z in *. lia.
  - replace (i <? 2 ^ 64) with true by lia. cbn [andb negb].
    eexists. split; [reflexivity|]. rewrite Z.mul_1_l. apply int_means. cbn. lia.
Qed.

(** ** integer functions *)
Lemma v_mod_ok a b : b <> 0 -> v_mod (v_int a) (v_int b) = VOk (v_int (a mod b)).
Proof.
  intros Hb. unfold v_mod, v_is_int, v_int, v_is_nonneg, v_lt, v_is_nan. cbn [vn vd Z.eqb Pos.eqb negb orb].
  rewrite andb_false_r. cbn [v_is_int vd Z.eqb Pos.eqb andb].
  unfold v_is_int. cbn [vn vd Z.eqb Pos.eqb andb].
  destruct (Z.leb_spec 0 a), (Z.ltb_spec a b); cbn [andb]; destruct (Z.eqb_spec b 0); try congruence.
  rewrite Z.mod_small by lia. reflexivity.
Qed.
Lemma v_gcd_ok a b : v_gcd (v_int a) (v_int b) =
  VOk (v_int (if a =? b then a else Z.gcd a b)).
Proof.
  unfold v_gcd, v_is_int, v_int, v_eq, v_is_one, v_is_nan. cbn [vn vd Z.eqb Pos.eqb negb orb].
  rewrite !andb_false_r. cbn [orb]. rewrite andb_true_r.
  destruct (Z.eqb_spec a b); [reflexivity|].
  destruct (Z.eqb_spec a 1) as [->|]; [rewrite Z.gcd_1_l; reflexivity|].
  destruct (Z.eqb_spec b 1) as [->|]; [rewrite Z.gcd_1_r; reflexivity|]. reflexivity.
Qed.
Lemma v_div_by_ok a b : exists r, v_is_divisible_by (v_int a) (v_int b) = VOk r /\ (r = true <-> (b | a)).
Proof.
  unfold v_is_divisible_by, v_is_int, v_int. cbn [vn vd Z.eqb Pos.eqb negb orb].
  eexists. split; [reflexivity|]. destruct (Z.eqb_spec b 0) as [->|].
  - rewrite Z.eqb_eq. split; [intros ->; apply Z.divide_0_r|apply Z.divide_0_l].
  - rewrite Z.eqb_eq. apply Z.rem_divide. assumption.
Qed.

(** loop invariant: g = u*|a| + x... with the Bezout coefficients of |a| only *)
Lemma gcdext_loop_ok A B : forall fuel g d x y,
  0 <= g -> 0 <= d -> (d < Z.of_nat fuel)%Z ->
  (B | g - x * A) -> (B | d - y * A) -> Z.gcd g d = Z.gcd A B ->
  exists g' x' y', gcdext_loop fuel g d x y = Some (g', x', y') /\
    g' = Z.gcd A B /\ (B | g' - x' * A).
Proof.
  induction fuel as [|f IH]; intros g d x y Hg Hd Hf B1 B2 G; [lia|].
  cbn [gcdext_loop]. destruct (Z.ltb_spec 0 d).
  - assert (Hm : g - g / d * d = g mod d) by (rewrite Z.mod_eq by lia; lia).
    pose proof (Z.mod_pos_bound g d ltac:(lia)).
    apply IH; try lia.
    + exact B2.
    + replace (g - g / d * d - (x - g / d * y) * A) with ((g - x * A) - g / d * (d - y * A)) by ring.
      apply Z.divide_sub_r; [exact B1|]. apply Z.divide_mul_r. exact B2.
    + rewrite Hm. rewrite Z.gcd_comm, Z.gcd_mod by lia. rewrite Z.gcd_comm. exact G.
  - exists g, x, y. split; [reflexivity|]. assert (d = 0) by lia. subst d.
    rewrite Z.gcd_0_r, Z.abs_eq in G by lia. split; [exact G|exact B1].
Qed.

Lemma gcdext_ok a b : exists g x y, gcdext a b = Some (g, x, y) /\
  g = Z.gcd a b /\ x * a + y * b = g.
Proof.
  unfold gcdext.
  destruct (gcdext_loop_ok (Z.abs a) (Z.abs b) (S (Z.to_nat (Z.abs b))) (Z.abs a) (Z.abs b) 1 0)
    as (g & x & y & E & Hg & Hdiv); try lia.
  { replace (Z.abs a - 1 * Z.abs a) with 0 by ring. apply Z.divide_0_r. }
  { replace (Z.abs b - 0 * Z.abs a) with (Z.abs b) by ring. apply Z.divide_refl. }
  rewrite E. rewrite Z.gcd_abs_l, Z.gcd_abs_r in Hg.
  set (x' := if a =? 0 then 0 else if a <? 0 then - x else x).
  assert (Hx : x' * a = if a =? 0 then 0 else x * Z.abs a).
  { unfold x'. destruct (Z.eqb_spec a 0), (Z.ltb_spec a 0); lia. }
  eexists g, x', _. split; [reflexivity|]. split; [exact Hg|].
  destruct (Z.eqb_spec b 0) as [->|B0].
  - rewrite Z.gcd_0_r in Hg. rewrite Hx.
    apply Z.divide_abs_l, Z.divide_0_l in Hdiv. destruct (Z.eqb_spec a 0); lia.
  - assert (Hd : (b | g - a * x')).
    { rewrite (Z.mul_comm a x'), Hx. destruct (Z.eqb_spec a 0) as [->|].
      - rewrite Z.gcd_0_l in Hg. rewrite Hg, Z.sub_0_r. apply Z.divide_abs_r. apply Z.divide_refl.
      - apply Z.divide_abs_l. exact Hdiv. }
    destruct Hd as [k Hk]. rewrite Hk, Z.div_mul by exact B0. lia.
Qed.

Lemma v_gcdext_ok a b : exists x y, v_gcdext (v_int a) (v_int b) =
    VOk (v_int (Z.gcd a b), v_int x, v_int y) /\ x * a + y * b = Z.gcd a b.
Proof.
  destruct (gcdext_ok a b) as (g & x & y & E & -> & B). exists x, y.
  unfold v_gcdext, v_is_int, v_int. cbn [vn vd Z.eqb Pos.eqb negb orb]. rewrite E. auto.
Qed.

Lemma nonint_rejected v1 v2 : v_is_int v1 = false \/ v_is_int v2 = false ->
  v_mod v1 v2 = VNull /\ v_gcd v1 v2 = VNull /\ v_gcdext v1 v2 = VNull /\ v_is_divisible_by v1 v2 = VNull.
Proof.
  intros H. unfold v_mod, v_gcd, v_gcdext, v_is_divisible_by.
  destruct H as [-> | ->]; rewrite ?orb_true_r; auto.
Qed.

(** ** chunks *)
Lemma export_length bits fuel : forall n mem, length (export_chunks bits fuel n mem) = length mem.
Proof. induction fuel as [|f IH]; intros n [|c mem]; cbn; auto. destruct (n =? 0); cbn; auto. Qed.

Lemma export_import bits : 0 < bits -> forall mem n,
  2 ^ (bits * (Z.of_nat (length mem) - 1)) <= n < 2 ^ (bits * Z.of_nat (length mem)) ->
  (0 < length mem)%nat ->
  import_chunks bits (export_chunks bits (length mem) n mem) = n.
Proof.
  intros Hb. induction mem as [|c mem IH]; intros n Hn Hl; [cbn in Hl; lia|].
  cbn [length export_chunks].
  assert (Hp : 0 < 2 ^ bits) by (apply Z.pow_pos_nonneg; lia).
  destruct (Z.eqb_spec n 0) as [->|N0].
  { exfalso. assert (0 < 2 ^ (bits * (Z.of_nat (length (c :: mem)) - 1))); [|lia].
    apply Z.pow_pos_nonneg; [lia|]. cbn [length]. nia. }
  cbn [import_chunks].
  assert (E : 2 ^ (bits * Z.of_nat (length (c :: mem))) = 2 ^ bits * 2 ^ (bits * Z.of_nat (length mem))).
  { rewrite <- Z.pow_add_r by nia. f_equal. cbn [length]. lia. }
  destruct mem as [|c' mem].
  - cbn [length export_chunks import_chunks]. cbn in Hn. rewrite Z.mul_1_r in Hn.
    pose proof (Z.pow_nonneg 2 (bits * 0)).
    rewrite Z.mod_small by lia. lia.
  - rewrite IH.
    + rewrite Z.add_comm. symmetry. apply Z.div_mod. lia.
    + rewrite E in Hn. split.
      * apply Z.div_le_lower_bound; [lia|]. destruct Hn as [Hn _].
        rewrite <- Z.pow_add_r by (cbn [length]; nia).
        etransitivity; [|exact Hn]. apply Z.eq_le_incl. f_equal. cbn [length]. lia.
      * apply Z.div_lt_upper_bound; lia.
    + cbn; lia.
Qed.

(** GMP variant: the announced number of chunks is exactly what is written *)
Lemma chunks_gmp_ok v size mem :
  0 < size -> v_is_rat v = true ->
  Z.of_nat (length mem) = n_abs_num_chunks false v size ->
  exists mem', get_abs_num_chunks v size mem = VOk mem' /\
    length mem' = length mem /\
    int_from_chunks size mem' = v_int (Z.abs (vn v)).
Proof.
  intros Hs Hr Hl. unfold get_abs_num_chunks. rewrite Hr. cbn [negb].
  eexists. split; [reflexivity|]. unfold v_is_zero, v_is_rat in *.
  unfold n_abs_num_chunks, sizeinbase2 in Hl. cbn [andb] in Hl. rewrite (Z.mul_comm size 8) in Hl.
  set (bits := 8 * size) in *. assert (Hb : 8 <= bits) by lia.
  unfold int_from_chunks. fold bits.
  destruct (Z.eqb_spec (vn v) 0) as [N0|N0].
  - replace (1 + bits - 1) with (1 * bits) in Hl by ring. rewrite Z.div_mul in Hl by lia.
    destruct mem as [|c [|c' mem]]; cbn [length] in Hl; try lia.
    rewrite Hr, N0. cbn [negb andb Z.eqb length export_chunks Z.abs import_chunks]. rewrite Z.mul_0_r. auto.
  - cbn [andb]. split; [apply export_length|]. f_equal.
    set (n := Z.abs (vn v)) in *. assert (Hn : 0 < n) by lia.
    pose proof (Z.log2_spec n Hn) as [L1 L2]. pose proof (Z.log2_nonneg n).
    set (len := Z.of_nat (length mem)) in *.
    set (x := Z.log2 n) in *.
    pose proof (Z.div_mod (x + 1 + bits - 1) bits ltac:(lia)) as Dm.
    pose proof (Z.mod_pos_bound (x + 1 + bits - 1) bits ltac:(lia)) as Mb.
    rewrite <- Hl in Dm.
    assert (0 < len) by nia.
    apply export_import; [lia| |unfold len in *; lia]. fold len. split.
    + etransitivity; [|exact L1]. apply Z.pow_le_mono_r; nia.
    + eapply Z.lt_le_trans; [exact L2|]. apply Z.pow_le_mono_r; nia.
Qed.

(** the sioimath variant only when the number of chunks announced is the
    number needed *)
Lemma chunks_sio_ok v size mem :
  0 < size -> v_is_rat v = true ->
  n_abs_num_chunks true v size = n_abs_num_chunks false v size ->
  Z.of_nat (length mem) = n_abs_num_chunks true v size ->
  exists mem', get_abs_num_chunks v size mem = VOk mem' /\
    length mem' = length mem /\
    int_from_chunks size mem' = v_int (Z.abs (vn v)).
Proof. intros Hs Hr E Hl. apply chunks_gmp_ok; auto. congruence. Qed.

Lemma v_predicates_ok v e : means v e ->
  v_is_zero v = eeq e (eint 0) /\ v_is_one v = eeq e (eint 1) /\ v_is_negone v = eeq e (eint (-1)) /\
  v_is_pos v = elt (eint 0) e /\ v_is_neg v = elt e (eint 0) /\
  v_is_nonneg v = ele (eint 0) e /\ v_is_nonpos v = ele e (eint 0).
Proof.
  intros H. unfold elt.
  rewrite <- (v_eq_ok _ _ _ _ H (v_int_means 0)), <- (v_eq_ok _ _ _ _ H (v_int_means 1)),
    <- (v_eq_ok _ _ _ _ H (v_int_means (-1))).
  unfold v_is_zero, v_is_one, v_is_negone, v_is_pos, v_is_neg, v_is_nonneg, v_is_nonpos.
  unfold v_eq. rewrite (t_nan _ _ H). unfold v_is_nan. cbn [v_int vn vd].
  destruct e as [|[|]|q]; cbn [orb andb Z.eqb Pos.eqb ele eint].
  1-3: cbn [means] in H; destruct H as [-> ->]; cbn; auto 10.
  rewrite (Qle_cross v (v_int 0) q (inject_Z 0) H (v_int_means 0)),
    (Qle_cross (v_int 0) v (inject_Z 0) q (v_int_means 0) H).
  destruct H as (D & G & E). cbn [v_int vn vd].
  assert (Hz : vn v = 0 -> vd v = 1) by (intros Hn; rewrite Hn in G; rewrite Z.gcd_0_l in G; lia).
  assert (H1 : vn v = vd v -> vd v = 1).
  { intros Hn. rewrite Hn in G. rewrite Z.gcd_diag in G. lia. }
  assert (H2 : vn v = - vd v -> vd v = 1).
  { intros Hn. rewrite Hn in G. rewrite Z.gcd_opp_l, Z.gcd_diag in G. lia. }
  rewrite ?andb_false_r. cbn [orb].
  repeat split; lia.
Qed.

Lemma v_mod_spec a b : b <> 0 ->
  exists r, v_mod (v_int a) (v_int b) = VOk (v_int r) /\
    (b | a - r) /\ (0 < b -> 0 <= r < b) /\ (b < 0 -> b < r <= 0).
Proof.
  intros Hb. exists (a mod b). split; [exact (v_mod_ok a b Hb)|].
  split; [|split; intros H; [apply Z.mod_pos_bound|apply Z.mod_neg_bound]; lia].
  exists (a / b). rewrite Z.mod_eq by exact Hb. ring.
Qed.
Lemma v_gcdext_spec a b : exists g x y,
  v_gcdext (v_int a) (v_int b) = VOk (v_int g, v_int x, v_int y) /\
  x * a + y * b = g /\ 0 <= g /\ (g | a) /\ (g | b).
Proof.
  destruct (v_gcdext_ok a b) as (x & y & E & B). exists (Z.gcd a b), x, y.
  repeat split; auto; [apply Z.gcd_nonneg|apply Z.gcd_divide_l|apply Z.gcd_divide_r].
Qed.
Lemma v_gcd_spec a b : a <> b \/ 0 <= a -> v_gcd (v_int a) (v_int b) = VOk (v_int (Z.gcd a b)).
Proof.
  intros H. rewrite v_gcd_ok. destruct (Z.eqb_spec a b) as [->|]; [|reflexivity].
  rewrite Z.gcd_diag, Z.abs_eq by lia. reflexivity.
Qed.

Lemma m_nan : means v_nan ENan. Proof. cbn; auto. Qed.
Lemma m_inf : means v_infty (EInf true). Proof. cbn; auto. Qed.
Lemma m_ninf : means v_neginfty (EInf false). Proof. cbn; auto. Qed.
Lemma m_zero : means v_zero (EFin 0). Proof. exact (int_means 0 0 eq_refl). Qed.

Ltac by_means L :=
  eapply means_unique; [eapply L; eauto using m_nan, m_inf, m_ninf, m_zero|
    first [apply m_nan|apply m_inf|apply m_ninf|apply m_zero]|].

Lemma special_values_ok v : canonical v ->
    v_add v_nan v = v_nan /\ v_add v v_nan = v_nan /\
    v_sub v_nan v = v_nan /\ v_sub v v_nan = v_nan /\
    v_mul v_nan v = v_nan /\ v_mul v v_nan = v_nan /\
    v_div v_nan v = v_nan /\ v_div v v_nan = v_nan /\
    v_min v_nan v = v_nan /\ v_min v v_nan = v_nan /\
    v_max v_nan v = v_nan /\ v_max v v_nan = v_nan /\
    (forall c, v_add_ui v_nan c = v_nan /\ v_sub_ui v_nan c = v_nan /\
               v_mul_ui v_nan c = v_nan /\ v_div_ui v_nan c = v_nan) /\
    v_neg v_nan = v_nan /\ v_inv v_nan = v_nan /\ v_abs v_nan = v_nan /\
    v_sub v_infty v_infty = v_nan /\ v_add v_infty v_neginfty = v_nan /\
    v_add v_neginfty v_infty = v_nan /\
    v_mul v_zero v_infty = v_nan /\ v_mul v_infty v_zero = v_nan /\
    v_mul v_zero v_neginfty = v_nan /\ v_mul v_neginfty v_zero = v_nan /\
    v_div v_infty v_infty = v_nan /\ v_div v_neginfty v_infty = v_nan /\
    v_div v_infty v_neginfty = v_nan /\ v_div v_neginfty v_neginfty = v_nan /\
    v_div v v_zero = v_nan /\ v_inv v_zero = v_nan /\ v_div_ui v 0 = v_nan /\
    v_mul_ui v_infty 0 = v_nan /\ v_mul_ui v_neginfty 0 = v_nan /\
    (v_is_rat v = true ->
       v_add v v_infty = v_infty /\ v_add v_infty v = v_infty /\
       v_add v v_neginfty = v_neginfty /\ v_add v_neginfty v = v_neginfty /\
       v_sub v v_infty = v_neginfty /\ v_sub v_infty v = v_infty /\
       v_sub v v_neginfty = v_infty /\ v_sub v_neginfty v = v_neginfty /\
       v_div v v_infty = v_zero /\ v_div v v_neginfty = v_zero) /\
    (v_is_pos v = true ->
       v_mul v v_infty = v_infty /\ v_mul v_infty v = v_infty /\
       v_mul v v_neginfty = v_neginfty /\ v_mul v_neginfty v = v_neginfty) /\
    (v_is_neg v = true ->
       v_mul v v_infty = v_neginfty /\ v_mul v_infty v = v_neginfty /\
       v_mul v v_neginfty = v_infty /\ v_mul v_neginfty v = v_infty) /\
    v_inv v_infty = v_zero /\ v_inv v_neginfty = v_zero /\
    v_abs v_neginfty = v_infty /\ v_abs v_infty = v_infty /\
    v_neg v_infty = v_neginfty /\ v_neg v_neginfty = v_infty /\
    (v_is_rat v = false -> v_floor v = v /\ v_ceil v = v /\ v_trunc v = v).
Proof.
  intros [e H].
  assert (Hpos : v_is_pos v = true -> elt (eint 0) e = true).
  { intros P. destruct (v_predicates_ok v e H) as (_ & _ & _ & E & _). congruence. }
  assert (Hneg : v_is_neg v = true -> elt e (eint 0) = true).
  { intros P. destruct (v_predicates_ok v e H) as (_ & _ & _ & _ & E & _). congruence. }
  assert (Hpz : forall q, elt (eint 0) (EFin q) = true -> 0 < Qnum q).
  { intros q. unfold elt. cbn [ele eint]. rewrite andb_true_iff, negb_true_iff, <- not_true_iff_false, !Qle_bool_iff.
    unfold Qle. cbn. lia. }
  assert (Hnz : forall q, elt (EFin q) (eint 0) = true -> Qnum q < 0).
  { intros q. unfold elt. cbn [ele eint]. rewrite andb_true_iff, negb_true_iff, <- not_true_iff_false, !Qle_bool_iff.
    unfold Qle. cbn. lia. }
  repeat match goal with |- _ /\ _ => split end.
  all: try (vm_compute; reflexivity).
  all: try (by_means eadd_means; destruct e as [|[|]|q]; exact I).
  all: try (by_means esub_means; destruct e as [|[|]|q]; exact I).
  all: try (by_means emul_means; destruct e as [|[|]|q]; exact I).
  all: try (by_means ediv_means; destruct e as [|[|]|q]; exact I).
  all: try (by_means emin_means; destruct e as [|[|]|q]; exact I).
  all: try (by_means emax_means; destruct e as [|[|]|q]; exact I).
  - intros c. repeat split.
  - by_means div_ui_means; [lia|]. destruct e as [|[|]|q]; exact I.
  - intros R. rewrite (t_rat _ _ H) in R. destruct e as [|[|]|q]; try discriminate.
    repeat match goal with |- _ /\ _ => split end.
    all: first [by_means eadd_means; reflexivity|by_means esub_means; reflexivity|by_means ediv_means; reflexivity].
  - intros R. apply Hpos in R.
    destruct e as [|[|]|q]; try discriminate; [repeat split; by_means emul_means; reflexivity|].
    apply Hpz in R. repeat match goal with |- _ /\ _ => split end; by_means emul_means;
      cbn [emul]; unfold einf_times; rewrite Qcompare_0; destruct (Z.compare_spec (Qnum q) 0); try lia; reflexivity.
  - intros R. apply Hneg in R.
    destruct e as [|[|]|q]; try discriminate; [repeat split; by_means emul_means; reflexivity|].
    apply Hnz in R. repeat match goal with |- _ /\ _ => split end; by_means emul_means;
      cbn [emul]; unfold einf_times; rewrite Qcompare_0; destruct (Z.compare_spec (Qnum q) 0); try lia; reflexivity.
  - intros R. unfold v_floor, v_ceil, v_trunc. rewrite R. unfold v_is_int, v_is_rat in *.
    destruct (Z.eqb_spec (vd v) 0) as [->|]; [|discriminate]. auto.
Qed.
