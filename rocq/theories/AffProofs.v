(** Arithmetic of affine expressions. *)
From Coq Require Import ZArith List Bool QArith Qround Arith Lia ZifyBool Setoid Lqa.
From Verif Require Import SeqModel SeqSpec SeqProofs MatModel ValModel LocalModel LocalSpec LocalProofs BMapModel BMapLists SpaceModel PolySpec QpModel QpSpec QpProofs AffModel AffSpec AffBase AffNorm.
Import ListNotations.
Open Scope Z_scope.

Lemma wf_good f : wf_aff f <-> good (a_d f) (a_div f) (a_v f).
Proof. unfold wf_aff, wf_ls, good, a_n. tauto. Qed.
Lemma good_wf f g : a_sp g = a_sp f -> good (a_d f) (a_div g) (a_v g) -> wf_aff g.
Proof. intros E G. apply wf_good. unfold a_d. rewrite E. exact G. Qed.
Lemma keeps_wf f g : a_sp g = a_sp f -> keeps (a_d f) (a_div f) (a_v f) (a_div g) (a_v g) -> wf_aff g /\ forall v r, avalue f v r -> avalue g v r.
Proof. intros E (G & H). split; [apply (good_wf f); assumption|]. intros v r A. unfold avalue, a_d. rewrite E. apply H. exact A. Qed.
Lemma avalue_total f v : wf_aff f -> int_point (a_d f) v -> exists r, avalue f v r.
Proof.
  intros ((W & K & _) & P) (L & E). destruct (extend_sat _ _ _ W K L E) as (S1 & F). exists (inject_Z (dot (skipn 1%nat (a_v f)) (extend_loop (a_div f) v)) / inject_Z (nth 0%nat (a_v f) 0%Z))%Q. exists (extend_loop (a_div f) v). split; [exact S1|]. split; [exact F|]. field. unfold Qeq. cbn. lia.
Qed.
Lemma avalue_unique f v r r' : wf_aff f -> avalue f v r -> avalue f v r' -> (r == r')%Q.
Proof.
  intros ((W & K & _) & P) (w & S1 & F & E) (w' & S2 & F' & E'). assert (w = w') by (eapply sat_unique; eauto; congruence). subst w'. apply (Qmult_inj_l _ _ (inject_Z (nth 0%nat (a_v f) 0%Z))); [unfold Qeq; cbn; lia|]. rewrite E, E'. reflexivity.
Qed.
Lemma avalue_ext f v r r' : (r == r')%Q -> avalue f v r -> avalue f v r'.
Proof. intros E (w & A & B & C). exists w. split; [exact A|]. split; [exact B|]. rewrite <- E. exact C. Qed.
Lemma avalue_point f v r : avalue f v r -> int_point (a_d f) v.
Proof. intros (w & (L & E & _) & F & _). rewrite <- F. split; [rewrite firstn_length; lia|]. rewrite nth_firstn. exact E. Qed.
Lemma not_nan f : wf_aff f -> aff_is_nan f = false.
Proof.
  intros (_ & P). unfold aff_is_nan. pose proof (first_non_zero_ok (firstn 2 (a_v f))) as B. destruct (seq_first_non_zero _); [reflexivity|]. specialize (B 0%nat). rewrite nth_firstn in B. cbn [Nat.ltb Nat.leb] in B. lia.
Qed.
Lemma nan_is_nan f : nan_aff f -> aff_is_nan f = true.
Proof.
  intros (_ & Z0). unfold aff_is_nan. pose proof (first_non_zero_ok (firstn 2 (a_v f))) as B. destruct (seq_first_non_zero _) as [k|]; [|reflexivity]. destruct B as (_ & B & _). rewrite nth_firstn in B. destruct (Nat.ltb _ _); [|lia]. rewrite Z0 in B. lia.
Qed.
Lemma is_cst_ok f : aff_is_cst f = true <-> forall i, (2 <= i)%nat -> nth i (a_v f) 0 = 0.
Proof.
  unfold aff_is_cst. pose proof (first_non_zero_ok (skipn 2 (a_v f))) as B. destruct (seq_first_non_zero _) as [k|].
  - destruct B as (_ & B & _). rewrite nth_skipn in B. split; [discriminate|]. intros H. rewrite H in B by lia. lia.
  - split; [|reflexivity]. intros _ i Hi. specialize (B (i - 2)%nat). rewrite nth_skipn in B. replace (2 + (i - 2))%nat with i in B by lia. exact B.
Qed.
(** an expression over the same integer divisions *)
Lemma with_v_ok f l' (h : Q -> Q) : wf_aff f -> length l' = length (a_v f) -> 0 < nth 0 l' 0 ->
  (forall w r, sat (a_d f) (a_div f) w -> (inject_Z (nth 0%nat (a_v f) 0%Z) * r == inject_Z (dot (skipn 1%nat (a_v f)) w))%Q -> (inject_Z (nth 0%nat l' 0%Z) * h r == inject_Z (dot (skipn 1%nat l') w))%Q) ->
  wf_aff (with_v f l') /\ forall v r, avalue f v r -> avalue (with_v f l') v (h r).
Proof.
  intros ((W & K & L) & P) L' P' H. split.
  - split; [|exact P']. split; [exact W|]. split; [exact K|]. unfold with_v, a_d, a_n in *. cbn [a_v a_sp a_div]. lia.
  - intros v r (w & Sw & Fw & E). exists w. split; [exact Sw|]. split; [exact Fw|]. apply H; assumption.
Qed.
Lemma inj_nz a : a <> 0 -> ~ (inject_Z a == 0)%Q.
Proof. intros H E. unfold Qeq in E. cbn in E. lia. Qed.
Lemma inj_eq a b : (inject_Z a == inject_Z b)%Q <-> a = b.
Proof. unfold Qeq. cbn. lia. Qed.

(** ** negation and scaling *)
Theorem neg_ok f : wf_aff f -> wf_aff (aff_neg f) /\ forall v r, avalue f v r -> avalue (aff_neg f) v (- r).
Proof.
  intros W. unfold aff_neg. rewrite not_nan by exact W. pose proof W as ((_ & _ & L) & P).
  apply (with_v_ok f _ Qopp W); [unfold seq_neg; cbn [length]; rewrite map_length, skipn_length; lia|exact P|].
  intros w r _ E. cbn [nth skipn]. unfold seq_neg. rewrite dot_opp, inject_Z_opp, <- E. ring.
Qed.
Lemma dot_scale l k w : dot (seq_scale l k) w = k * dot l w.
Proof. apply dot_map_mul. Qed.
Lemma divexact_l g a : (g | a) -> g <> 0 -> a = g * divexact a g.
Proof. intros (k & ->) N. unfold divexact. rewrite Z.div_mul by exact N. ring. Qed.
Lemma scale_gcd_ok f k : wf_aff f -> let den := nth 0 (a_v f) 0 in let g := Z.gcd den k in let f' := with_v f (divexact den g :: seq_scale (skipn 1%nat (a_v f)) (divexact k g)) in
  wf_aff f' /\ forall v r, avalue f v r -> avalue f' v (r * inject_Z k).
Proof.
  intros W. pose proof W as ((_ & _ & L) & P). cbv zeta. set (den := nth 0%nat (a_v f) 0%Z) in *. set (g := Z.gcd den k).
  assert (Gp : 0 < g). { pose proof (Z.gcd_nonneg den k). destruct (Z.eq_dec g 0) as [E|]; [apply Z.gcd_eq_0_l in E; lia|unfold g in *; lia]. }
  pose proof (divexact_l g den (Z.gcd_divide_l _ _) ltac:(lia)) as Ed. pose proof (divexact_l g k (Z.gcd_divide_r _ _) ltac:(lia)) as Ek. set (q := divexact den g) in *. set (k' := divexact k g) in *.
  apply (with_v_ok f _ (fun r => r * inject_Z k)%Q W); [unfold seq_scale; cbn [length]; rewrite map_length, skipn_length; lia|cbn [nth]; nia|].
  intros w r _ E. cbn [nth skipn]. fold den in E. rewrite dot_scale, inject_Z_mult, <- E, Ed, Ek, !inject_Z_mult. ring.
Qed.
Theorem scale_ok f k : wf_aff f -> wf_aff (aff_scale f k) /\ forall v r, avalue f v r -> avalue (aff_scale f k) v (r * inject_Z k).
Proof.
  intros W. unfold aff_scale. rewrite not_nan by exact W. pose proof W as ((_ & _ & L) & P). pose proof (scale_gcd_ok f k W) as SG. cbv zeta in *. set (den := nth 0%nat (a_v f) 0%Z) in *.
  destruct (Z.eqb_spec k 1) as [->|N1]. { split; [exact W|]. intros v r A. apply (avalue_ext f v r); [ring|exact A]. }
  destruct (Z.ltb_spec 0 k) as [Hk|Hk]; cbn [andb]; [|exact SG]. destruct (Z.eqb_spec (den mod k) 0) as [Em|Em]; [|exact SG].
  apply Z.mod_divide in Em; [|lia]. pose proof (divexact_l k den Em ltac:(lia)) as Ed. set (q := divexact den k) in *.
  apply (with_v_ok f _ (fun r => r * inject_Z k)%Q W); [cbn [length]; rewrite skipn_length; lia|cbn [nth]; nia|].
  intros w r _ E. cbn [nth skipn]. fold den in E. rewrite <- E, Ed, inject_Z_mult. ring.
Qed.
Theorem scale_down_ok f k : wf_aff f -> 0 < k -> exists g, aff_scale_down f k = Ok g /\ a_sp g = a_sp f /\ wf_aff g /\ forall v r, avalue f v r -> avalue g v (r / inject_Z k).
Proof.
  intros W Hk. unfold aff_scale_down. rewrite not_nan by exact W. pose proof W as ((_ & _ & L) & P).
  destruct (Z.eqb_spec k 1) as [->|N1]. { exists f. split; [reflexivity|]. split; [reflexivity|]. split; [exact W|]. intros v r A. apply (avalue_ext f v r); [field|exact A]. }
  destruct (Z.eqb_spec k 0); [lia|]. eexists. split; [reflexivity|]. split; [reflexivity|]. set (s := seq_gcd _). set (g := Z.gcd s k).
  assert (Gp : 0 < g). { pose proof (Z.gcd_nonneg s k). destruct (Z.eq_dec g 0) as [E|]; [apply Z.gcd_eq_0_r in E; lia|unfold g in *; lia]. }
  pose proof (divexact_l g k (Z.gcd_divide_r _ _) ltac:(lia)) as Ek. set (k' := divexact k g) in *.
  apply (with_v_ok f _ (fun r => r / inject_Z k)%Q W); [unfold seq_scale_down; cbn [length]; rewrite map_length, skipn_length; lia|cbn [nth]; nia|].
  intros w r _ E. cbn [nth skipn]. assert (D : dot (skipn 1%nat (a_v f)) w = g * dot (seq_scale_down (skipn 1%nat (a_v f)) g) w).
  { apply map_div_mul; [lia|]. intros x Hx. apply Z.divide_trans with s; [apply Z.gcd_divide_l|]. apply (seq_gcd_ok (skipn 1%nat (a_v f))). exact Hx. }
  rewrite D in E. set (X := dot (seq_scale_down _ _) w) in *. rewrite Ek. rewrite !inject_Z_mult in *.
  apply (Qmult_inj_l _ _ (inject_Z g)); [apply inj_nz; lia|]. rewrite <- E. field. split; apply inj_nz; nia.
Qed.
Lemma scale_sp f k : a_sp (aff_scale f k) = a_sp f.
Proof. unfold aff_scale. cbv zeta. repeat match goal with |- context[if ?c then _ else _] => destruct c end; reflexivity. Qed.
Lemma v_one_ok v : 0 < vd v -> v_is_one v = true -> (vq v == 1)%Q.
Proof. intros P. unfold v_is_one, v_is_nan, vq. destruct (Z.eqb_spec (vn v) 0), (Z.eqb_spec (vd v) 0); cbn [andb]; try lia; intros E; assert (Ev : vn v = vd v) by lia; rewrite Ev; field; apply inj_nz; lia. Qed.
Theorem scale_val_ok f x : wf_aff f -> 0 < vd x -> exists g, aff_scale_val f x = Ok g /\ a_sp g = a_sp f /\ wf_aff g /\ forall v r, avalue f v r -> avalue g v (r * vq x).
Proof.
  intros W P. unfold aff_scale_val. destruct (v_is_one x) eqn:E1. { exists f. split; [reflexivity|]. split; [reflexivity|]. split; [exact W|]. intros v r A. apply (avalue_ext f v r); [rewrite (v_one_ok x P E1); ring|exact A]. }
  unfold v_is_rat. destruct (Z.eqb_spec (vd x) 0); [lia|]. cbn [negb]. destruct (scale_ok f (vn x) W) as (W1 & H1). destruct (scale_down_ok _ (vd x) W1 P) as (g & Eg & Sg & Wg & Hg).
  exists g. split; [exact Eg|]. split; [rewrite Sg; apply scale_sp|]. split; [exact Wg|]. intros v r A. apply (avalue_ext g v (r * inject_Z (vn x) / inject_Z (vd x))); [unfold vq; field; apply inj_nz; lia|]. apply Hg, H1, A.
Qed.
Theorem scale_down_val_ok f x : wf_aff f -> 0 < vd x -> 0 < vn x -> exists g, aff_scale_down_val f x = Ok g /\ a_sp g = a_sp f /\ wf_aff g /\ forall v r, avalue f v r -> avalue g v (r / vq x).
Proof.
  intros W P Pn. unfold aff_scale_down_val. destruct (v_is_one x) eqn:E1. { exists f. split; [reflexivity|]. split; [reflexivity|]. split; [exact W|]. intros v r A. apply (avalue_ext f v r); [rewrite (v_one_ok x P E1); field|exact A]. }
  unfold v_is_rat, v_is_pos. destruct (Z.eqb_spec (vd x) 0); [lia|]. destruct (Z.ltb_spec 0 (vn x)); [|lia]. cbn [negb]. destruct (scale_ok f (vd x) W) as (W1 & H1). destruct (scale_down_ok _ (vn x) W1 Pn) as (g & Eg & Sg & Wg & Hg).
  exists g. split; [exact Eg|]. split; [rewrite Sg; apply scale_sp|]. split; [exact Wg|]. intros v r A. apply (avalue_ext g v (r * inject_Z (vd x) / inject_Z (vn x))); [unfold vq; field; split; apply inj_nz; lia|]. apply Hg, H1, A.
Qed.
(** ** products and quotients *)
Lemma cst_value f : wf_aff f -> aff_is_cst f = true -> forall v r, avalue f v r -> (r == inject_Z (nth 1%nat (a_v f) 0%Z) / inject_Z (nth 0%nat (a_v f) 0%Z))%Q.
Proof.
  intros ((_ & _ & L) & P) C v r (w & (Lw & W0 & _) & _ & E). rewrite is_cst_ok in C. assert (D : dot (skipn 1%nat (a_v f)) w = nth 1%nat (a_v f) 0%Z).
  { destruct (a_v f) as [|m [|c t]]; cbn in L; try lia. cbn [skipn nth] in *. destruct w as [|b u]; cbn in W0; [discriminate|subst b]. cbn [dot]. rewrite dot_zeros; [lia|]. intros j. apply (C (S (S j))). lia. }
  rewrite D in E. rewrite <- E. field. apply inj_nz. lia.
Qed.
Lemma mul_cst_ok f1 f2 : wf_aff f1 -> wf_aff f2 -> aff_is_cst f2 = true -> exists g, aff_mul_cst f1 f2 = Ok g /\ a_sp g = a_sp f1 /\ wf_aff g /\ forall v r1 v2 r2, avalue f1 v r1 -> avalue f2 v2 r2 -> avalue g v (r1 * r2).
Proof.
  intros W1 W2 C. unfold aff_mul_cst. destruct (scale_ok f1 (nth 1%nat (a_v f2) 0%Z) W1) as (Wa & Ha). destruct (scale_down_ok _ (nth 0%nat (a_v f2) 0%Z) Wa ltac:(apply W2)) as (g & Eg & Sg & Wg & Hg).
  exists g. split; [exact Eg|]. split; [rewrite Sg; apply scale_sp|]. split; [exact Wg|]. intros v r1 v2 r2 A1 A2. pose proof (cst_value f2 W2 C _ _ A2) as E2. apply (avalue_ext g v (r1 * inject_Z (nth 1%nat (a_v f2) 0%Z) / inject_Z (nth 0%nat (a_v f2) 0%Z))); [rewrite E2; field; apply inj_nz; destruct W2; lia|]. apply Hg, Ha, A1.
Qed.
Theorem mul_ok f1 f2 : wf_aff f1 -> wf_aff f2 -> aff_is_cst f1 = true \/ aff_is_cst f2 = true -> a_d f1 = a_d f2 ->
  exists g, aff_mul f1 f2 = Ok g /\ wf_aff g /\ forall v r1 r2, avalue f1 v r1 -> avalue f2 v r2 -> avalue g v (r1 * r2).
Proof.
  intros W1 W2 C D. unfold aff_mul. rewrite !not_nan by assumption. destruct (aff_is_cst f2) eqn:C2; cbn [negb andb].
  - destruct (mul_cst_ok f1 f2 W1 W2 C2) as (g & E & _ & W & H). exists g. split; [exact E|]. split; [exact W|]. intros v r1 r2 A1 A2. exact (H v r1 v r2 A1 A2).
  - destruct (aff_is_cst f1) eqn:C1; [|destruct C; discriminate]. destruct (mul_cst_ok f2 f1 W2 W1 C1) as (g & E & _ & W & H). exists g. split; [exact E|]. split; [exact W|]. intros v r1 r2 A1 A2. apply (avalue_ext g v (r2 * r1)); [ring|]. exact (H v r2 v r1 A2 A1).
Qed.
Lemma plain_is_zero_ok f : wf_aff f -> aff_plain_is_zero f = true <-> forall i, (1 <= i)%nat -> nth i (a_v f) 0 = 0.
Proof.
  intros (_ & P). unfold aff_plain_is_zero. destruct (Z.eqb_spec (nth 0%nat (a_v f) 0%Z) 0); [lia|]. pose proof (first_non_zero_ok (skipn 1%nat (a_v f))) as B. destruct (seq_first_non_zero _) as [k|].
  - destruct B as (_ & B & _). rewrite nth_skipn in B. split; [discriminate|]. intros H. rewrite H in B by lia. lia.
  - split; [|reflexivity]. intros _ i Hi. specialize (B (i - 1)%nat). rewrite nth_skipn in B. replace (1 + (i - 1))%nat with i in B by lia. exact B.
Qed.
Lemma set_nan_ok f : wf_ls f -> nan_aff (aff_set_nan f).
Proof. intros (W & K & L). split; [split; [exact W|]; split; [exact K|]; unfold aff_set_nan, with_v, seq_clr; cbn [a_v]; rewrite repeat_length; exact L|]. intros i. unfold aff_set_nan, with_v, seq_clr. cbn [a_v]. apply nth_repeat. Qed.
Theorem div_ok f1 f2 : wf_aff f1 -> wf_aff f2 -> aff_is_cst f2 = true -> a_d f1 = a_d f2 ->
  exists g, aff_div false f1 f2 = Ok g /\
    ((exists v, avalue f2 v 0) -> nan_aff g) /\ 
    ((exists v r, avalue f2 v r /\ ~ r == 0)%Q -> wf_aff g /\ forall v r1 r2, avalue f1 v r1 -> avalue f2 v r2 -> avalue g v (r1 / r2)).
Proof.
  intros W1 W2 C D. unfold aff_div. rewrite !not_nan by assumption. rewrite C. cbn [negb].
  assert (P2 : 0 < nth 0%nat (a_v f2) 0%Z) by apply W2. pose proof (cst_value f2 W2 C) as CV. set (den := nth 0%nat (a_v f2) 0%Z) in *. set (n := nth 1%nat (a_v f2) 0%Z) in *.
  destruct (aff_plain_is_zero f2) eqn:Ez.
  { exists (aff_set_nan f1). split; [reflexivity|]. split; [intros _; apply set_nan_ok; apply W1|]. intros (v & r & A & N). exfalso. apply N. rewrite (CV v r A). rewrite plain_is_zero_ok in Ez by exact W2. replace n with 0 by (symmetry; apply Ez; lia). unfold Qdiv. apply Qmult_0_l. }
  assert (Nz : n <> 0). { intros E. assert (aff_plain_is_zero f2 = true); [|congruence]. rewrite plain_is_zero_ok by exact W2. intros i Hi. destruct i as [|[|i]]; [lia|exact E|]. rewrite is_cst_ok in C. apply C. lia. }
  assert (V0 : (exists v, avalue f2 v 0) -> False). { intros (v & A). specialize (CV v 0%Q A). apply Nz. apply inj_eq. transitivity (inject_Z n / inject_Z den * inject_Z den)%Q; [field; apply inj_nz; lia|]. rewrite <- CV. ring. }
  assert (G : forall den' n', 0 < n' -> den' * n = den * n' -> exists g, aff_scale_down (aff_scale f1 den') n' = Ok g /\ wf_aff g /\ forall v r1 r2, avalue f1 v r1 -> avalue f2 v r2 -> avalue g v (r1 / r2)).
  { intros den' n' Hn E. destruct (scale_ok f1 den' W1) as (Wa & Ha). destruct (scale_down_ok _ n' Wa Hn) as (g & Eg & Sg & Wg & Hg). exists g. split; [exact Eg|]. split; [exact Wg|].
    intros v r1 r2 A1 A2. apply (avalue_ext g v (r1 * inject_Z den' / inject_Z n')); [|apply Hg, Ha, A1]. rewrite (CV v r2 A2).
    assert (Eq : (inject_Z den' * inject_Z n == inject_Z den * inject_Z n')%Q) by (rewrite <- !inject_Z_mult; apply inj_eq; exact E).
    transitivity (r1 * (inject_Z den' * inject_Z n) / (inject_Z n * inject_Z n'))%Q; [field; split; apply inj_nz; lia|]. rewrite Eq. field. split; [|split]; apply inj_nz; lia. }
  destruct (Z.ltb_spec n 0).
  - destruct (G (- den) (- n) ltac:(lia) ltac:(ring)) as (g & Eg & Wg & Hg). exists g. split; [exact Eg|]. split; [intros V; exfalso; exact (V0 V)|]. intros _. split; assumption.
  - destruct (G den n ltac:(lia) ltac:(ring)) as (g & Eg & Wg & Hg). exists g. split; [exact Eg|]. split; [intros V; exfalso; exact (V0 V)|]. intros _. split; assumption.
Qed.
