(** Canonical polynomials with the same values are the same; comparing polynomials. *)
From Coq Require Import ZArith List Bool QArith Qabs Arith Lia Lqa Setoid Morphisms ZifyBool.
From Verif Require Import SeqModel MatModel ValModel BMapModel BMapLists LocalModel PolyModel PolySpec PolyBase PolyArith PolyOps PolyOps2.
Import ListNotations.
Open Scope Q_scope.

(** ** polynomials in one variable that are zero everywhere *)
Fixpoint asum (l : list Q) : Q := match l with [] => 0 | a :: t => Qabs a + asum t end.
Lemma asum_nonneg l : 0 <= asum l.
Proof. induction l as [|a t IH]; cbn; [lra|]. pose proof (Qabs_nonneg a). lra. Qed.
Lemma horner_bound z l : Qabs z <= 1 -> Qabs (horner z l) <= asum l.
Proof.
  intros Hz. induction l as [|a t IH]; cbn [horner asum]; [apply Qle_refl|].
  eapply Qle_trans; [apply Qabs_triangle|]. rewrite Qabs_Qmult. apply Qplus_le_compat; [apply Qle_refl|].
  apply Qle_trans with (1 * Qabs (horner z t)); [apply Qmult_le_compat_r; [exact Hz|apply Qabs_nonneg]|]. rewrite Qmult_1_l. exact IH.
Qed.
Lemma horner_all_zero : forall l, (forall z, ~ z == 0 -> horner z l == 0) -> Forall (fun a => a == 0) l.
Proof.
  induction l as [|a t IH]; intros H; [constructor|].
  assert (A0 : a == 0).
  { destruct (Qeq_dec a 0) as [E|N]; [exact E|exfalso].
    pose proof (asum_nonneg t) as Ms. set (M := asum t) in *.
    assert (Pa : 0 < Qabs a). { pose proof (Qabs_nonneg a) as P. destruct (Qeq_dec (Qabs a) 0) as [E|E]; [|lra]. exfalso. apply N. revert E. apply (Qabs_case a (fun b => b == 0 -> a == 0)); intros; lra. }
    set (z := Qabs a / (Qabs a + M + 1)). assert (D : 0 < Qabs a + M + 1) by lra.
    assert (Zp : 0 < z) by (unfold z; apply Qlt_shift_div_l; lra).
    assert (Z1 : z <= 1) by (unfold z; apply Qle_shift_div_r; lra).
    assert (Zm : z * (Qabs a + M + 1) == Qabs a) by (unfold z; field; lra).
    pose proof (H z ltac:(lra)) as E. cbn in E.
    assert (Ha : a == - (z * horner z t)) by lra.
    assert (B : Qabs a <= z * M).
    { rewrite Ha at 1. rewrite Qabs_opp, Qabs_Qmult, (Qabs_pos z) by lra. setoid_rewrite Qmult_comm. apply Qmult_le_compat_r; [|lra]. apply horner_bound. rewrite Qabs_pos; lra. }
    assert (K : 0 < z * (Qabs a + 1)) by (apply Qmult_lt_0_compat; lra). lra. }
  constructor; [exact A0|]. apply IH. intros z Hz. pose proof (H z Hz) as E. cbn in E. rewrite A0 in E.
  assert (E' : z * horner z t == 0) by lra. apply Qmult_integral in E' as [E'|E']; [congruence|exact E'].
Qed.
(** the difference of two lists of coefficients *)
Fixpoint qdiff (l m : list Q) : list Q :=
  match l, m with [], _ => map Qopp m | _, [] => l | a :: t, b :: u => (a - b) :: qdiff t u end.
Lemma horner_qdiff z : forall l m, horner z (qdiff l m) == horner z l - horner z m.
Proof.
  induction l as [|a t IH]; intros m.
  - cbn [qdiff horner]. induction m as [|b u IHm]; cbn; [ring|]. rewrite IHm. ring.
  - destruct m as [|b u]; cbn; [ring|]. rewrite IH. ring.
Qed.
Lemma qdiff_nth : forall l m i, nth i (qdiff l m) 0 == nth i l 0 - nth i m 0.
Proof.
  induction l as [|a t IH]; intros m i.
  - cbn [qdiff]. revert i. induction m as [|b u IHm]; intros i; destruct i; cbn; try ring. rewrite IHm. destruct i; cbn; ring.
  - destruct m as [|b u], i; cbn; try ring. rewrite IH. reflexivity.
Qed.
Lemma horner_eq l m : (forall z, horner z l == horner z m) -> forall i, nth i l 0 == nth i m 0.
Proof.
  intros H i. assert (F : Forall (fun a => a == 0) (qdiff l m)). { apply horner_all_zero. intros z _. rewrite horner_qdiff, H. ring. }
  pose proof (qdiff_nth l m i) as E. assert (Z : nth i (qdiff l m) 0 == 0).
  { destruct (Nat.lt_ge_cases i (length (qdiff l m))) as [L|L]; [rewrite Forall_forall in F; apply F; apply nth_In; exact L|rewrite nth_overflow by exact L; reflexivity]. }
  rewrite Z in E. lra.
Qed.

(** ** the variable of a polynomial occurs in its value *)
Definition upd (x : nat -> Q) (v : nat) (z : Q) : nat -> Q := fun u => if Nat.eqb u v then z else x u.
Lemma upd_same x v z : upd x v z v = z.
Proof. unfold upd. rewrite Nat.eqb_refl. reflexivity. Qed.
Lemma upd_vals x v z l : Forall (ordered v) l -> forall y, horner y (vals (upd x v z) l) == horner y (vals x l).
Proof.
  intros F y. apply horner_vals_ext. rewrite Forall_forall in *. intros a Ha. apply (pval_ext _ _ _ v); [auto|]. intros u Hu. unfold upd. destruct (Nat.eqb_spec u v); [lia|reflexivity].
Qed.
(** polynomials with the same values have the same coefficients *)
Definition coeffs (v : nat) (p : poly) : list poly := match p with Rec w l => if Nat.eqb w v then l else [p] | _ => [p] end.
Lemma coeffs_val v p b x z : ordered b p -> (pvar p <= Z.of_nat v)%Z -> pval (upd x v z) p == horner z (vals x (coeffs v p)).
Proof.
  intros O Hv. assert (S : ordered v p -> pval (upd x v z) p == horner z (vals x [p])).
  { intros O'. cbn [vals map horner]. rewrite (pval_ext _ x p v O'); [ring|]. intros u Hu. unfold upd. destruct (Nat.eqb_spec u v); [lia|reflexivity]. }
  destruct p as [n d|w l]; [apply S; exact O|]. cbn [coeffs pvar] in *. apply ordered_rec in O as (Hw & Hn & Hl & F). destruct (Nat.eqb_spec w v) as [->|N].
  - rewrite pval_rec, upd_same. apply upd_vals. exact F.
  - apply S. apply ordered_rec. split; [lia|auto].
Qed.
Lemma coeffs_ordered v p b : ordered b p -> (pvar p <= Z.of_nat v)%Z -> Forall (ordered v) (coeffs v p).
Proof.
  intros O Hv. destruct p as [n d|w l]; [repeat constructor; exact O|]. cbn [coeffs pvar] in *. apply ordered_rec in O as (Hw & Hn & Hl & F). destruct (Nat.eqb_spec w v) as [->|N]; [exact F|].
  constructor; [|constructor]. apply ordered_rec. split; [lia|auto].
Qed.
Lemma vals_nth x l i : nth i (vals x l) 0 == pval x (nth i l p_zero).
Proof. unfold vals. transitivity (nth i (map (pval x) l) (pval x p_zero)); [|rewrite map_nth; reflexivity]. revert i. induction l as [|a t IH]; intros [|i]; cbn; try reflexivity; apply IH. Qed.
Lemma same_coeffs v p q b : ordered b p -> ordered b q -> (pvar p <= Z.of_nat v)%Z -> (pvar q <= Z.of_nat v)%Z -> (forall x, pval x p == pval x q) ->
  forall i x, pval x (nth i (coeffs v p) p_zero) == pval x (nth i (coeffs v q) p_zero).
Proof.
  intros Op Oq Hp Hq H i x. rewrite <- !vals_nth. apply horner_eq. intros z. rewrite <- (coeffs_val v p b x z Op Hp), <- (coeffs_val v q b x z Oq Hq). apply H.
Qed.
Lemma zero_everywhere : forall p b, ordered b p -> (forall x, pval x p == 0) -> p_is_zero p = true.
Proof.
  induction p as [n d|v l IH] using poly_ind'; intros b O H.
  - apply (cst_zero_val n d (fun _ => 0)); [exact O|apply H].
  - pose proof O as O'. apply ordered_rec in O as (Hv & Hn & Hl & F). exfalso.
    assert (Hin : List.In (last l p_zero) l). { rewrite last_nth. apply nth_In. lia. }
    rewrite Forall_forall in IH, F. rewrite (IH _ Hin v (F _ Hin)) in Hl; [discriminate|]. intros x.
    pose proof (same_coeffs v (Rec v l) p_zero b O' ltac:(cbn; lia) ltac:(cbn; lia) ltac:(cbn; lia)) as S. cbn [coeffs] in S. rewrite Nat.eqb_refl in S. rewrite last_nth, S.
    + cbn [p_zero]. destruct (length l - 1)%nat as [|k] eqn:K; [lia|]. cbn. destruct k; reflexivity.
    + intros y. rewrite H. reflexivity.
Qed.
Lemma cst_unique n d n' d' : (0 < d)%Z -> (0 < d')%Z -> Z.gcd n d = 1%Z -> Z.gcd n' d' = 1%Z -> (n * d' = n' * d)%Z -> n = n' /\ d = d'.
Proof.
  intros H1 H2 G1 G2 E.
  assert (D1 : (d | d')%Z). { apply (Z.gauss d n d'); [rewrite E; exists n'; ring|rewrite Z.gcd_comm; exact G1]. }
  assert (D2 : (d' | d)%Z). { apply (Z.gauss d' n' d); [rewrite <- E; exists n; ring|rewrite Z.gcd_comm; exact G2]. }
  assert (d = d') by (apply Z.divide_antisym_nonneg; lia || assumption). subst d'. split; [nia|reflexivity].
Qed.
Lemma canonical_unique : forall p b q, canonical b p -> canonical b q -> (forall x, pval x p == pval x q) -> p = q.
Proof.
  induction p as [n d|v l IH] using poly_ind'; intros b q [Op Rp] [Oq Rq] H.
  - destruct q as [n' d'|w m].
    + cbn in Op, Rp, Oq, Rq. specialize (H (fun _ => 0)). rewrite !cst_val in H. unfold Qeq in H. cbn in H. rewrite !Z2Pos.id in H by lia.
      destruct (cst_unique n d n' d') as [-> ->]; auto.
    + exfalso. pose proof Oq as Oq'. apply ordered_rec in Oq' as (Hw & Hn & Hl & F). rewrite last_nth in Hl.
      pose proof (same_coeffs w (Cst n d) (Rec w m) b Op Oq ltac:(cbn; lia) ltac:(cbn; lia) H (length m - 1)) as S. cbn [coeffs] in S. rewrite Nat.eqb_refl in S.
      rewrite (zero_everywhere (nth (length m - 1) m p_zero) w) in Hl; [discriminate|rewrite Forall_forall in F; apply F, nth_In; lia|].
      intros x. rewrite <- S. destruct (length m - 1)%nat as [|k] eqn:K; [lia|]. destruct k; reflexivity.
  - pose proof Op as Op'. apply ordered_rec in Op' as (Hv & Hn & Hl & F). rewrite last_nth in Hl.
    assert (Hlast : forall r, ordered b r -> (pvar r <= Z.of_nat v)%Z -> (forall x, pval x (Rec v l) == pval x r) -> (length (coeffs v r) <= length l - 1)%nat -> False).
    { intros r Or Hr E L. pose proof (same_coeffs v (Rec v l) r b Op Or ltac:(cbn; lia) Hr E (length l - 1)) as S. cbn [coeffs] in S. rewrite Nat.eqb_refl in S.
      rewrite (zero_everywhere (nth (length l - 1) l p_zero) v) in Hl; [discriminate|rewrite Forall_forall in F; apply F, nth_In; lia|]. intros x. rewrite S, nth_overflow by exact L. reflexivity. }
    destruct q as [n' d'|w m]; [exfalso; apply (Hlast (Cst n' d')); auto; cbn; lia|].
    pose proof Oq as Oq'. apply ordered_rec in Oq' as (Hw & Hn' & Hl' & F').
    destruct (Nat.lt_trichotomy v w) as [L|[->|L]].
    + exfalso. rewrite last_nth in Hl'. pose proof (same_coeffs w (Rec v l) (Rec w m) b Op Oq ltac:(cbn; lia) ltac:(cbn; lia) H (length m - 1)) as S. cbn [coeffs] in S. rewrite Nat.eqb_refl in S.
      destruct (Nat.eqb_spec v w); [lia|]. rewrite (zero_everywhere (nth (length m - 1) m p_zero) w) in Hl'; [discriminate|rewrite Forall_forall in F'; apply F', nth_In; lia|].
      intros x. rewrite <- S. destruct (length m - 1)%nat as [|k] eqn:K; [lia|]. destruct k; reflexivity.
    + pose proof (same_coeffs w (Rec w l) (Rec w m) b Op Oq ltac:(cbn; lia) ltac:(cbn; lia) H) as S. cbn [coeffs] in S. rewrite Nat.eqb_refl in S.
      assert (Ln : length l = length m).
      { destruct (Nat.lt_trichotomy (length l) (length m)) as [L|[L|L]]; [exfalso|exact L|exfalso].
        - rewrite last_nth in Hl'. rewrite (zero_everywhere (nth (length m - 1) m p_zero) w) in Hl'; [discriminate|rewrite Forall_forall in F'; apply F', nth_In; lia|].
          intros x. rewrite <- S, nth_overflow by lia. reflexivity.
        - apply (Hlast (Rec w m)); auto; [cbn; lia|]. cbn [coeffs]. rewrite Nat.eqb_refl. lia. }
      f_equal. apply (nth_ext _ _ p_zero p_zero Ln). intros i Hi. rewrite reduced_rec in Rp, Rq. rewrite Forall_forall in *.
      assert (I1 : List.In (nth i l p_zero) l) by (apply nth_In; exact Hi). assert (I2 : List.In (nth i m p_zero) m) by (apply nth_In; lia).
      apply (IH _ I1 w); [split; auto|split; auto|]. intros x. apply S.
    + exfalso. apply (Hlast (Rec w m)); auto; [cbn; lia|]. cbn [coeffs]. destruct (Nat.eqb_spec w v); [lia|]. cbn. lia.
Qed.

(** ** comparing *)
Lemma is_equal_eq : forall p q, p_is_equal p q = true <-> p = q.
Proof.
  induction p as [n d|v l IH] using poly_ind'; intros q.
  - destruct q as [n' d'|w m]; cbn.
    + rewrite andb_true_iff, !Z.eqb_eq. split; [intros [-> ->]; reflexivity|]. intros E; injection E; auto.
    + split; [|discriminate]. destruct (negb _); discriminate.
  - destruct q as [n' d'|w m].
    + cbn. split; [|discriminate]. destruct (negb _); discriminate.
    + cbn [p_is_equal pvar]. destruct (Z.eqb_spec (Z.of_nat v) (Z.of_nat w)) as [E|E]; cbn [negb]; [|split; [discriminate|]; intros Q; injection Q as -> _; lia].
      assert (v = w) by lia. subst w. clear E. destruct (Nat.eqb_spec (length l) (length m)) as [L|L]; cbn [negb]; [|split; [discriminate|]; intros Q; injection Q as ->; lia].
      assert (X : (fix go l l' := match l, l' with a :: t, b :: t' => if p_is_equal a b then go t t' else false | _, _ => true end) l m = true <-> l = m).
      { revert m L. induction l as [|a t IHl]; intros [|b u] L; try (cbn in L; lia); [split; auto|]. inversion IH; subst. destruct (p_is_equal a b) eqn:E.
        - rewrite IHl by (auto; cbn in L; lia). apply H1 in E. subst b. split; [intros ->; reflexivity|]. intros Q; injection Q; auto.
        - split; [discriminate|]. intros Q. injection Q as <- <-. assert (p_is_equal a a = true) by (apply H1; reflexivity). congruence. }
      rewrite X. split; [intros ->; reflexivity|]. intros Q; injection Q; auto.
Qed.
