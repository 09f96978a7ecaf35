(** The theorems about polynomials in the form stated in PropsPoly. *)
From Coq Require Import ZArith List Bool QArith Qabs Qminmax Arith Lia Lqa Setoid Morphisms.
From Verif Require Import SeqModel MatModel ValModel ValSpec BMapModel BMapLists LocalModel PolyModel PolySpec PolyBase PolyArith PolyOps PolyOps2 PolyOps3 PolyUniq PolyTerms PolyMore PolyHom.
Import ListNotations.
Open Scope Q_scope.

Lemma mul_int_ok v p b : (v <> 0)%Z -> ordered b p ->
  ordered b (poly_mul_int p v) /\ (forall x, pval x (poly_mul_int p v) == inject_Z v * pval x p) /\ (v = 1 \/ v = -1 -> reduced p -> reduced (poly_mul_int p v))%Z.
Proof.
  intros Hv O. split; [apply mul_int_ordered; assumption|]. split; [intros x; apply mul_int_val; eapply ordered_finite; exact O|].
  intros H R. apply mul_int_reduced; assumption.
Qed.
Lemma mul_int_not_reduced : ~ (forall v p b, (v <> 0)%Z -> canonical b p -> canonical b (poly_mul_int p v)).
Proof. intros H. destruct (H 2%Z (Cst 1 2) 0%nat) as (_ & R); [lia|split; [cbn; lia|reflexivity]|]. discriminate R. Qed.
Lemma mul_int_not_equal : ~ (forall v p q b, (v <> 0)%Z -> canonical b p -> canonical b q -> (forall x, pval x q == inject_Z v * pval x p) -> p_is_equal (poly_mul_int p v) q = true).
Proof.
  intros H. specialize (H 2%Z (Cst 1 2) (Cst 1 1) 0%nat). assert (X : p_is_equal (poly_mul_int (Cst 1 2) 2) (Cst 1 1) = true); [|discriminate X].
  apply H; [lia|split; [cbn; lia|reflexivity]|split; [cbn; lia|reflexivity]|]. intros x. reflexivity.
Qed.
Lemma poly_scale_ok v p b : (0 < vd v)%Z -> (vn v <> 0)%Z -> ordered b p ->
  (forall x, pval x (poly_scale p v) == (vn v # Z.to_pos (vd v)) * pval x p) /\ ordered b (poly_scale p v) /\ (reduced p -> reduced (poly_scale p v)).
Proof. intros Hd Hn O. destruct (scale_ok v Hd p b O) as (A & B & C). destruct (B Hn). auto. Qed.
Lemma mul_infty_differs : ~ (forall n1 d1 n2 d2, exists n d, poly_mul (Cst n1 d1) (Cst n2 d2) = Ok (Cst n d) /\ v_mul (v_rat_raw n1 d1) (v_rat_raw n2 d2) = v_rat_raw n d).
Proof. intros H. destruct (H 0%Z 1%Z 1%Z 0%Z) as (n & d & A & B). vm_compute in A. injection A as <- <-. vm_compute in B. discriminate B. Qed.
Lemma is_equal_values p q b : canonical b p -> canonical b q -> (p_is_equal p q = true <-> forall x, pval x p == pval x q).
Proof. intros P Q. rewrite is_equal_eq. split; [intros -> x; reflexivity|]. apply (canonical_unique p b q P Q). Qed.
Lemma is_zero_values p b : ordered b p -> (p_is_zero p = true <-> forall x, pval x p == 0).
Proof. intros O. split; [intros Z x; apply is_zero_val; exact Z|]. apply zero_everywhere with (b := b). exact O. Qed.
Lemma is_one_values p b : canonical b p -> (p_is_one p = true <-> forall x, pval x p == 1).
Proof.
  intros P. split; [intros Z x; apply is_one_val; exact Z|]. intros H. assert (E : p = p_one); [|subst; reflexivity].
  apply (canonical_unique p b p_one P); [split; [cbn; lia|reflexivity]|]. intros x. rewrite H. reflexivity.
Qed.
Lemma is_negone_values p b : canonical b p -> (p_is_negone p = true <-> forall x, pval x p == -1).
Proof.
  intros P. split.
  - destruct p as [n d|]; cbn [p_is_negone]; [|discriminate]. rewrite andb_true_iff, !Z.eqb_eq. intros [-> ->] x. reflexivity.
  - intros H. assert (E : p = Cst (-1) 1); [|subst; reflexivity].
    apply (canonical_unique p b (Cst (-1) 1) P); [split; [cbn; lia|reflexivity]|]. intros x. rewrite H. reflexivity.
Qed.
Lemma var_pow_canonical pos k b : (pos < b)%nat -> (1 <= k)%nat -> canonical b (var_pow pos k) /\ forall x, pval x (var_pow pos k) == pw (x pos) k.
Proof. intros H1 H2. destruct (var_pow_ok pos k b H1 H2) as (A & B & C & _). split; [split; assumption|exact B]. Qed.
Lemma poly_expand_ok exp first b p a : increasing exp -> (forall i, (i < length exp)%nat -> (nth i exp 0 + first < b)%nat) -> (first <= b)%nat ->
  ordered a p -> (a <= first + length exp)%nat ->
  exists m, expand p exp first = Ok m /\ ordered b m /\ (forall x, pval x m == pval (expanded x exp first) p) /\ (reduced p -> reduced m).
Proof. intros H1 H2 H3 H4 H5. destruct (expand_ok exp first b H1 H2 H3 p a H4 H5) as (m & A & B & _ & _ & C & D & _). exists m. auto. Qed.
Lemma from_affine_not_reduced : ~ (forall c f denom m, (0 < denom)%Z -> from_affine (c :: f) denom = Ok m -> reduced m).
Proof.
  intros H. specialize (H 0%Z [4%Z] 2%Z (Rec 0 [Cst 0 1; Cst 4 2]) ltac:(lia)). assert (X : reduced (Rec 0 [Cst 0 1; Cst 4 2])) by (apply H; vm_compute; reflexivity).
  apply reduced_rec in X. inversion X as [|? ? _ Y]; subst. inversion Y as [|? ? E _]; subst. discriminate E.
Qed.
Lemma affv_zero x : forall b i, affv x i (repeat 0%Z b) == 0.
Proof. induction b as [|b IH]; intros i; cbn [repeat affv]; [reflexivity|]. rewrite IH. change (inject_Z 0) with 0. ring. Qed.
Lemma nth_zeros b i : nth i (repeat 0%Z b) 0%Z = 0%Z.
Proof. revert i. induction b as [|b IH]; destruct i; cbn; auto. Qed.
Lemma extract_affine_ok p b : ordered b p -> poly_is_affine p = Ok true ->
  exists d c f, update_affine p (1%Z :: 0%Z :: repeat 0%Z b) = Ok (d :: c :: f) /\ length f = b /\ (0 < d)%Z /\ forall x, inject_Z d * pval x p == inject_Z c + affv x 0 f.
Proof.
  intros O A. destruct (update_affine_ok p b 1%Z 0%Z (repeat 0%Z b) O) as (d & c & f & E & L & D & V); try assumption; try reflexivity; try lia.
  - rewrite repeat_length. lia.
  - intros v _. apply nth_zeros.
  - exists d, c, f. rewrite repeat_length in L. split; [exact E|]. split; [exact L|]. split; [exact D|]. intros x. specialize (V x). rewrite affv_zero in V. change (inject_Z 1) with 1 in V.
    rewrite Qmult_1_l in V. rewrite V. ring.
Qed.
Lemma affv_qsum x : forall f i, affv x i f == qsum (fun k => inject_Z (nth k f 0%Z) * x (i + k)%nat) (length f).
Proof.
  induction f as [|c t IH]; intros i; [reflexivity|]. cbn [affv length]. rewrite qsum_S, IH. cbn [nth]. rewrite Nat.add_0_r. apply Qplus_inj_l.
  apply qsum_ext. intros k _. rewrite Nat.add_succ_r. reflexivity.
Qed.
Lemma is_affine_values p b : ordered b p -> (poly_is_affine p = Ok true <-> exists (c : Q) g, forall x, pval x p == c + qsum (fun i => g i * x i) b).
Proof.
  intros O. split.
  - intros A. destruct (extract_affine_ok p b O A) as (d & c & f & _ & L & D & V). exists (inject_Z c / inject_Z d), (fun i => inject_Z (nth i f 0%Z) / inject_Z d). intros x.
    assert (Nd : ~ inject_Z d == 0) by (unfold Qeq; cbn; lia).
    apply (Qmult_inj_l _ _ (inject_Z d) Nd). rewrite V, affv_qsum, L. rewrite Qmult_plus_distr_r, <- qsum_scale.
    rewrite (qsum_ext (fun i => inject_Z d * (inject_Z (nth i f 0%Z) / inject_Z d * x i)) (fun i => inject_Z (nth i f 0%Z) * x (0 + i)%nat)).
    + field. exact Nd.
    + intros i _. cbn [Nat.add]. field. exact Nd.
  - intros (c & g & H). exact (is_affine_complete b p c g O H).
Qed.
Lemma poly_eval_ok vec p b : (0 < nth 0 vec 1)%Z -> canonical b p -> (b < length vec)%nat ->
  exists c, poly_eval p vec = Ok c /\ means c (EFin (pval (at_vec vec) p)).
Proof. intros H [O R] L. exact (eval_ok vec H p b O R L). Qed.
Lemma coeff_free_values pos i p b x y : ordered b p -> (forall v, v <> pos -> x v == y v) -> pval x (poly_coeff p pos i) == pval y (poly_coeff p pos i).
Proof. exact (coeff_free pos i p b x y). Qed.
Lemma coeff_not_canonical : ~ (forall pos i p b, canonical b p -> canonical b (poly_coeff p pos i)).
Proof.
  intros H. destruct (H 0%nat 2%nat (Rec 1 [Cst 0 1; Cst 1 1]) 2%nat) as (O & _); [split; [cbn; lia|repeat split]|].
  cbn in O. destruct O as (_ & _ & E & _). discriminate E.
Qed.
Lemma den_ok p b d : ordered b p -> (0 < d)%Z ->
  (0 < update_den p d)%Z /\ (d | update_den p d)%Z /\ (forall x, (forall v, exists z, x v == inject_Z z) -> exists z, inject_Z (update_den p d) * pval x p == inject_Z z).
Proof. intros O D. destruct (update_den_ok p b d O D) as (A & B & C). split; [exact A|]. split; [exact B|]. intros x H. apply C; [exact H|apply Z.divide_refl]. Qed.
Lemma occurs_values : forall p x y, (forall v, occurs v p -> x v == y v) -> pval x p == pval y p.
Proof.
  induction p as [n d|v l IH] using poly_ind'; intros x y H; [reflexivity|]. rewrite !pval_rec. rewrite (horner_ext (x v) (y v)) by (apply H, occurs_rec; left; reflexivity).
  apply horner_vals_ext. rewrite Forall_forall in *. intros a Ha. apply IH; [exact Ha|]. intros u Hu. apply H, occurs_rec. right. apply Exists_exists. eauto.
Qed.
(** *** a polynomial that is not zero is not zero somewhere *)
Lemma horner_small : forall l k, ~ nth k l 0 == 0 -> exists e, 0 < e /\ forall z, 0 < z -> z < e -> ~ horner z l == 0.
Proof.
  induction l as [|a t IH]; intros k H; [destruct k; exfalso; apply H; reflexivity|]. destruct (Qeq_dec a 0) as [E|E].
  - destruct k as [|k]; [contradiction|]. destruct (IH k H) as (e & He & Hz). exists e. split; [exact He|]. intros z Z0 Z1 X. cbn [horner] in X. rewrite E, Qplus_0_l in X.
    apply Qmult_integral in X as [X|X]; [rewrite X in Z0; apply (Qlt_irrefl 0 Z0)|]. exact (Hz z Z0 Z1 X).
  - pose proof (asum_nonneg t) as N. assert (Pa : 0 < Qabs a). { pose proof (Qabs_nonneg a) as P. destruct (Qeq_dec (Qabs a) 0) as [E'|E']; [|lra]. exfalso. apply E. revert E'. apply (Qabs_case a (fun b => b == 0 -> a == 0)); intros; lra. }
    set (e := Qabs a / (asum t + 1)). assert (He : 0 < e). { unfold e. apply Qlt_shift_div_l; lra. }
    assert (Ee : e * (asum t + 1) == Qabs a) by (unfold e; field; lra).
    exists (Qmin 1 e). split; [apply Q.min_glb_lt; [reflexivity|exact He]|]. intros z Z0 Z1 X. apply Q.min_glb_lt_iff in Z1 as [Z1 Z2]. cbn [horner] in X.
    assert (B : Qabs (horner z t) <= asum t). { apply horner_bound. rewrite Qabs_pos by lra. lra. }
    assert (Y : Qabs a == z * Qabs (horner z t)). { assert (a == - (z * horner z t)) as -> by lra. rewrite Qabs_opp, Qabs_Qmult, (Qabs_pos z) by lra. reflexivity. }
    assert (z * Qabs (horner z t) <= z * asum t) by (apply Qmult_le_l; assumption).
    assert (z * (asum t + 1) < e * (asum t + 1)) by (apply Qmult_lt_r; lra). lra.
Qed.
Lemma horner_somewhere l k : ~ nth k l 0 == 0 -> exists z, 0 < z /\ ~ horner z l == 0.
Proof. intros H. destruct (horner_small l k H) as (e & He & Hz). exists (e / 2). assert (e / 2 == e * (1 # 2)) as E by field. split; [lra|]. apply Hz; lra. Qed.
Lemma nonzero_somewhere : forall p b, ordered b p -> p_is_zero p = false -> exists x, ~ pval x p == 0.
Proof.
  induction p as [n d|v l IH] using poly_ind'; intros b O Z.
  - exists (fun _ => 0). intros H. apply (cst_zero_val n d (fun _ => 0) O) in H. congruence.
  - apply ordered_rec in O as (Hv & Hn & Hl & F). rewrite last_nth in Hl. assert (I : List.In (nth (length l - 1) l p_zero) l) by (apply nth_In; lia).
    rewrite Forall_forall in IH, F. destruct (IH _ I v (F _ I) Hl) as (x & Hx). destruct (horner_somewhere (vals x l) (length l - 1)) as (z & _ & Hz).
    { rewrite vals_nth. exact Hx. }
    exists (upd x v z). rewrite pval_rec, upd_same, upd_vals by (apply Forall_forall; exact F). exact Hz.
Qed.
Lemma occurs_below : forall p b v, ordered b p -> occurs v p -> (v < b)%nat.
Proof.
  induction p as [n d|w l IH] using poly_ind'; intros b v O H; [destruct H|]. apply ordered_rec in O as (Hw & _ & _ & F). apply occurs_rec in H as [->|H]; [exact Hw|].
  apply Exists_exists in H as (a & Ha & Hv). rewrite Forall_forall in IH, F. pose proof (IH a Ha w v (F a Ha) Hv). lia.
Qed.
Lemma occurs_effect : forall p b v, ordered b p -> occurs v p -> exists x y, (forall u, u <> v -> x u = y u) /\ ~ pval x p == pval y p.
Proof.
  induction p as [n d|w l IH] using poly_ind'; intros b v O H; [destruct H|]. apply ordered_rec in O as (Hw & Hn & Hl & F). apply occurs_rec in H as [->|H].
  - destruct l as [|a t]; [cbn in Hn; lia|]. assert (Ht : t <> []) by (destruct t; [cbn in Hn; lia|discriminate]).
    assert (El : last (a :: t) p_zero = nth (length t - 1) t p_zero) by (rewrite <- last_nth; destruct t; [congruence|reflexivity]). rewrite El in Hl.
    assert (I : List.In (nth (length t - 1) t p_zero) t) by (apply nth_In; destruct t; [congruence|cbn; lia]).
    assert (Fo : Forall (ordered w) t) by (inversion F; assumption). destruct (nonzero_somewhere (nth (length t - 1) t p_zero) w) as (x & Hx); [rewrite Forall_forall in Fo; auto|exact Hl|].
    destruct (horner_somewhere (vals x t) (length t - 1)) as (z & Z0 & Hz); [rewrite vals_nth; exact Hx|].
    exists (upd x w z), (upd x w 0). split; [intros u Hu; unfold upd; destruct (Nat.eqb_spec u w); congruence|]. rewrite !pval_rec, !upd_same, !upd_vals by exact F.
    cbn [vals map horner]. fold (vals x t). intros E. assert (X : z * horner z (vals x t) == 0) by lra. apply Qmult_integral in X as [X|X]; [rewrite X in Z0; apply (Qlt_irrefl 0 Z0)|]. exact (Hz X).
  - apply Exists_exists in H as (a & Ha & Hv). rewrite Forall_forall in IH. assert (Oa : ordered w a) by (rewrite Forall_forall in F; auto). destruct (IH a Ha w v Oa Hv) as (x & y & Hxy & Hd).
    pose proof (occurs_below a w v Oa Hv). apply (In_nth _ _ p_zero) in Ha as (k & Hk & Ek).
    destruct (horner_somewhere (qdiff (vals x l) (vals y l)) k) as (z & _ & Hz).
    { rewrite qdiff_nth, !vals_nth, Ek. intros X. apply Hd. lra. }
    exists (upd x w z), (upd y w z). split; [intros u Hu; unfold upd; destruct (Nat.eqb_spec u w); auto|]. rewrite !pval_rec, !upd_same, !upd_vals by exact F.
    rewrite horner_qdiff in Hz. intros E. apply Hz. lra.
Qed.
Lemma poly_drop_ok first n p b : ordered b p -> (first + n <= b)%nat -> (forall u, (first <= u < first + n)%nat -> ~ occurs u p) ->
  exists m, poly_drop p first n = Ok m /\ ordered (b - n) m /\ (forall x, pval x m == pval (dropped x first n) p) /\ (reduced p -> reduced m).
Proof. intros O L H. destruct (drop_ok first n p b O) as (m & A & B & C & D). destruct (D H) as (_ & E). exists m. split; [exact A|]. split; [apply E; assumption|]. split; assumption. Qed.
Lemma zero_repeat b n : zero_below b (repeat 0%nat n).
Proof. intros i _. revert i. induction n as [|n IH]; destruct i; cbn; auto. Qed.
Lemma mono_zero x : forall n i, mono x i (repeat 0%nat n) == 1.
Proof. induction n as [|n IH]; intros i; cbn [repeat mono]; [reflexivity|]. rewrite IH. cbn [pw]. ring. Qed.
Lemma tdeg_zero first last : forall n i, tdeg first last i (repeat 0%nat n) = 0%nat.
Proof. induction n as [|n IH]; intros i; cbn [repeat tdeg]; [reflexivity|]. rewrite IH. destruct (_ && _); reflexivity. Qed.
Lemma poly_terms_ok p b n : ordered b p -> (b <= n)%nat ->
  exists ts, foreach_term p (repeat 0%nat n) = Ok (ts, repeat 0%nat n) /\ (forall x, tsum x ts == pval x p) /\ NoDup (map snd ts) /\
    forall t, List.In t ts -> length (snd t) = n /\ fst (fst t) <> 0%Z /\ (0 < snd (fst t))%Z /\ forall i, (b <= i)%nat -> nth i (snd t) 0%nat = 0%nat.
Proof.
  intros O L. exists (terms_of p (repeat 0%nat n)). assert (L' : (b <= length (repeat 0%nat n))%nat) by (rewrite repeat_length; exact L). pose proof (zero_repeat b n) as Z.
  split; [apply (foreach_ok p b); assumption|]. split; [intros x; rewrite (terms_val x p b) by assumption; rewrite mono_zero; ring|]. split; [apply (terms_nodup p b); assumption|].
  intros t Ht. destruct (terms_above p b _ t O L' Ht) as (A & B & C & D). rewrite repeat_length in A. split; [exact A|]. split; [exact C|]. split; [exact D|].
  intros i Hi. rewrite B by exact Hi. apply (zero_repeat (S i)). lia.
Qed.
Lemma from_term_ok n d pow b : (0 < d)%Z -> (length pow <= b)%nat ->
  exists m, from_term (n, d, pow) = Ok m /\ ordered b m /\ forall x, pval x m == tval x (n, d, pow).
Proof. intros D L. destruct (from_term_loop_ok b pow 0 (p_rat_cst n d)) as (m & A & B & C & _); [lia|exact D|]. exists m. split; [exact A|]. split; [exact B|]. intros x. rewrite C. reflexivity. Qed.
Lemma poly_degree_ok first last p b n : ordered b p -> (b <= n)%nat -> p_is_zero p = false ->
  exists ts, foreach_term p (repeat 0%nat n) = Ok (ts, repeat 0%nat n) /\
  (forall t, List.In t ts -> (Z.of_nat (tdeg first last 0 (snd t)) <= poly_degree p first last)%Z) /\
  (exists t, List.In t ts /\ Z.of_nat (tdeg first last 0 (snd t)) = poly_degree p first last).
Proof.
  intros O L Z. exists (terms_of p (repeat 0%nat n)). assert (L' : (b <= length (repeat 0%nat n))%nat) by (rewrite repeat_length; exact L). pose proof (zero_repeat b n) as Zb.
  split; [apply (foreach_ok p b); assumption|]. destruct (degree_ok first last p b _ O L' Zb Z) as (_ & A & t & B & C). rewrite tdeg_zero in *. cbn [Z.of_nat] in *. rewrite Z.add_0_r in *.
  split; [intros u Hu; specialize (A u Hu); lia|]. exists t. auto.
Qed.
Lemma degree_zero p first last : p_is_zero p = true -> poly_degree p first last = (-1)%Z.
Proof. destruct p; [|discriminate]. intros H. cbn [poly_degree]. rewrite H. reflexivity. Qed.
Lemma homogenize_ok first last p target : (first < last)%nat -> ordered last p -> ~ occurs first p -> (poly_degree p first last <= Z.of_nat target)%Z ->
  exists m, homogenize p 0 target first last = Ok m /\ ordered last m /\
    (forall x, x first == 1 -> pval x m == pval x p) /\ (forall x s, pval (scaled x s first last) m == pw s target * pval x m).
Proof.
  intros F O H D. destruct (hom_ok first last target F p last 0 O (le_n _) H) as (m & A & B & _ & C & E); [intros _; lia|]. exists m. split; [exact A|].
  split; [replace last with (Nat.max last (S first)) at 1 by lia; exact B|]. split; [exact C|]. intros x s. rewrite E, Nat.sub_0_r. reflexivity.
Qed.
Lemma homogenize_not : ~ (forall first last b p target, (first < last)%nat -> canonical b p -> ~ occurs first p -> (poly_degree p first last <= Z.of_nat target)%Z ->
  forall m, homogenize p 0 target first last = Ok m -> forall x s, pval (scaled x s first last) m == pw s target * pval x m).
Proof.
  intros H. specialize (H 0%nat 2%nat 3%nat (Rec 2 [Rec 1 [Cst 0 1; Cst 0 1; Cst 1 1]; Rec 1 [Cst 0 1; Cst 1 1]]) 2%nat ltac:(lia)).
  assert (X := H ltac:(split; [cbn; lia|repeat split]) ltac:(cbn; lia) ltac:(vm_compute; discriminate) _ eq_refl (fun _ => 1) 2). vm_compute in X. discriminate X.
Qed.
