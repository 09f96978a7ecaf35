(** Evaluation, coefficients, terms, denominators of polynomials. *)
From Coq Require Import ZArith List Bool QArith Arith Lia Setoid Morphisms ZifyBool.
From Verif Require Import SeqModel MatModel ValModel ValSpec ValProofs BMapModel BMapLists LocalModel PolyModel PolySpec PolyBase PolyArith PolyOps PolyOps2.
Import ListNotations.
Open Scope Q_scope.

(** ** evaluation *)
Lemma means_ext v p q : p == q -> means v (EFin p) -> means v (EFin q).
Proof.
  cbn [means]. intros E (A & B & C). split; [exact A|]. split; [exact B|]. unfold Qeq in E.
  apply (Z.mul_cancel_r _ _ (Z.pos (Qden p))); [lia|]. transitivity ((vn v * Z.pos (Qden p)) * Z.pos (Qden q))%Z; [ring|]. rewrite C.
  transitivity ((Qnum p * Z.pos (Qden q)) * vd v)%Z; [ring|]. rewrite E. ring.
Qed.
Lemma mul_base s q n d : means s (EFin q) -> (0 < d)%Z ->
  means (v_mul s (v_rat_raw n d)) (EFin (q * (n # Z.to_pos d))) \/ (v_is_zero (v_mul s (v_rat_raw n d)) = true /\ q * (n # Z.to_pos d) == 0).
Proof.
  intros M Hd. pose proof M as M'. cbn [means] in M'. destruct M' as (A & B & C).
  unfold v_mul. assert (N1 : v_is_nan s = false) by (unfold v_is_nan; destruct (Z.eqb_spec (vd s) 0); [lia|]; apply andb_false_r). rewrite N1.
  assert (N2 : v_is_nan (v_rat_raw n d) = false) by (unfold v_is_nan; cbn [vn vd v_rat_raw]; destruct (Z.eqb_spec d 0); [lia|]; apply andb_false_r). rewrite N2.
  assert (R1 : v_is_rat s = true) by (unfold v_is_rat; destruct (Z.eqb_spec (vd s) 0); [lia|reflexivity]).
  assert (R2 : v_is_rat (v_rat_raw n d) = true) by (unfold v_is_rat; cbn [vd v_rat_raw]; destruct (Z.eqb_spec d 0); [lia|reflexivity]). rewrite R1, R2. cbn [negb andb orb]. rewrite andb_false_r.
  destruct (v_is_zero s) eqn:Z1.
  { left. revert M. apply means_ext. assert (Q0 : q == 0). { unfold v_is_zero in Z1. apply andb_true_iff in Z1 as [Z1 _]. apply Z.eqb_eq in Z1. unfold Qeq. cbn. nia. } rewrite Q0. ring. }
  destruct (v_is_zero (v_rat_raw n d)) eqn:Z2.
  { right. split; [exact Z2|]. unfold v_is_zero in Z2. cbn [vn v_rat_raw] in Z2. apply andb_true_iff in Z2 as [Z2 _]. apply Z.eqb_eq in Z2. subst n. unfold Qeq. cbn. lia. }
  assert (I1 : v_is_infty s = false /\ v_is_neginfty s = false) by (unfold v_is_infty, v_is_neginfty; destruct (Z.eqb_spec (vd s) 0); [lia|]; now rewrite !andb_false_r).
  assert (I2 : v_is_infty (v_rat_raw n d) = false /\ v_is_neginfty (v_rat_raw n d) = false) by (unfold v_is_infty, v_is_neginfty; cbn [vd v_rat_raw]; destruct (Z.eqb_spec d 0); [lia|]; now rewrite !andb_false_r).
  destruct I1 as [-> ->], I2 as [-> ->]. cbn [orb]. left.
  assert (E : (vn s * n * Z.pos (Qden (q * (n # Z.to_pos d))) = Qnum (q * (n # Z.to_pos d)) * (vd s * d))%Z).
  { cbn [Qmult Qden Qnum]. rewrite Pos2Z.inj_mul, Z2Pos.id by lia. transitivity ((vn s * Z.pos (Qden q)) * (n * d))%Z; [ring|]. rewrite C. ring. }
  destruct (v_is_int s && v_is_int (v_rat_raw n d)) eqn:I.
  - apply andb_true_iff in I as [I1 I2]. unfold v_is_int in *. cbn [vd v_rat_raw] in I2. apply Z.eqb_eq in I1, I2. subst d. cbn [means vn vd v_rat_raw]. rewrite I1 in *.
    split; [lia|]. split; [apply Z.gcd_1_r|]. rewrite Z.mul_1_r in *. exact E.
  - apply normalize_means; [cbn [vd v_rat_raw]; nia|]. exact E.
Qed.
Lemma add_zero s c q : v_is_zero s = true -> means c (EFin q) -> v_add s c = c.
Proof.
  intros Z M. cbn [means] in M. destruct M as (A & B & C). unfold v_is_zero in Z. apply andb_true_iff in Z as [Z1 Z2]. unfold v_add.
  assert (D : (vd s =? 0)%Z = false) by (destruct (vd s =? 0)%Z; [discriminate|reflexivity]).
  unfold v_is_nan, v_is_infty, v_is_neginfty, v_is_zero. rewrite D, Z1. destruct (Z.eqb_spec (vd c) 0); [lia|]. rewrite !andb_false_r. reflexivity.
Qed.
Lemma eval_ok vec : (0 < nth 0 vec 1)%Z -> forall p b, ordered b p -> reduced p -> (b < length vec)%nat ->
  exists c, poly_eval p vec = Ok c /\ means c (EFin (pval (at_vec vec) p)).
Proof.
  intros Hd. induction p as [n d|v l IH] using poly_ind'; intros b O R Hb.
  - exists (v_rat_raw n d). split; [reflexivity|]. cbn in O, R. cbn [means v_rat_raw vn vd pval Qnum Qden]. split; [exact O|]. split; [exact R|]. rewrite Z2Pos.id by lia. reflexivity.
  - apply ordered_rec in O as (Hv & Hn & Hl & F). apply reduced_rec in R. cbn [poly_eval]. destruct (nth_error vec (1 + v)) as [z|] eqn:E; [|apply nth_error_None in E; lia].
    assert (Hn' : (1 <= length l)%nat) by lia. clear Hn Hl. set (den := nth 0 vec 0%Z). assert (Ed : nth 0 vec 1%Z = den) by (unfold den; destruct vec; [cbn in Hb; lia|reflexivity]). rewrite Ed in Hd.
    assert (Ev : at_vec vec v == z # Z.to_pos den) by (unfold at_vec; erewrite nth_error_nth by exact E; rewrite Ed; reflexivity).
    assert (X : exists c, (fix go l := match l with [] => Null | [a] => poly_eval a vec
       | a :: t => LocalModel.bind (go t) (fun s => LocalModel.bind (poly_eval a vec) (fun b => Ok (v_add (v_mul s (v_rat_raw z den)) b))) end) l = Ok c /\ means c (EFin (horner (z # Z.to_pos den) (vals (at_vec vec) l)))).
    { induction l as [|a t IHl]; [cbn in Hn'; lia|]. inversion IH; inversion F; inversion R; subst. destruct (H1 v H5 H9) as (ca & Aa & Ma); [lia|]. destruct t as [|a' t'].
      - exists ca. split; [exact Aa|]. revert Ma. apply means_ext. cbn [vals map horner]. ring.
      - destruct IHl as (s & As & Ms); [assumption|assumption|assumption|cbn; lia|]. rewrite As. cbn [LocalModel.bind]. rewrite Aa. cbn [LocalModel.bind]. eexists. split; [reflexivity|].
        change (vals (at_vec vec) (a :: a' :: t')) with (pval (at_vec vec) a :: vals (at_vec vec) (a' :: t')). set (h := vals (at_vec vec) (a' :: t')) in *. cbn [horner].
        destruct (mul_base s _ z den Ms Hd) as [M|[M M0]].
        + pose proof (eadd_means _ _ _ _ M Ma) as M'. cbn [eadd] in M'. revert M'. apply means_ext. ring.
        + rewrite (add_zero _ _ _ M Ma). revert Ma. apply means_ext. rewrite (Qmult_comm (z # Z.to_pos den)), M0. ring. }
    destruct X as (c & A & M). exists c. split; [exact A|]. revert M. apply means_ext. rewrite pval_rec. apply horner_ext. symmetry. exact Ev.
Qed.

(** ** coefficients *)
Lemma horner_cut z l k : (length l <= k)%nat -> horner z (l ++ repeat 0 (k - length l)) == horner z l.
Proof. intros. rewrite horner_app, horner_zeros. ring. Qed.
(** the degree in [pos] is less than [k] *)
Lemma degree_lt_rec k pos v l : degree_lt k pos (Rec v l) <-> (0 < k)%nat /\ (v = pos -> (length l <= k)%nat) /\ Forall (degree_lt k pos) l.
Proof.
  cbn [degree_lt]. assert (X : forall l, (fix go l := match l with [] => True | a :: t => degree_lt k pos a /\ go t end) l <-> Forall (degree_lt k pos) l).
  { clear. induction l as [|a t IH]; cbn; [split; auto|]. rewrite IH. split; [intros []; constructor; auto|]. inversion 1; auto. }
  rewrite X. tauto.
Qed.
Lemma qsum_ext f g n : (forall i, (i < n)%nat -> f i == g i) -> qsum f n == qsum g n.
Proof. intros H. induction n; cbn; [reflexivity|]. rewrite IHn, H by (intros; auto; apply H; lia). reflexivity. Qed.
Lemma qsum_scale c f n : qsum (fun i => c * f i) n == c * qsum f n.
Proof. induction n; cbn; [ring|]. rewrite IHn. ring. Qed.
Lemma qsum_add f g n : qsum (fun i => f i + g i) n == qsum f n + qsum g n.
Proof. induction n; cbn; [ring|]. rewrite IHn. ring. Qed.
Lemma qsum_zero f n : (forall i, (i < n)%nat -> f i == 0) -> qsum f n == 0.
Proof. intros H. induction n; cbn; [reflexivity|]. rewrite IHn, H by (intros; auto; apply H; lia). ring. Qed.
Lemma qsum_S f n : qsum f (S n) == f O + qsum (fun i => f (S i)) n.
Proof. induction n; [cbn; ring|]. change (qsum f (S (S n))) with (qsum f (S n) + f (S n)). rewrite IHn. cbn. ring. Qed.
Lemma horner_qsum z l : forall k, (length l <= k)%nat -> horner z l == qsum (fun i => nth i l 0 * pw z i) k.
Proof.
  induction l as [|a t IH]; intros k Hk.
  - cbn. symmetry. apply qsum_zero. intros i _. destruct i; cbn; ring.
  - destruct k as [|k]; [cbn in Hk; lia|]. rewrite qsum_S. cbn [nth horner pw]. rewrite (IH k) by (cbn in Hk; lia).
    rewrite (qsum_ext (fun i => nth i t 0 * (z * pw z i)) (fun i => z * (nth i t 0 * pw z i))) by (intros; ring). rewrite qsum_scale. ring.
Qed.
Lemma horner_sum z k : forall (l : list (nat -> Q)), horner z (map (fun f => qsum f k) l) == qsum (fun i => horner z (map (fun f => f i) l)) k.
Proof.
  induction l as [|f t IH]; cbn [map horner]; [symmetry; apply qsum_zero; reflexivity|]. rewrite IH. rewrite <- qsum_scale, <- qsum_add. apply qsum_ext. reflexivity.
Qed.
Lemma zero_at_0 n : (0 < n)%nat -> forall f, (forall i, (0 < i)%nat -> f i == 0) -> qsum f n == f 0%nat.
Proof. intros Hn f Hf. destruct n; [lia|]. rewrite qsum_S. rewrite (qsum_zero (fun i => f (S i))) by (intros; apply Hf; lia). ring. Qed.
Lemma coeff_sum k pos : forall p b x, ordered b p -> degree_lt k pos p -> pval x p == qsum (fun i => pval x (poly_coeff p pos i) * pw (x pos) i) k.
Proof.
  assert (A : forall p x, (0 < k)%nat -> pval x p == qsum (fun i => pval x (if Nat.eqb i 0 then p else p_zero) * pw (x pos) i) k).
  { intros p x Hk. rewrite zero_at_0; [cbn; ring|exact Hk|]. intros i Hi. destruct i; [lia|]. cbn. ring. }
  induction p as [n d|v l IH] using poly_ind'; intros b x O D.
  - cbn [poly_coeff]. apply A. exact D.
  - apply ordered_rec in O as (Hv & Hn & Hl & F). apply degree_lt_rec in D as (Hk & Dl & Df). cbn [poly_coeff]. destruct (Nat.ltb_spec v pos); [apply A; exact Hk|].
    destruct (Nat.eqb_spec v pos) as [->|Ne].
    + rewrite pval_rec, (horner_qsum _ _ k) by (rewrite vals_length; auto). apply qsum_ext. intros i _. destruct (Nat.ltb_spec i (length l)) as [L|L].
      * unfold vals. rewrite (nth_indep _ 0 (pval x p_zero)) by (rewrite map_length; exact L). rewrite map_nth. reflexivity.
      * unfold vals. rewrite nth_overflow by (rewrite map_length; exact L). reflexivity.
    + rewrite pval_rec. transitivity (horner (x v) (map (fun f => qsum f k) (map (fun a => fun i => pval x (poly_coeff a pos i) * pw (x pos) i) l))).
      * apply horner_peq. clear Hn Hl Dl. induction l as [|a t IHl]; [constructor|]. inversion IH; inversion F; inversion Df; subst. cbn [vals map]. constructor; [eauto|apply IHl; assumption].
      * rewrite horner_sum. apply qsum_ext. intros i _. rewrite pval_rec. unfold vals. rewrite !map_map. generalize (x v). intros z. clear. induction l as [|a t IHl]; cbn [map horner]; [ring|]. rewrite IHl. ring.
Qed.
Lemma coeff_free pos i : forall p b x y, ordered b p -> (forall v, v <> pos -> x v == y v) -> pval x (poly_coeff p pos i) == pval y (poly_coeff p pos i).
Proof.
  induction p as [n d|v l IH] using poly_ind'; intros b x y O H.
  - cbn [poly_coeff]. destruct (Nat.eqb _ _); reflexivity.
  - pose proof O as O'. apply ordered_rec in O as (Hv & Hn & Hl & F). cbn [poly_coeff]. destruct (Nat.ltb_spec v pos) as [L|L].
    { destruct (Nat.eqb i 0); [|reflexivity]. apply (pval_ext _ _ _ (S v)); [apply ordered_rec; auto|]. intros u Hu. apply H. lia. }
    destruct (Nat.eqb_spec v pos) as [->|Ne].
    + destruct (Nat.ltb_spec i (length l)) as [M|M]; [|reflexivity]. rewrite Forall_forall in F. apply (pval_ext _ _ _ pos); [apply F; apply nth_In; exact M|]. intros u Hu. apply H. lia.
    + rewrite !pval_rec. rewrite (horner_ext _ (y v)) by (apply H; exact Ne). apply horner_peq. unfold vals. rewrite !map_map. clear Hn Hl O'. induction l as [|a t IHl]; [constructor|]. inversion IH; inversion F; subst. cbn [map]. constructor; [eauto|apply IHl; assumption].
Qed.

(** ** denominators *)
Lemma lcm_pos a b : (0 < a)%Z -> (0 < b)%Z -> (0 < Z.lcm a b)%Z.
Proof. intros. pose proof (Z.lcm_nonneg a b). assert (Z.lcm a b <> 0)%Z by (rewrite Z.lcm_eq_0; lia). lia. Qed.
Lemma update_den_ok : forall p b d, ordered b p -> (0 < d)%Z ->
  (0 < update_den p d)%Z /\ (d | update_den p d)%Z /\ (forall x e, (forall v, exists z, x v == inject_Z z) -> (update_den p d | e)%Z -> exists z, inject_Z e * pval x p == inject_Z z).
Proof.
  induction p as [n d|v l IH] using poly_ind'; intros b d0 O Hd.
  - cbn [update_den]. cbn in O. split; [apply lcm_pos; assumption|]. split; [apply Z.divide_lcm_l|]. intros x e _ [k Hk].
    destruct (Z.divide_lcm_r d0 d) as [j Hj]. exists (k * j * n)%Z. rewrite Hk, Hj, !inject_Z_mult. rewrite <- (cst_times n d x O). ring.
  - apply ordered_rec in O as (Hv & _ & _ & F). cbn [update_den].
    assert (X : forall x, (forall v, exists z, x v == inject_Z z) -> forall t d0, (0 < d0)%Z -> Forall (ordered v) t -> Forall (fun p => forall b d, ordered b p -> (0 < d)%Z -> (0 < update_den p d)%Z /\ (d | update_den p d)%Z /\
        (forall x e, (forall v, exists z, x v == inject_Z z) -> (update_den p d | e)%Z -> exists z, inject_Z e * pval x p == inject_Z z)) t ->
      (0 < fold_left (fun d a => update_den a d) t d0)%Z /\ (d0 | fold_left (fun d a => update_den a d) t d0)%Z /\
      (forall e y, (exists z, y == inject_Z z) -> (fold_left (fun d a => update_den a d) t d0 | e)%Z -> exists z, inject_Z e * horner y (vals x t) == inject_Z z)).
    { intros x Hx. induction t as [|a t IHt]; intros d1 Hd1 Ft It.
      - cbn. split; [exact Hd1|]. split; [apply Z.divide_refl|]. intros e y _ _. exists 0%Z. change (inject_Z e * 0 == 0). ring.
      - inversion Ft; inversion It; subst. cbn [fold_left]. destruct (H5 v d1 H1 Hd1) as (A & B & C). destruct (IHt (update_den a d1) A H2 H6) as (A' & B' & C').
        split; [exact A'|]. split; [exact (Z.divide_trans _ _ _ B B')|]. intros e y [zy Hy] He. destruct (C x e Hx) as [z1 E1]; [exact (Z.divide_trans _ _ _ B' He)|].
        destruct (C' e y) as [z2 E2]; [exists zy; exact Hy|exact He|]. exists (z1 + zy * z2)%Z. cbn [vals map horner]. rewrite inject_Z_plus, inject_Z_mult, <- E1, <- E2, <- Hy. unfold vals. ring. }
    split; [apply (X (fun _ => 0)); auto; intros _; exists 0%Z; reflexivity|]. split; [apply (X (fun _ => 0)); auto; intros _; exists 0%Z; reflexivity|].
    intros x e Hx He. destruct (X x Hx l d0 Hd F IH) as (_ & _ & C). rewrite pval_rec. apply C; [apply Hx|exact He].
Qed.

(** ** variables that occur *)
Lemma occurs_rec u v l : occurs u (Rec v l) <-> u = v \/ Exists (occurs u) l.
Proof.
  cbn [occurs]. assert (X : forall l, (fix go l := match l with [] => False | a :: t => occurs u a \/ go t end) l <-> Exists (occurs u) l).
  { clear. induction l as [|a t IH]; cbn; [split; [tauto|inversion 1]|]. rewrite IH, Exists_cons. tauto. } rewrite X. tauto.
Qed.
Lemma occurs_free u : forall p x y, ~ occurs u p -> (forall v, v <> u -> x v == y v) -> pval x p == pval y p.
Proof.
  induction p as [n d|v l IH] using poly_ind'; intros x y N H; [reflexivity|]. rewrite occurs_rec in N. rewrite !pval_rec, (horner_ext _ (y v)) by (apply H; intros ->; tauto).
  apply horner_vals_ext. rewrite Forall_forall in *. intros a Ha. apply IH; [exact Ha| |exact H]. intros Q. apply N. right. apply Exists_exists. eauto.
Qed.
Lemma active_ok d : forall p act, (d <= length act)%nat ->
  length (poly_set_active p d act) = length act /\ forall u, nth u (poly_set_active p d act) false = true <-> nth u act false = true \/ ((u < d)%nat /\ occurs u p).
Proof.
  induction p as [n e|v l IH] using poly_ind'; intros act Hd.
  - cbn [poly_set_active occurs]. split; [reflexivity|]. tauto.
  - cbn [poly_set_active]. set (act' := if Nat.ltb v d then lset act v true else act).
    assert (A : length act' = length act /\ forall u, nth u act' false = true <-> nth u act false = true \/ ((u < d)%nat /\ u = v)).
    { unfold act'. destruct (Nat.ltb_spec v d) as [L|L].
      - destruct (nth_error_mid act v) as (p1 & a & p2 & E & Le & _); [lia|]. rewrite E, <- Le, lset_mid. split; [rewrite !app_length; reflexivity|]. intros u.
        destruct (Nat.lt_ge_cases u (length p1)) as [C|C]; [rewrite !app_nth1 by lia; intuition lia|]. rewrite !app_nth2 by lia. destruct (u - length p1)%nat eqn:K; cbn [nth].
        + assert (u = length p1) by lia. intuition lia.
        + assert (u <> length p1) by lia. intuition lia.
      - split; [reflexivity|]. intuition lia. }
    destruct A as [La Na].
    assert (X : forall t a0, length a0 = length act -> Forall (fun p => forall act, (d <= length act)%nat -> length (poly_set_active p d act) = length act /\ forall u, nth u (poly_set_active p d act) false = true <-> nth u act false = true \/ ((u < d)%nat /\ occurs u p)) t ->
      length (fold_left (fun s a => poly_set_active a d s) t a0) = length act /\ forall u, nth u (fold_left (fun s a => poly_set_active a d s) t a0) false = true <-> nth u a0 false = true \/ ((u < d)%nat /\ Exists (occurs u) t)).
    { induction t as [|a t IHt]; intros a0 L0 Ft; [cbn; split; [exact L0|]; intros u; rewrite Exists_nil; tauto|]. inversion Ft; subst. cbn [fold_left].
      destruct (H1 a0) as [L1 N1]; [lia|]. destruct (IHt (poly_set_active a d a0)) as [L2 N2]; [lia|assumption|]. split; [exact L2|]. intros u. rewrite N2, N1, Exists_cons. tauto. }
    destruct (X l act' La IH) as [L2 N2]. split; [exact L2|]. intros u. rewrite N2, Na, occurs_rec. tauto.
Qed.

(** ** dropping variables *)
Lemma drop_ok first n : forall p b, ordered b p ->
  exists m, poly_drop p first n = Ok m /\ (forall x, pval x m == pval (dropped x first n) p) /\ (reduced p -> reduced m) /\
    ((forall u, (first <= u < first + n)%nat -> ~ occurs u p) -> p_is_zero m = p_is_zero p /\ forall c, (first + n <= c)%nat -> ordered c p -> ordered (c - n) m).
Proof.
  induction p as [a d|v l IH] using poly_ind'; intros b O.
  - exists (Cst a d). split; [cbn [poly_drop]; destruct (Nat.eqb n 0); reflexivity|]. split; [reflexivity|]. split; [auto|]. intros _. split; [reflexivity|auto].
  - pose proof O as O'. apply ordered_rec in O as (Hv & Hn & Hl & F).
    assert (Self : (forall u, (u <= v)%nat -> forall x, dropped x first n u == x u) -> (v < first)%nat \/ n = 0%nat -> (forall x, pval x (Rec v l) == pval (dropped x first n) (Rec v l)) /\ (reduced (Rec v l) -> reduced (Rec v l)) /\
      ((forall u, (first <= u < first + n)%nat -> ~ occurs u (Rec v l)) -> p_is_zero (Rec v l) = p_is_zero (Rec v l) /\ forall c, (first + n <= c)%nat -> ordered c (Rec v l) -> ordered (c - n) (Rec v l))).
    { intros E C. split; [intros x; apply (pval_ext _ _ _ (S v)); [apply ordered_rec; auto|]; intros u Hu; symmetry; apply E; lia|]. split; [auto|]. intros _. split; [reflexivity|].
      intros c Hc Oc. apply ordered_rec in Oc. apply ordered_rec. destruct Oc as (? & ? & ? & ?). split; [lia|auto]. }
    cbn [poly_drop]. destruct (Nat.eqb_spec n 0) as [En|En].
    { exists (Rec v l). split; [reflexivity|]. apply Self; [|auto]. intros u Hu x. unfold dropped. subst n. destruct (Nat.ltb_spec u first); [reflexivity|]. destruct (Nat.ltb_spec u (first + 0)); [lia|]. rewrite Nat.sub_0_r. reflexivity. }
    destruct (Nat.ltb_spec v first) as [L|L].
    { exists (Rec v l). split; [reflexivity|]. apply Self; [|auto]. intros u Hu x. unfold dropped. destruct (Nat.ltb_spec u first); [reflexivity|lia]. }
    destruct (Nat.ltb_spec v (first + n)) as [M|M].
    { destruct l as [|a t]; [cbn in Hn; lia|]. inversion IH; inversion F; subst. destruct (H1 v H5) as (m & A & V & R & _). exists m. split; [exact A|]. split; [|split].
      - intros x. rewrite V, pval_rec. cbn [vals map horner]. assert (E0 : dropped x first n v == 0). { unfold dropped. destruct (Nat.ltb_spec v first); [lia|]. destruct (Nat.ltb_spec v (first + n)); [reflexivity|lia]. } generalize (horner (dropped x first n v) (map (pval (dropped x first n)) t)). intros h. rewrite E0. ring.
      - rewrite reduced_rec. intros Q. inversion Q; auto.
      - intros N. exfalso. apply (N v); [lia|]. apply occurs_rec. auto. }
    assert (X : exists l', (fix go l := match l with [] => Ok [] | a :: t => LocalModel.bind (poly_drop a first n) (fun a' => LocalModel.bind (go t) (fun t' => Ok (a' :: t'))) end) l = Ok l' /\ length l' = length l /\
      (forall x z, horner z (vals x l') == horner z (vals (dropped x first n) l)) /\ (Forall reduced l -> Forall reduced l') /\
      ((forall u, (first <= u < first + n)%nat -> ~ Exists (occurs u) l) -> p_is_zero (last l' p_zero) = p_is_zero (last l p_zero) /\ Forall (ordered (v - n)) l')).
    { clear Hn Hl O' Self. induction l as [|a t IHl].
      - exists []. split; [reflexivity|]. split; [reflexivity|]. split; [reflexivity|]. split; [auto|]. intros _. split; [reflexivity|constructor].
      - inversion IH; inversion F; subst. destruct (H1 v H5) as (m & A & V & R & N). destruct IHl as (l' & Al & Ll & Vl & Rl & Nl); [assumption|assumption|].
        rewrite A. cbn [LocalModel.bind]. rewrite Al. cbn [LocalModel.bind]. exists (m :: l'). split; [reflexivity|]. split; [cbn; lia|].
        split; [intros x z; cbn [vals map horner]; rewrite V; unfold vals in Vl; rewrite Vl; reflexivity|]. split; [intros Q; inversion Q; subst; constructor; auto|].
        intros NN. destruct N as [N1 N2]; [intros u Hu Q; apply (NN u Hu); left; exact Q|]. destruct Nl as [Z1 Z2]; [intros u Hu Q; apply (NN u Hu); right; exact Q|].
        split; [|constructor; [apply N2; [lia|exact H5]|exact Z2]]. destruct l', t; try (cbn in Ll; lia); [exact N1|exact Z1]. }
    destruct X as (l' & A & L' & V & R & N). rewrite A. cbn [LocalModel.bind]. exists (Rec (v - n) l'). split; [reflexivity|]. split; [|split].
    + intros x. rewrite !pval_rec, V. apply horner_ext. unfold dropped. destruct (Nat.ltb_spec v first); [lia|]. destruct (Nat.ltb_spec v (first + n)); [lia|reflexivity].
    + rewrite !reduced_rec. exact R.
    + intros NN. destruct N as [N1 N2]; [intros u Hu Q; apply (NN u Hu); apply occurs_rec; auto|]. split; [reflexivity|]. intros c Hc Oc. apply ordered_rec in Oc as (C1 & C2 & C3 & C4).
      apply ordered_rec. split; [lia|]. split; [lia|]. split; [congruence|exact N2].
Qed.
