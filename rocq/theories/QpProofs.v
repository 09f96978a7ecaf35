(** Arithmetic of quasi-polynomials. *)
From Coq Require Import ZArith List Bool QArith Arith Lia ZifyBool Setoid.
From Verif Require Import SeqModel SeqSpec SeqProofs MatModel ValModel ValSpec LocalModel LocalSpec LocalProofs SpaceModel SpaceSpec SpaceOps SpaceOps2 SpaceOps3 SpaceOps4 PolyModel PolySpec PolyBase PolyArith PolyOps PolyOps2 PolyOps3 PolyUniq PolyThms QpModel QpSpec.
Import ListNotations.
Open Scope Z_scope.

Lemma is_equal_dim s1 s2 : is_equal s1 s2 = true -> dim_all s1 = dim_all s2.
Proof.
  unfold is_equal, has_equal_params, match_, tuple_is_equal, dim_all. intros H. apply andb_true_iff in H as (A & B). destruct (Nat.eqb_spec (dim s1 Param) (dim s2 Param)) as [E|]; [|cbn in A; discriminate]. cbn [dim] in E.
  destruct s1, s2. cbn in B, E |- *. rewrite !andb_true_iff, !Nat.eqb_eq in B. lia.
Qed.
Lemma is_equal_sym s1 s2 : is_equal s1 s2 = true -> is_equal s2 s1 = true.
Proof. rewrite !is_equal_ok. intros (A & B & C). split; [symmetry; exact A|]. split; apply same_sym; assumption. Qed.
Lemma qvalue_total q v : wf_qp q -> int_point (q_d q) v -> exists r, qvalue q v r.
Proof.
  intros (W & K & O) (L & E). destruct (extend_sat _ _ _ W K L E) as (S1 & F). eexists. exists (extend_loop (q_div q) v). split; [exact S1|]. split; [exact F|]. reflexivity.
Qed.
Lemma qvalue_unique q v r r' : wf_qp q -> qvalue q v r -> qvalue q v r' -> (r == r')%Q.
Proof.
  intros (W & K & O) (w & S1 & F & E) (w' & S2 & F' & E'). assert (w = w') by (eapply sat_unique; eauto; congruence). subst. rewrite E, E'. reflexivity.
Qed.
Lemma qvalue_ext q v r r' : (r == r')%Q -> qvalue q v r -> qvalue q v r'.
Proof. intros E (w & A & B & C). exists w. split; [exact A|]. split; [exact B|]. rewrite <- E. exact C. Qed.
Lemma qvalue_point q v r : qvalue q v r -> int_point (q_d q) v.
Proof. intros (w & (L & E & _) & F & _). rewrite <- F. split; [rewrite firstn_length; lia|]. rewrite nth_firstn. exact E. Qed.

(** ** compatible integer divisions *)
Lemma mat_is_equal_rows nc M1 M2 : (forall i, (i < length M1)%nat -> (nc <= length (nth i M1 []))%nat) -> (forall i, (i < length M2)%nat -> (nc <= length (nth i M2 []))%nat) ->
  mat_is_equal nc M1 M2 = true <-> length M1 = length M2 /\ forall i, (i < length M1)%nat -> firstn nc (nth i M1 []) = firstn nc (nth i M2 []).
Proof.
  intros H1 H2. unfold mat_is_equal. rewrite andb_true_iff, Nat.eqb_eq, forallb_forall. split; intros (A & B); (split; [exact A|]).
  - intros i Hi. specialize (B i ltac:(apply in_seq; lia)). apply seq_eq_ok in B; [exact B|]. specialize (H1 i Hi). specialize (H2 i ltac:(lia)). rewrite !firstn_length. lia.
  - intros i Hi. apply in_seq in Hi. specialize (B i ltac:(lia)). apply seq_eq_ok; [|exact B]. rewrite B. reflexivity.
Qed.
Lemma sat_prefix d M1 M2 w : wf_divs d M1 -> wf_divs d M2 -> (length M2 <= length M1)%nat -> (forall i, (i < length M2)%nat -> firstn (2 + d + length M2) (nth i M1 []) = firstn (2 + d + length M2) (nth i M2 [])) ->
  sat d M1 w -> sat d M2 (firstn (1 + d + length M2) w).
Proof.
  intros W1 W2 L E (Lw & W0 & H). split; [rewrite firstn_length; lia|]. split; [rewrite nth_firstn; exact W0|]. intros i Hi Nz. rewrite nth_firstn. destruct (Nat.ltb_spec (1 + d + i) (1 + d + length M2)); [|lia].
  specialize (E i Hi). destruct (W1 i ltac:(lia)) as (L1 & N1 & Z1). destruct (W2 i Hi) as (L2 & N2 & Z2).
  assert (E2 : nth i M2 [] = firstn (2 + d + length M2) (nth i M1 [])) by (rewrite E, firstn_all2 by lia; reflexivity).
  rewrite H; [|lia|]; cycle 1. { intros C. apply Nz. rewrite E2, nth_firstn. cbn [Nat.ltb Nat.leb Nat.add]. exact C. }
  rewrite E2. rewrite nth_firstn. cbn [Nat.ltb Nat.leb Nat.add]. f_equal.
  rewrite (dot_prefix _ (1 + d + length M2)); [|intros j Hj; rewrite nth_skipn; apply Z1; lia]. f_equal. change (S (S (d + length M2))) with (1 + (1 + d + length M2))%nat. rewrite skipn_firstn_comm. f_equal.
Qed.
Lemma compatible_ok d M1 M2 : wf_divs d M1 -> wf_divs d M2 -> (length M2 <= length M1)%nat -> compatible_divs d M1 M2 = Ok true ->
  forall i, (i < length M2)%nat -> firstn (2 + d + length M2) (nth i M1 []) = firstn (2 + d + length M2) (nth i M2 []).
Proof.
  intros W1 W2 L. unfold compatible_divs. destruct (Nat.ltb_spec (length M1) (length M2)); [lia|]. intros E. inversion E as [E']. clear E. apply mat_is_equal_rows in E' as (A & B).
  - intros i Hi. specialize (B i ltac:(lia)). rewrite nth_firstn in B. destruct (Nat.ltb_spec i (length M2)); [exact B|lia].
  - intros i Hi. rewrite firstn_length in Hi. rewrite nth_firstn. destruct (Nat.ltb_spec i (length M2)); [|lia]. destruct (W1 i ltac:(lia)) as (-> & _). lia.
  - intros i Hi. destruct (W2 i Hi) as (-> & _). lia.
Qed.
Lemma compatible_refl d M : wf_divs d M -> compatible_divs d M M = Ok true.
Proof.
  intros W. unfold compatible_divs. rewrite Nat.ltb_irrefl. f_equal. rewrite firstn_all. apply mat_is_equal_rows; [| |split; reflexivity]; intros i Hi; destruct (W i Hi) as (-> & _); lia.
Qed.
Lemma qvalue_prefix q1 q2 v r : wf_qp q1 -> wf_qp q2 -> q_d q1 = q_d q2 -> (q_n q2 <= q_n q1)%nat -> compatible_divs (q_d q1) (q_div q1) (q_div q2) = Ok true -> qvalue q2 v r ->
  forall w, sat (q_d q1) (q_div q1) w -> firstn (1 + q_d q1) w = v -> (r == pval (wval w) (q_poly q2))%Q.
Proof.
  intros (W1 & K1 & O1) (W2 & K2 & O2) D L C (w2 & S2 & F2 & E2) w Sw Fw. unfold q_n in *. rewrite D in *.
  pose proof (sat_prefix _ _ _ w W1 W2 L (compatible_ok _ _ _ W1 W2 L C) Sw) as S3.
  assert (Ew : w2 = firstn (1 + q_d q2 + length (q_div q2)) w). { apply (sat_unique _ _ _ _ W2 K2 S2 S3). rewrite F2, firstn_firstn. replace (Nat.min _ _) with (1 + q_d q2)%nat by lia. symmetry. exact Fw. }
  rewrite E2. apply (pval_ext _ _ _ _ O2). intros k Hk. unfold wval. rewrite Ew, nth_firstn. destruct (Nat.ltb_spec (1 + k) (1 + q_d q2 + length (q_div q2))); [reflexivity|lia].
Qed.

(** ** binary operations *)
Section Binop.
Variable fn : poly -> poly -> res poly.
Variable op : Q -> Q -> Q.
Hypothesis op_ext : forall a a' b b', (a == a')%Q -> (b == b')%Q -> (op a b == op a' b')%Q.
Hypothesis op_comm : forall a b, (op a b == op b a)%Q.
Hypothesis fn_ok : forall p q b, ordered b p -> ordered b q -> exists m, fn p q = Ok m /\ ordered b m /\ (forall x, (pval x m == op (pval x p) (pval x q))%Q) /\ (reduced p -> reduced q -> reduced m).
Definition good (q1 q2 q : qp) : Prop :=
  wf_qp q /\ (q_sp q = q_sp q1 \/ q_sp q = q_sp q2) /\ (reduced (q_poly q1) -> reduced (q_poly q2) -> reduced (q_poly q)) /\
  forall v r1 r2, qvalue q1 v r1 -> qvalue q2 v r2 -> qvalue q v (op r1 r2).
Lemma binop_swap f q1 q2 : is_equal (q_sp q1) (q_sp q2) = true -> (q_n q1 < q_n q2)%nat -> qp_binop fn (S f) q1 q2 = qp_binop fn f q2 q1.
Proof. intros E L. cbn [qp_binop]. rewrite E. cbn [negb]. destruct (Nat.ltb_spec (q_n q1) (q_n q2)); [reflexivity|lia]. Qed.
Lemma binop_compat f q1 q2 : wf_qp q1 -> wf_qp q2 -> is_equal (q_sp q1) (q_sp q2) = true -> (q_n q2 <= q_n q1)%nat -> compatible_divs (q_d q1) (q_div q1) (q_div q2) = Ok true ->
  exists q, qp_binop fn (S f) q1 q2 = Ok q /\ good q1 q2 q.
Proof.
  intros G1 G2 E L C. pose proof (is_equal_dim _ _ E) as D. pose proof G1 as (W1 & K1 & O1). pose proof G2 as (W2 & K2 & O2). cbn [qp_binop]. rewrite E. cbn [negb].
  destruct (Nat.ltb_spec (q_n q1) (q_n q2)); [lia|]. rewrite C. cbn [bind negb]. unfold q_d in D.
  destruct (fn_ok (q_poly q1) (q_poly q2) (q_d q1 + q_n q1)) as (m & Em & Om & Vm & Rm); [exact O1|eapply ordered_mono; [|exact O2]; unfold q_d in *; lia|].
  rewrite Em. cbn [bind]. exists (with_poly q1 m). split; [reflexivity|]. unfold with_poly. split; [split; [exact W1|split; [exact K1|exact Om]]|]. split; [left; reflexivity|]. split; [exact Rm|].
  intros v r1 r2 (w & Sw & Fw & Er) H2. exists w. split; [exact Sw|]. split; [exact Fw|]. cbn [q_poly]. rewrite Vm. apply op_ext; [exact Er|]. apply (qvalue_prefix q1 q2 v r2 G1 G2 D L C H2 w Sw Fw).
Qed.
Lemma merged_value q D e p' : wf_qp q -> wf_divs (q_d q) D -> known D -> length e = q_n q -> (forall w, sat (q_d q) D w -> sat (q_d q) (q_div q) (select (q_d q) e w)) ->
  (forall x, (pval x p' == pval (expanded x e (q_d q)) (q_poly q))%Q) -> forall v r, qvalue q v r -> qvalue (mkqp (q_sp q) D p') v r.
Proof.
  intros (W & K & O) WD KD Le H V v r Hv. destruct (qvalue_point _ _ _ Hv) as (Lv & E1). destruct (extend_sat _ _ _ WD KD Lv E1) as (Sw & Fw). set (w := extend_loop D v) in *.
  exists w. split; [exact Sw|]. split; [exact Fw|]. cbn [q_poly]. rewrite V. destruct Hv as (w1 & S1 & F1 & ->). pose proof Sw as (Lw & _).
  assert (Ew : w1 = select (q_d q) e w). { apply (sat_unique _ _ _ _ W K S1 (H w Sw)). rewrite F1. unfold select. rewrite firstn_app, firstn_firstn, firstn_length. unfold q_d in *. replace (1 + dim_all (q_sp q) - _)%nat with 0%nat by lia. rewrite Nat.min_id. cbn [firstn]. rewrite app_nil_r. symmetry. exact Fw. }
  apply (pval_ext _ _ _ _ O). intros k Hk. unfold wval, expanded. rewrite Ew. destruct (Nat.ltb_spec k (q_d q)) as [Hl|Hl].
  - unfold select. rewrite app_nth1 by (rewrite firstn_length; lia). rewrite nth_firstn. destruct (Nat.ltb_spec (1 + k) (1 + q_d q)); [reflexivity|lia].
  - replace (1 + k)%nat with (1 + q_d q + (k - q_d q))%nat by lia. rewrite select_nth by lia. replace (1 + q_d q + nth (k - q_d q) e 0)%nat with (1 + (nth (k - q_d q) e 0 + q_d q))%nat by lia. reflexivity.
Qed.
Lemma binop_le f q1 q2 : wf_qp q1 -> wf_qp q2 -> is_equal (q_sp q1) (q_sp q2) = true -> (q_n q2 <= q_n q1)%nat -> exists q, qp_binop fn (S (S f)) q1 q2 = Ok q /\ good q1 q2 q.
Proof.
  intros G1 G2 E L. destruct (compatible_divs (q_d q1) (q_div q1) (q_div q2)) as [[]| | |] eqn:C.
  - apply binop_compat; assumption.
  - pose proof (is_equal_dim _ _ E) as D. pose proof G1 as (W1 & K1 & O1). pose proof G2 as (W2 & K2 & O2). assert (D' : q_d q2 = q_d q1) by (unfold q_d; lia). rewrite D' in *.
    cbn [qp_binop]. rewrite E. cbn [negb]. destruct (Nat.ltb_spec (q_n q1) (q_n q2)); [lia|]. rewrite C. cbn [bind negb].
    destruct (merge_divs_ok _ _ _ W1 W2) as (M & e1 & e2 & Em & WM & KM & L1 & L2 & I1 & I2 & B1 & B2 & Lm & HS). rewrite Em. cbn [bind]. specialize (KM K1 K2).
    destruct (poly_expand_ok e1 (q_d q1) (q_d q1 + length M) (q_poly q1) _ I1 ltac:(intros i Hi; specialize (B1 i Hi); lia) ltac:(lia) O1 ltac:(unfold q_n; lia)) as (p1 & E1 & P1 & V1 & R1).
    destruct (poly_expand_ok e2 (q_d q1) (q_d q1 + length M) (q_poly q2) _ I2 ltac:(intros i Hi; specialize (B2 i Hi); lia) ltac:(lia) O2 ltac:(unfold q_n; lia)) as (p2 & E2 & P2 & V2 & R2).
    rewrite E1. cbn [bind]. rewrite E2. cbn [bind]. set (a := mkqp (q_sp q1) M p1). set (b := mkqp (q_sp q2) M p2).
    assert (Ga : wf_qp a) by (split; [exact WM|split; [exact KM|exact P1]]).
    assert (Db : q_d b = q_d q1) by exact D'. assert (Gb : wf_qp b). { split; [rewrite Db; exact WM|split; [exact KM|rewrite Db; exact P2]]. }
    destruct (binop_compat f a b Ga Gb E (le_n _) (compatible_refl _ _ WM)) as (q & Eq & Gq & Sq & Rq & Vq). exists q. split; [exact Eq|]. split; [exact Gq|]. split; [exact Sq|]. split; [intros H1 H2; apply Rq; [apply R1; exact H1|apply R2; exact H2]|].
    intros v r1 r2 H1 H2. apply Vq.
    + apply (merged_value q1 M e1 p1 G1 WM KM L1); [intros w Hw; apply HS; exact Hw|exact V1|exact H1].
    + apply (merged_value q2 M e2 p2 G2); rewrite ?D'; [exact WM|exact KM|exact L2|intros w Hw; apply HS; exact Hw|exact V2|exact H2].
  - unfold compatible_divs in C. destruct (Nat.ltb_spec (length (q_div q1)) (length (q_div q2))); [unfold q_n in *; lia|discriminate].
  - unfold compatible_divs in C. destruct (Nat.ltb _ _); discriminate.
  - unfold compatible_divs in C. destruct (Nat.ltb _ _); discriminate.
Qed.
Lemma binop_ok f q1 q2 : wf_qp q1 -> wf_qp q2 -> is_equal (q_sp q1) (q_sp q2) = true -> exists q, qp_binop fn (S (S (S f))) q1 q2 = Ok q /\ good q1 q2 q.
Proof.
  intros G1 G2 E. destruct (Nat.leb_spec (q_n q2) (q_n q1)) as [L|L]; [apply binop_le; assumption|].
  rewrite (binop_swap _ _ _ E L). destruct (binop_le f q2 q1 G2 G1 (is_equal_sym _ _ E) ltac:(lia)) as (q & Eq & Gq & Sq & Rq & Vq). exists q. split; [exact Eq|]. split; [exact Gq|]. split; [tauto|]. split; [tauto|].
  intros v r1 r2 H1 H2. apply (qvalue_ext _ _ (op r2 r1)); [apply op_comm|]. apply Vq; assumption.
Qed.
Lemma binop_null f q1 q2 : is_equal (q_sp q1) (q_sp q2) = false -> qp_binop fn (S f) q1 q2 = Null.
Proof. intros E. cbn [qp_binop]. rewrite E. reflexivity. Qed.
End Binop.

Lemma qp_add_ok q1 q2 : wf_qp q1 -> wf_qp q2 -> is_equal (q_sp q1) (q_sp q2) = true -> exists q, qp_add q1 q2 = Ok q /\ good Qplus q1 q2 q.
Proof.
  intros G1 G2 E. apply binop_ok; try assumption.
  - intros a a' b b' H1 H2. rewrite H1, H2. reflexivity.
  - intros. apply Qplus_comm.
  - intros p q b. apply poly_sum_ok.
Qed.
Lemma qp_mul_ok q1 q2 : wf_qp q1 -> wf_qp q2 -> is_equal (q_sp q1) (q_sp q2) = true -> exists q, qp_mul q1 q2 = Ok q /\ good Qmult q1 q2 q.
Proof.
  intros G1 G2 E. apply binop_ok; try assumption.
  - intros a a' b b' H1 H2. rewrite H1, H2. reflexivity.
  - intros. apply Qmult_comm.
  - intros p q b H1 H2. destruct (poly_mul_ok p q b H1 H2) as (m & A & B & C & D & _). exists m. auto.
Qed.

(** ** unary operations *)
Lemma with_poly_good q p (f : Q -> Q) : wf_qp q -> ordered (q_d q + q_n q) p -> (forall x, (pval x p == f (pval x (q_poly q)))%Q) -> (forall a b, (a == b)%Q -> (f a == f b)%Q) ->
  wf_qp (with_poly q p) /\ forall v r, qvalue q v r -> qvalue (with_poly q p) v (f r).
Proof.
  intros (W & K & O) Op V Fx. split; [split; [exact W|split; [exact K|exact Op]]|]. intros v r (w & Sw & Fw & E). exists w. split; [exact Sw|]. split; [exact Fw|]. cbn [with_poly q_poly]. rewrite V. apply Fx. exact E.
Qed.
Lemma qp_zero_ok s v : int_point (dim_all s) v -> wf_qp (qp_zero s) /\ qvalue (qp_zero s) v 0.
Proof.
  intros (L & E). unfold qp_zero. split. { split; [intros i Hi; cbn in Hi; lia|]. split; [intros i Hi; cbn in Hi; lia|]. cbn. lia. }
  exists v. split. { split; [cbn; unfold q_d; cbn [q_sp]; lia|]. split; [exact E|]. intros i Hi. cbn in Hi. lia. }
  split; [apply firstn_all2; unfold q_d; cbn [q_sp]; lia|]. cbn. reflexivity.
Qed.
Lemma qp_add_int_ok q z : wf_qp q -> exists q', qp_add_int q z = Ok q' /\ wf_qp q' /\ q_sp q' = q_sp q /\ (reduced (q_poly q) -> reduced (q_poly q')) /\ forall v r, qvalue q v r -> qvalue q' v (r + inject_Z z)%Q.
Proof.
  intros G. unfold qp_add_int. destruct (Z.eqb_spec z 0) as [->|N].
  - exists q. split; [reflexivity|]. split; [exact G|]. split; [reflexivity|]. split; [tauto|]. intros v r H. apply (qvalue_ext _ _ r); [|exact H]. change (inject_Z 0) with 0%Q. rewrite Qplus_0_r. reflexivity.
  - destruct (add_int_ok z (q_poly q) (q_d q + q_n q)) as (m & E & O & V & R); [apply G|]. rewrite E. cbn [bind]. exists (with_poly q m). split; [reflexivity|].
    destruct (with_poly_good q m (fun a => a + inject_Z z)%Q G O V) as (A & B); [intros a b ->; reflexivity|]. split; [exact A|]. split; [reflexivity|]. split; [exact R|exact B].
Qed.
Lemma qp_mul_int_ok q z : wf_qp q -> wf_qp (qp_mul_int q z) /\ q_sp (qp_mul_int q z) = q_sp q /\ ((z = 1 \/ z = -1) -> reduced (q_poly q) -> reduced (q_poly (qp_mul_int q z))) /\ forall v r, qvalue q v r -> qvalue (qp_mul_int q z) v (inject_Z z * r)%Q.
Proof.
  intros G. unfold qp_mul_int. destruct (Z.eqb_spec z 1) as [->|N1].
  - split; [exact G|]. split; [reflexivity|]. split; [tauto|]. intros v r H. apply (qvalue_ext _ _ r); [|exact H]. change (inject_Z 1) with 1%Q. rewrite Qmult_1_l. reflexivity.
  - destruct (Z.eqb_spec z 0) as [->|N0].
    + assert (P : int_point (dim_all (q_sp q)) (1 :: repeat 0 (dim_all (q_sp q)))) by (split; [cbn; rewrite repeat_length; reflexivity|reflexivity]).
      split; [apply (qp_zero_ok _ _ P)|]. split; [reflexivity|]. split; [intros [H|H]; discriminate|]. intros v r H. apply (qvalue_ext _ _ 0%Q); [rewrite Qmult_0_l; reflexivity|]. apply qp_zero_ok. apply (qvalue_point _ _ _ H).
    + destruct (mul_int_ok z (q_poly q) (q_d q + q_n q) N0 ltac:(apply G)) as (O & V & R).
      destruct (with_poly_good q _ (fun a => inject_Z z * a)%Q G O V) as (A & B); [intros a b ->; reflexivity|]. split; [exact A|]. split; [reflexivity|]. split; [exact R|exact B].
Qed.
Lemma qp_neg_ok q : wf_qp q -> wf_qp (qp_neg q) /\ q_sp (qp_neg q) = q_sp q /\ (reduced (q_poly q) -> reduced (q_poly (qp_neg q))) /\ forall v r, qvalue q v r -> qvalue (qp_neg q) v (- r)%Q.
Proof.
  intros G. destruct (qp_mul_int_ok q (-1) G) as (A & B & C & D). split; [exact A|]. split; [exact B|]. split; [apply C; right; reflexivity|]. intros v r H. eapply qvalue_ext; [|apply D; exact H]. change (inject_Z (-1)) with (-(1))%Q. ring.
Qed.
Lemma qp_sub_ok q1 q2 : wf_qp q1 -> wf_qp q2 -> is_equal (q_sp q1) (q_sp q2) = true -> exists q, qp_sub q1 q2 = Ok q /\ good Qminus q1 q2 q.
Proof.
  intros G1 G2 E. unfold qp_sub. destruct (qp_neg_ok q2 G2) as (A & B & C & D). destruct (qp_add_ok q1 (qp_neg q2) G1 A) as (q & Eq & Gq & Sq & Rq & Vq); [rewrite B; exact E|].
  exists q. split; [exact Eq|]. split; [exact Gq|]. split; [rewrite B in Sq; exact Sq|]. split; [intros H1 H2; apply Rq; [exact H1|apply C; exact H2]|]. intros v r1 r2 H1 H2. eapply qvalue_ext; [|apply Vq; [exact H1|apply D; exact H2]]. reflexivity.
Qed.
Lemma qp_scale_ok q c : wf_qp q -> 0 < vd c -> exists q', qp_scale q c = Ok q' /\ wf_qp q' /\ q_sp q' = q_sp q /\ (reduced (q_poly q) -> reduced (q_poly q')) /\ forall v r, qvalue q v r -> qvalue q' v ((vn c # Z.to_pos (vd c)) * r)%Q.
Proof.
  intros G Hd. unfold qp_scale, v_is_rat. destruct (Z.eqb_spec (vd c) 0); [lia|]. cbn [negb]. destruct (v_is_one c) eqn:E1.
  - exists q. split; [reflexivity|]. split; [exact G|]. split; [reflexivity|]. split; [tauto|]. intros v r H. apply (qvalue_ext _ _ r); [|exact H]. unfold v_is_one in E1.
    assert (Ev : vn c = vd c) by (destruct (v_is_nan c); [discriminate|lia]). rewrite Ev. assert (X : (vd c # Z.to_pos (vd c) == 1)%Q) by (unfold Qeq; cbn; lia). rewrite X. ring.
  - unfold v_is_zero. destruct (Z.eqb_spec (vn c) 0) as [Ez|Nz]; cbn [andb].
    + destruct (Z.eqb_spec (vd c) 0); [lia|]. cbn [negb]. exists (qp_zero (q_sp q)). split; [reflexivity|].
      assert (P : int_point (dim_all (q_sp q)) (1 :: repeat 0 (dim_all (q_sp q)))) by (split; [cbn; rewrite repeat_length; reflexivity|reflexivity]).
      split; [apply (qp_zero_ok _ _ P)|]. split; [reflexivity|]. split; [intros _; cbn; reflexivity|]. intros v r H. apply (qvalue_ext _ _ 0%Q); [rewrite Ez; assert (X : (0 # Z.to_pos (vd c) == 0)%Q) by reflexivity; rewrite X; ring|]. apply qp_zero_ok. apply (qvalue_point _ _ _ H).
    + destruct (poly_scale_ok c (q_poly q) (q_d q + q_n q) Hd Nz ltac:(apply G)) as (V & O & R). exists (with_poly q (poly_scale (q_poly q) c)). split; [reflexivity|].
      destruct (with_poly_good q _ (fun a => (vn c # Z.to_pos (vd c)) * a)%Q G O V) as (A & B); [intros a b ->; reflexivity|]. split; [exact A|]. split; [reflexivity|]. split; [exact R|exact B].
Qed.
Lemma qp_pow_ok q n : wf_qp q -> 0 <= n -> exists q', qp_pow q n = Ok q' /\ wf_qp q' /\ q_sp q' = q_sp q /\ (reduced (q_poly q) -> reduced (q_poly q')) /\ forall v r, qvalue q v r -> qvalue q' v (pw r (Z.to_nat n)).
Proof.
  intros G Hn. unfold qp_pow. destruct (poly_pow_ok (q_poly q) (q_d q + q_n q) n Hn ltac:(apply G)) as (m & E & O & V & R). rewrite E. cbn [bind]. exists (with_poly q m). split; [reflexivity|].
  destruct (with_poly_good q m (fun a => pw a (Z.to_nat n)) G O V) as (A & B); [intros a b H; apply pw_ext; exact H|]. split; [exact A|]. split; [reflexivity|]. split; [exact R|exact B].
Qed.
Lemma qp_eval_ok q v : wf_qp q -> reduced (q_poly q) -> int_point (q_d q) v -> exists c r, qp_eval q v = Ok c /\ means c (EFin r) /\ qvalue q v r.
Proof.
  intros G R (L & E1). pose proof G as (W & K & O). unfold qp_eval. destruct v as [|z t] eqn:Ev; [cbn in L; lia|]. rewrite <- Ev in *. destruct (extend_point_ok _ _ _ W K L E1) as (w & Ew & Sw & Fw). rewrite Ew. cbn [bind].
  pose proof Sw as (Lw & W0 & _). assert (W1 : nth 0 w 1 = 1) by (rewrite (nth_indep w 1 0) by lia; exact W0).
  destruct (PolyThms.poly_eval_ok w (q_poly q) (q_d q + q_n q)) as (c & Ec & Mc); [lia|split; [exact O|exact R]|unfold q_n; lia|]. exists c, (pval (wval w) (q_poly q)). split; [exact Ec|]. split.
  - eapply means_ext; [|exact Mc]. apply pval_ext_all. intros k. unfold at_vec, wval. rewrite W1. unfold Qeq, inject_Z. cbn. lia.
  - exists w. split; [exact Sw|]. split; [exact Fw|]. reflexivity.
Qed.
Lemma qp_eval_void q : qp_eval q [] = Ok v_nan.
Proof. reflexivity. Qed.
Lemma qp_plain_is_equal_ok q1 q2 : wf_qp q1 -> wf_qp q2 -> qp_plain_is_equal q1 q2 = true -> is_equal (q_sp q1) (q_sp q2) = true /\ forall v r, qvalue q1 v r -> qvalue q2 v r.
Proof.
  intros (W1 & K1 & O1) (W2 & K2 & O2). unfold qp_plain_is_equal. destruct (_ || _); [discriminate|]. destruct (is_equal (q_sp q1) (q_sp q2)) eqn:E; [|discriminate]. cbn [negb].
  pose proof (is_equal_dim _ _ E) as D. fold (q_d q1) (q_d q2) in D.
  destruct (mat_is_equal _ _ _) eqn:Em; [|discriminate]. cbn [negb]. intros Ep. split; [reflexivity|].
  assert (EM : q_div q1 = q_div q2).
  { unfold mat_is_equal in Em. apply andb_true_iff in Em as (A & B). apply Nat.eqb_eq in A. rewrite forallb_forall in B. apply (nth_ext _ _ [] [] A). intros i Hi. specialize (B i ltac:(apply in_seq; lia)).
    destruct (W1 i Hi) as (L1 & _). destruct (W2 i ltac:(lia)) as (L2 & _). apply seq_eq_ok in B; [|rewrite !firstn_length; unfold q_col, q_n; lia]. rewrite !firstn_all2 in B by (unfold q_col, q_n; lia). exact B. }
  apply is_equal_eq in Ep. intros v r (w & Sw & Fw & Er). exists w. rewrite <- EM, <- D, <- Ep. auto.
Qed.
