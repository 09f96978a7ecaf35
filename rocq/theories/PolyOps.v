(** Powers, scaling, renaming and substitution of polynomials. *)
From Coq Require Import ZArith List Bool QArith Arith Lia Setoid Morphisms ZifyBool.
From Verif Require Import SeqModel MatModel ValModel BMapModel BMapLists LocalModel PolyModel PolySpec PolyBase PolyArith.
Import ListNotations.
Open Scope Q_scope.

(** ** values depend on the variables that may occur *)
Lemma pval_ext x y p : forall b, ordered b p -> (forall v, (v < b)%nat -> x v == y v) -> pval x p == pval y p.
Proof.
  induction p as [n d|v l IH] using poly_ind'; intros b O H; [reflexivity|]. apply ordered_rec in O as (Hv & _ & _ & F). rewrite !pval_rec.
  rewrite (horner_ext (x v) (y v)) by (apply H; exact Hv). apply horner_peq. clear - IH F H Hv. induction l as [|a t IHl]; [constructor|].
  inversion IH; inversion F; subst. constructor; [|apply IHl; assumption]. apply (H2 v); [assumption|]. intros w Hw. apply H. lia.
Qed.
Lemma pval_ext_all x y p : (forall v, x v == y v) -> pval x p == pval y p.
Proof.
  intros H. induction p as [n d|v l IH] using poly_ind'; [reflexivity|]. rewrite !pval_rec. rewrite (horner_ext (x v) (y v)) by apply H. apply horner_peq.
  induction IH; constructor; auto.
Qed.

(** ** powers of a variable *)
Lemma horner_var x z k : horner z (vals x (repeat p_zero k ++ [p_one])) == pw z k.
Proof. unfold vals. induction k as [|k IH]; cbn [repeat app map horner pw]; [cbn; ring|]. rewrite IH. cbn. ring. Qed.
Lemma var_pow_ok pos k b : (pos < b)%nat -> (1 <= k)%nat -> ordered b (var_pow pos k) /\ (forall x, pval x (var_pow pos k) == pw (x pos) k) /\ reduced (var_pow pos k) /\ p_is_zero (var_pow pos k) = false.
Proof.
  intros H Hk. unfold var_pow. split; [|split; [|split; [|reflexivity]]].
  - apply ordered_rec. split; [exact H|]. rewrite app_length, repeat_length. split; [cbn; lia|]. split; [rewrite last_last; reflexivity|].
    apply Forall_app. split; [apply Forall_forall; intros y Hy; apply repeat_spec in Hy; subst; cbn; lia|]. constructor; [cbn; lia|constructor].
  - intros x. rewrite pval_rec. apply horner_var.
  - apply reduced_rec. apply Forall_app. split; [apply Forall_forall; intros y Hy; apply repeat_spec in Hy; subst; reflexivity|]. constructor; [reflexivity|constructor].
Qed.
Lemma pw_1 z : pw z 1 == z.
Proof. cbn. ring. Qed.

(** ** powers *)
Lemma pw_ext z z' n : z == z' -> pw z n == pw z' n.
Proof. intros E. induction n; cbn; [reflexivity|]. now rewrite IHn, E. Qed.
Lemma pw_sq z n : pw (z * z) n == pw z (2 * n).
Proof. replace (2 * n)%nat with (n + n)%nat by lia. rewrite pw_add. induction n; cbn; [ring|]. rewrite IHn. ring. Qed.
Lemma pow_loop_ok b : forall f r p power, (0 <= power < 2 ^ Z.of_nat f)%Z -> ordered b r -> ordered b p ->
  exists m, pow_loop (S f) r p power = Ok m /\ ordered b m /\ (forall x, pval x m == pval x r * pw (pval x p) (2 * Z.to_nat (power / 2))) /\ (reduced r -> reduced p -> reduced m).
Proof.
  induction f as [|f IH]; intros r p power Hp Or Op.
  - cbn in Hp. assert (power = 0)%Z by lia. subst. exists r. split; [reflexivity|]. split; [exact Or|]. split; [|auto]. intros x. cbn. ring.
  - change (pow_loop (S (S f)) r p power) with (let power := Z.shiftr power 1 in if (power =? 0)%Z then Ok r else
      LocalModel.bind (poly_mul p p) (fun p => LocalModel.bind (if (power mod 2 =? 0)%Z then Ok r else poly_mul r p) (fun r => pow_loop (S f) r p power))).
    cbv zeta. rewrite Z.shiftr_div_pow2 by lia. change (2 ^ 1)%Z with 2%Z.
    assert (P0 : (0 <= power / 2)%Z) by (apply Z.div_pos; lia).
    destruct (Z.eqb_spec (power / 2) 0) as [E|E].
    { exists r. split; [reflexivity|]. split; [exact Or|]. split; [|auto]. intros x. rewrite E. cbn. ring. }
    destruct (poly_mul_ok p p b Op Op) as (p' & Ap & Op' & Vp & Rp & _). rewrite Ap. cbn [LocalModel.bind].
    assert (Hp' : (0 <= power / 2 < 2 ^ Z.of_nat f)%Z).
    { split; [lia|]. apply Z.div_lt_upper_bound; [lia|]. rewrite Nat2Z.inj_succ, Z.pow_succ_r in Hp by lia. lia. }
    set (k := (power / 2)%Z) in *. assert (Ek : (k = 2 * (k / 2) + k mod 2)%Z) by (apply Z.div_mod; lia). pose proof (Z.mod_pos_bound k 2 ltac:(lia)).
    assert (K2 : (0 <= k / 2)%Z) by (apply Z.div_pos; lia).
    destruct (Z.eqb_spec (k mod 2) 0) as [M|M].
    + cbn [LocalModel.bind]. destruct (IH r p' k Hp' Or Op') as (m & A & B & C & D). exists m. split; [exact A|]. split; [exact B|]. split; [|auto].
      intros x. rewrite C, (pw_ext _ _ _ (Vp x)), pw_sq. replace (2 * (2 * Z.to_nat (k / 2)))%nat with (2 * Z.to_nat k)%nat by lia. reflexivity.
    + destruct (poly_mul_ok r p' b Or Op') as (r' & Ar & Or' & Vr & Rr & _). rewrite Ar. cbn [LocalModel.bind].
      destruct (IH r' p' k Hp' Or' Op') as (m & A & B & C & D). exists m. split; [exact A|]. split; [exact B|]. split; [|auto].
      intros x. rewrite C, Vr, (pw_ext _ _ _ (Vp x)), pw_sq, Vp. replace (2 * Z.to_nat k)%nat with (2 + 2 * (2 * Z.to_nat (k / 2)))%nat by lia. rewrite pw_add. cbn [pw]. ring.
Qed.
Lemma poly_pow_ok p b n : (0 <= n)%Z -> ordered b p ->
  exists m, poly_pow p n = Ok m /\ ordered b m /\ (forall x, pval x m == pw (pval x p) (Z.to_nat n)) /\ (reduced p -> reduced m).
Proof.
  intros Hn O. unfold poly_pow. destruct (Z.eqb_spec n 1) as [->|E].
  { exists p. split; [reflexivity|]. split; [exact O|]. split; [intros x; change (Z.to_nat 1) with 1%nat; symmetry; apply pw_1|auto]. }
  assert (B : (0 <= n < 2 ^ Z.of_nat (1 + Z.to_nat (Z.log2 n)))%Z).
  { split; [lia|]. pose proof (Z.log2_nonneg n). replace (Z.of_nat (1 + Z.to_nat (Z.log2 n))) with (Z.succ (Z.log2 n)) by lia.
    destruct (Z.eq_dec n 0) as [->|]; [cbn; lia|]. apply Z.log2_spec. lia. }
  assert (On : ordered b p_one) by (cbn; lia). pose proof (Z.mod_pos_bound n 2 ltac:(lia)). pose proof (Z.div_mod n 2 ltac:(lia)). pose proof (Z.div_pos n 2 ltac:(lia) ltac:(lia)).
  destruct (Z.eqb_spec (n mod 2) 0) as [M|M].
  - destruct (pow_loop_ok b _ p_one p n B On O) as (m & A & Om & V & R). exists m. split; [exact A|]. split; [exact Om|]. split; [|intros; apply R; [reflexivity|assumption]].
    intros x. rewrite V. replace (2 * Z.to_nat (n / 2))%nat with (Z.to_nat n) by lia. cbn. ring.
  - destruct (pow_loop_ok b _ p p n B O O) as (m & A & Om & V & R). exists m. split; [exact A|]. split; [exact Om|]. split; [|auto].
    intros x. rewrite V. replace (Z.to_nat n) with (S (2 * Z.to_nat (n / 2)))%nat by lia. cbn [pw]. reflexivity.
Qed.

(** ** adding and multiplying by numbers *)
Lemma cst_q n d : (0 < d)%Z -> n # Z.to_pos d == inject_Z n / inject_Z d.
Proof. intros H. rewrite (Qmake_Qdiv n (Z.to_pos d)). rewrite Z2Pos.id by lia. reflexivity. Qed.
Lemma add_int_ok v : forall p b, ordered b p -> exists m, poly_add_int p v = Ok m /\ ordered b m /\ (forall x, pval x m == pval x p + inject_Z v) /\ (reduced p -> reduced m).
Proof.
  induction p as [n d|w l IH] using poly_ind'; intros b O.
  - exists (Cst (n + d * v) d). split; [reflexivity|]. split; [exact O|]. split; [|cbn [reduced]; intros R; rewrite Z.gcd_comm, (Z.mul_comm d v), (Z.gcd_add_mult_diag_r d n v), Z.gcd_comm; exact R].
    intros x. cbn in O. rewrite !cst_val. unfold Qeq. cbn. rewrite !Pos2Z.inj_mul, !Z2Pos.id by lia. ring.
  - pose proof (proj1 (ordered_rec b w l) O) as (Hv & Hn & Hl & F). destruct l as [|a t]; [cbn in Hn; lia|]. inversion IH; inversion F; subst.
    destruct (H1 w H5) as (m & A & B & C & D). cbn [poly_add_int]. rewrite A. cbn [LocalModel.bind]. exists (Rec w (m :: t)). split; [reflexivity|]. split; [|split].
    + apply ordered_rec. split; [exact Hv|]. split; [exact Hn|]. split; [|constructor; assumption]. destruct t; [cbn in Hn; lia|exact Hl].
    + intros x. rewrite !pval_rec. cbn [vals map horner]. rewrite C. ring.
    + rewrite !reduced_rec. intros R. inversion R; subst. constructor; auto.
Qed.
Lemma last_map {A B} (f : A -> B) l d e : l <> [] -> last (map f l) e = f (last l d).
Proof. induction l as [|a [|b t] IH]; [congruence|reflexivity|]. intros _. change (last (map f (b :: t)) e = f (last (b :: t) d)). apply IH. discriminate. Qed.
Lemma mul_int_val v : forall p x, finite p -> pval x (poly_mul_int p v) == inject_Z v * pval x p.
Proof.
  induction p as [n d|w l IH] using poly_ind'; intros x F.
  - cbn [poly_mul_int]. destruct (p_is_zero (Cst n d)) eqn:Z; [rewrite (is_zero_val x _ Z); ring|]. cbn in F. rewrite !cst_val. unfold Qeq. cbn. ring.
  - apply finite_rec in F. cbn [poly_mul_int]. rewrite !pval_rec. revert IH F. generalize (x w). intros z IH F. induction l as [|a t IHl]; cbn [map vals horner]; [ring|].
    inversion IH; inversion F; subst. unfold vals in IHl. rewrite IHl by assumption. rewrite H1 by assumption. ring.
Qed.
Lemma mul_int_zero v p : (v <> 0)%Z -> p_is_zero (poly_mul_int p v) = p_is_zero p.
Proof.
  intros Hv. destruct p as [n d|w l]; [|reflexivity]. cbn [poly_mul_int]. destruct (p_is_zero (Cst n d)) eqn:Z; [exact Z|]. cbn in *.
  destruct (Z.eqb_spec (n * v) 0), (Z.eqb_spec n 0); try reflexivity; try nia.
Qed.
Lemma mul_int_ordered v : (v <> 0)%Z -> forall p b, ordered b p -> ordered b (poly_mul_int p v).
Proof.
  intros Hv. induction p as [n d|w l IH] using poly_ind'; intros b O.
  - cbn [poly_mul_int]. destruct (p_is_zero _); exact O.
  - apply ordered_rec in O as (Hw & Hn & Hl & F). cbn [poly_mul_int]. apply ordered_rec. rewrite map_length. split; [exact Hw|]. split; [exact Hn|]. split.
    + rewrite (last_map _ l p_zero) by (destruct l; [cbn in Hn; lia|discriminate]). rewrite mul_int_zero by exact Hv. exact Hl.
    + rewrite Forall_forall in *. intros y Hy. apply in_map_iff in Hy as (a & <- & Ha). apply IH; auto.
Qed.
Lemma mul_int_reduced v : (v = 1 \/ v = -1)%Z -> forall p, reduced p -> reduced (poly_mul_int p v).
Proof.
  intros Hv. induction p as [n d|w l IH] using poly_ind'; intros R.
  - cbn [poly_mul_int]. destruct (p_is_zero _); [exact R|]. cbn in *. destruct Hv as [->| ->]; [rewrite Z.mul_1_r; exact R|]. replace (n * -1)%Z with (- n)%Z by ring. rewrite Z.gcd_opp_l. exact R.
  - cbn [poly_mul_int]. rewrite reduced_rec in *. rewrite Forall_forall in *. intros y Hy. apply in_map_iff in Hy as (a & <- & Ha). auto.
Qed.
(** scaling by a finite rational number *)
Lemma scale_cst n d m e : (0 < d)%Z -> (0 < e)%Z -> exists n' d', cst_reduce (n * m) (d * e) = Cst n' d' /\ (0 < d')%Z /\ Z.gcd n' d' = 1%Z /\
  (forall x, pval x (Cst n' d') == (m # Z.to_pos e) * pval x (Cst n d)) /\ (m <> 0%Z -> p_is_zero (Cst n' d') = p_is_zero (Cst n d)).
Proof.
  intros Hd He. destruct (mul_cst_spec n d m e (fun _ => 0) Hd He) as (n' & d' & A & B & C & D). unfold mul_cst in A. exists n', d'. split; [exact A|]. split; [exact B|]. split; [exact C|]. split.
  - intros x. rewrite !cst_val in *. rewrite D. ring.
  - intros Hm. apply eq_iff_eq_true. rewrite (cst_zero_val n' d' (fun _ => 0) B), (cst_zero_val n d (fun _ => 0) Hd), D, !cst_val. split.
    + intros H. apply Qmult_integral in H as [H|H]; [exact H|]. unfold Qeq in H. cbn in H. lia.
    + intros ->. ring.
Qed.
Lemma scale_ok v : (0 < vd v)%Z -> forall p b, ordered b p ->
  (forall x, pval x (poly_scale p v) == (vn v # Z.to_pos (vd v)) * pval x p) /\ (vn v <> 0%Z -> ordered b (poly_scale p v) /\ p_is_zero (poly_scale p v) = p_is_zero p) /\ (reduced p -> reduced (poly_scale p v)).
Proof.
  intros Hv. induction p as [n d|w l IH] using poly_ind'; intros b O.
  - cbn [poly_scale]. destruct (p_is_zero (Cst n d)) eqn:Z.
    { split; [intros x; rewrite (is_zero_val x _ Z); ring|]. auto. }
    destruct (scale_cst n d (vn v) (vd v) O Hv) as (n' & d' & -> & B & C & D & E). split; [exact D|]. split; [intros H; split; [exact B|]; rewrite E, Z; auto|]. intros _. exact C.
  - apply ordered_rec in O as (Hw & Hn & Hl & F). cbn [poly_scale]. split; [|split].
    + intros x. rewrite !pval_rec. clear Hn Hl Hw. revert IH F. generalize (x w). intros z IH F. induction l as [|a t IHl]; cbn [map vals horner]; [ring|].
      inversion IH; inversion F; subst. unfold vals in IHl. rewrite IHl by assumption. destruct (H1 w H5) as (V & _). rewrite V. ring.
    + intros Hz. split; [|reflexivity]. apply ordered_rec. rewrite map_length. split; [exact Hw|]. split; [exact Hn|]. rewrite Forall_forall in *. split.
      * assert (Hl' : l <> []) by (destruct l; [cbn in Hn; lia|discriminate]). rewrite (last_map _ l p_zero) by exact Hl'.
        assert (Hin : List.In (last l p_zero) l). { rewrite (app_removelast_last p_zero Hl') at 2. apply in_elt. }
        destruct (IH _ Hin w (F _ Hin)) as (_ & Z & _). rewrite (proj2 (Z Hz)). exact Hl.
      * intros y Hy. apply in_map_iff in Hy as (a & <- & Ha). apply (IH a Ha w (F a Ha)). exact Hz.
    + rewrite !reduced_rec. rewrite !Forall_forall in *. intros R y Hy. apply in_map_iff in Hy as (a & <- & Ha). apply (IH a Ha w (F a Ha)). auto.
Qed.
