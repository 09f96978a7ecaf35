(** Affine polynomials; the order of polynomials. *)
From Coq Require Import ZArith List Bool QArith Arith Lia Lqa Setoid Morphisms ZifyBool.
From Verif Require Import SeqModel SeqProofs MatModel ValModel BMapModel BMapLists BMapGauss2 LocalModel PolyModel PolySpec PolyBase PolyArith PolyOps PolyOps2 PolyOps3 PolyUniq.
Import ListNotations.
Open Scope Q_scope.

(** ** conversion to an affine expression *)
Lemma affv_scale x k : forall f i, affv x i (seq_scale f k) == inject_Z k * affv x i f.
Proof. induction f as [|c t IH]; intros i; cbn [seq_scale map affv]; [ring|]. unfold seq_scale in IH. rewrite IH, inject_Z_mult. ring. Qed.
Lemma affv_zupd x c : forall f i v, (v < length f)%nat -> nth v f 0%Z = 0%Z -> affv x i (zupd f v c) == inject_Z c * x (i + v)%nat + affv x i f.
Proof.
  induction f as [|a t IH]; intros i v Hv Hz; [cbn in Hv; lia|]. destruct v as [|v]; cbn [zupd affv].
  - cbn in Hz. subst a. rewrite Nat.add_0_r. unfold inject_Z at 3. ring.
  - rewrite IH by (cbn in *; auto; lia). replace (S i + v)%nat with (i + S v)%nat by lia. ring.
Qed.
(** the value of the affine expression with denominator [den], constant [c] and coefficients [f], times [den] *)
Lemma gcd_facts d a0 : (0 < d)%Z -> (0 < a0)%Z -> let g := Z.gcd d a0 in (0 < d / g)%Z /\ (0 < a0 / g)%Z /\ (a0 * (d / g) = d * (a0 / g))%Z.
Proof.
  intros Hd Ha g. assert (0 < g)%Z. { unfold g. pose proof (Z.gcd_nonneg d a0). assert (Z.gcd d a0 <> 0)%Z by (intros E; apply Z.gcd_eq_0_l in E; lia). lia. }
  destruct (Z.gcd_divide_l d a0) as [p Hp], (Z.gcd_divide_r d a0) as [q Hq]. fold g in Hp, Hq.
  assert (Ep : (d / g = p)%Z) by (rewrite Hp; apply Z.div_mul; lia). assert (Eq : (a0 / g = q)%Z) by (rewrite Hq; apply Z.div_mul; lia). rewrite Ep, Eq. nia.
Qed.
Lemma update_affine_ok : forall p b a0 c f, ordered b p -> (b <= length f)%nat -> (0 < a0)%Z -> c = 0%Z -> (forall v, (v < b)%nat -> nth v f 0%Z = 0%Z) -> poly_is_affine p = Ok true ->
  exists a0' c' f', update_affine p (a0 :: c :: f) = Ok (a0' :: c' :: f') /\ length f' = length f /\ (0 < a0')%Z /\
    (forall x, inject_Z a0 * (inject_Z c' + affv x 0 f') == inject_Z a0' * (affv x 0 f + inject_Z a0 * pval x p)).
Proof.
  induction p as [n d|v l IH] using poly_ind'; intros b a0 c f O Hb Ha Hc Hz A.
  - cbn [update_affine]. unfold update_coeff. cbn in O. subst c. destruct (Z.eqb_spec n 0) as [->|Hn].
    { exists a0, 0%Z, f. split; [reflexivity|]. split; [reflexivity|]. split; [exact Ha|]. intros x. cbn [pval]. assert (E : 0 # Z.to_pos d == 0) by reflexivity. rewrite E. unfold inject_Z at 2. ring. }
    cbn [nth seq_scale map]. unfold divexact. destruct (gcd_facts d a0 O Ha) as (G1 & G2 & G3). cbv zeta in *. set (k := (d / Z.gcd d a0)%Z) in *. set (h := (a0 / Z.gcd d a0)%Z) in *.
    cbn [zupd Nat.add]. eexists _, _, _. split; [reflexivity|]. split; [apply map_length|]. split; [nia|]. intros x. pose proof (affv_scale x k f 0) as S. unfold seq_scale in S. rewrite S.
    rewrite inject_Z_mult, inject_Z_mult. rewrite <- (cst_times n d x O) at 1. assert (E : inject_Z a0 * inject_Z k == inject_Z d * inject_Z h) by (rewrite <- !inject_Z_mult, G3; reflexivity).
    set (P := pval x (Cst n d)). transitivity (inject_Z a0 * ((inject_Z d * inject_Z h) * P + inject_Z k * affv x 0 f)); [ring|]. rewrite <- E. ring.
  - pose proof O as O'. apply ordered_rec in O' as (Hv & Hn & Hl & F). cbn [poly_is_affine] in A. destruct l as [|p0 [|p1 [|]]]; try discriminate. destruct p1 as [n d|]; [|discriminate]. cbn [p_is_cst] in A.
    cbn [update_affine]. inversion IH as [|? ? IH0 _]; inversion F as [|? ? F0 F1]; subst. inversion F1; subst. match goal with H : ordered v (Cst n d) |- _ => cbn in H; rename H into Hd end.
    cbn [last p_is_zero] in Hl. rewrite (proj2 (Z.ltb_lt _ _) Hd), andb_true_r in Hl. unfold update_coeff. rewrite Hl. cbn [nth seq_scale map]. unfold divexact.
    destruct (gcd_facts d a0 Hd Ha) as (G1 & G2 & G3). cbv zeta in *. set (k := (d / Z.gcd d a0)%Z) in *. set (h := (a0 / Z.gcd d a0)%Z) in *. cbn [Nat.add zupd]. rewrite Z.mul_0_l.
    assert (Lm : length (zupd (map (fun y => (y * k)%Z) f) v (h * n)) = length f) by (rewrite zupd_length, map_length; reflexivity).
    assert (Nm : forall u, nth u (map (fun y => (y * k)%Z) f) 0%Z = (nth u f 0 * k)%Z) by (intros u; rewrite (map_nth_in (fun y => (y * k)%Z) f 0%Z 0%Z) || (change 0%Z with ((fun y => (y * k)%Z) 0%Z) at 1; rewrite map_nth); reflexivity).
    destruct (IH0 v (a0 * k)%Z 0%Z (zupd (map (fun y => (y * k)%Z) f) v (h * n)%Z)) as (a0' & c' & f' & E & Lf & Pa & V); [exact F0|lia|nia|reflexivity| |exact A|].
    { intros u Hu. rewrite nth_zupd. destruct (Nat.eqb_spec u v); [lia|]. cbn [andb]. rewrite Nm, (Hz u) by lia. apply Z.mul_0_l. }
    exists a0', c', f'. split; [exact E|]. split; [lia|]. split; [exact Pa|]. intros x. specialize (V x).
    rewrite affv_zupd in V; [|rewrite map_length; lia|rewrite Nm, (Hz v) by lia; lia]. pose proof (affv_scale x k f 0) as S. unfold seq_scale in S. rewrite S in V. cbn [Nat.add] in V. rewrite !inject_Z_mult in V.
    rewrite pval_rec. cbn [vals map horner]. assert (Pk : ~ inject_Z k == 0) by (unfold Qeq; cbn; lia). apply (Qmult_inj_l _ _ (inject_Z k) Pk).
    transitivity (inject_Z a0 * inject_Z k * (inject_Z c' + affv x 0 f')); [ring|]. rewrite V.
    assert (E1 : inject_Z a0 * inject_Z k == inject_Z d * inject_Z h) by (rewrite <- !inject_Z_mult, G3; reflexivity).
    rewrite <- (cst_times n d x Hd). set (P := pval x (Cst n d)). transitivity (inject_Z a0' * ((inject_Z d * inject_Z h) * P * x v + inject_Z k * affv x 0 f + inject_Z a0 * inject_Z k * pval x p0)); [ring|]. rewrite <- E1. ring.
Qed.
(** ** polynomials whose value is affine *)
Lemma not_constant v l b : ordered b (Rec v l) -> (forall x y, pval x (Rec v l) == pval y (Rec v l)) -> False.
Proof.
  intros O H. pose proof O as O'. apply ordered_rec in O' as (Hv & Hn & Hl & F). rewrite last_nth in Hl.
  rewrite (zero_everywhere (nth (length l - 1) l p_zero) v) in Hl; [discriminate|rewrite Forall_forall in F; apply F, nth_In; lia|].
  intros x. rewrite <- vals_nth. assert (E : forall z, horner z (vals x l) == horner z [pval x (Rec v l)]).
  { intros z. transitivity (pval (upd x v z) (Rec v l)); [rewrite pval_rec, upd_same; symmetry; apply upd_vals; exact F|]. rewrite (H _ x). cbn [horner]. ring. }
  rewrite (horner_eq _ _ E). destruct (length l - 1)%nat as [|k] eqn:K; [lia|]. destruct k; reflexivity.
Qed.
Lemma qsum_upd (g : nat -> Q) x v z : forall b, qsum (fun i => g i * upd x v z i) b == qsum (fun i => (if Nat.eqb i v then 0 else g i) * x i) b + (if Nat.ltb v b then g v * z else 0).
Proof.
  induction b as [|b IH]; [cbn; ring|]. cbn [qsum]. rewrite IH. unfold upd. destruct (Nat.eqb_spec b v) as [->|N].
  - destruct (Nat.ltb_spec v v), (Nat.ltb_spec v (S v)); try lia. ring.
  - destruct (Nat.ltb_spec v b), (Nat.ltb_spec v (S b)); try lia; ring.
Qed.
Lemma is_affine_complete b : forall p (c : Q) (g : nat -> Q), ordered b p -> (forall x, pval x p == c + qsum (fun i => g i * x i) b) -> poly_is_affine p = Ok true.
Proof.
  induction p as [n d|v l IH] using poly_ind'; intros c g O H; [reflexivity|]. pose proof O as O'. apply ordered_rec in O' as (Hv & Hn & Hl & F).
  set (g' := fun i => if Nat.eqb i v then 0 else g i).
  assert (E : forall x z, horner z (vals x l) == horner z [c + qsum (fun i => g' i * x i) b; g v]).
  { intros x z. transitivity (pval (upd x v z) (Rec v l)); [rewrite pval_rec, upd_same; symmetry; apply upd_vals; exact F|]. rewrite H, qsum_upd. rewrite (proj2 (Nat.ltb_lt _ _) Hv). fold g'. cbn [horner]. unfold g'. ring. }
  assert (N : forall x i, pval x (nth i l p_zero) == nth i [c + qsum (fun i => g' i * x i) b; g v] 0) by (intros x i; rewrite <- vals_nth; apply horner_eq; apply E).
  rewrite last_nth in Hl. rewrite Forall_forall in F, IH.
  assert (L2 : length l = 2%nat).
  { destruct (Nat.eq_dec (length l) 2) as [Q|Q]; [exact Q|exfalso]. rewrite (zero_everywhere (nth (length l - 1) l p_zero) v) in Hl; [discriminate|apply F, nth_In; lia|].
    intros x. rewrite N. destruct (length l - 1)%nat as [|[|k]] eqn:K; [lia|lia|]. destruct k; reflexivity. }
  destruct l as [|p0 [|p1 [|]]]; try (cbn in L2; lia). cbn [poly_is_affine].
  assert (C1 : p_is_cst p1 = true).
  { destruct p1 as [|w m]; [reflexivity|]. exfalso. apply (not_constant w m v); [apply F; right; left; reflexivity|]. intros x y. rewrite (N x 1%nat), (N y 1%nat). reflexivity. }
  rewrite C1. apply (IH p0 (or_introl eq_refl) c g'); [apply (ordered_mono v); [lia|apply F; left; reflexivity]|]. intros x. apply (N x 0%nat).
Qed.

(** ** the order of polynomials *)
Lemma int_cmp_facts a b : ((int_cmp a b = 0 <-> a = b) /\ (int_cmp a b < 0 <-> a < b) /\ (0 < int_cmp a b <-> b < a))%Z.
Proof. unfold int_cmp. destruct (Z.ltb_spec a b), (Z.ltb_spec b a); lia. Qed.
Fixpoint cmp_list (l l' : list poly) : Z := match l, l' with a :: t, b :: t' => let cmp := plain_cmp a b in if negb (cmp =? 0)%Z then cmp else cmp_list t t' | _, _ => 0%Z end.
Lemma plain_cmp_rec v l w m : plain_cmp (Rec v l) (Rec w m) = (if negb (Z.of_nat v =? Z.of_nat w) then Z.of_nat v - Z.of_nat w else
  if negb (Nat.eqb (length l) (length m)) then Z.of_nat (length l) - Z.of_nat (length m) else cmp_list l m)%Z.
Proof. cbn [plain_cmp pvar]. destruct (negb _); [reflexivity|]. destruct (negb _); [reflexivity|]. reflexivity. Qed.
Lemma plain_cmp_0 : forall p q, plain_cmp p q = 0%Z <-> p = q.
Proof.
  induction p as [n d|v l IH] using poly_ind'; intros [n' d'|w m].
  - cbn [plain_cmp pvar]. rewrite Z.eqb_refl. cbn [negb]. cbv zeta. pose proof (int_cmp_facts n n'). pose proof (int_cmp_facts d d'). destruct (Z.eqb_spec (int_cmp n n') 0) as [E|E]; cbn [negb].
    + split; [intros E'; f_equal; tauto|]. intros Q; injection Q; intros; tauto.
    + split; [tauto|]. intros Q; injection Q; intros; tauto.
  - cbn [plain_cmp pvar]. destruct (Z.eqb_spec (-1) (Z.of_nat w)); [lia|]. cbn [negb]. split; [lia|discriminate].
  - cbn [plain_cmp pvar]. destruct (Z.eqb_spec (Z.of_nat v) (-1)); [lia|]. cbn [negb]. split; [lia|discriminate].
  - rewrite plain_cmp_rec. destruct (Z.eqb_spec (Z.of_nat v) (Z.of_nat w)) as [E|E]; cbn [negb]; [|split; [lia|intros Q; injection Q as -> _; lia]].
    assert (v = w) by lia. subst w. destruct (Nat.eqb_spec (length l) (length m)) as [L|L]; cbn [negb]; [|split; [lia|intros Q; injection Q as ->; lia]].
    assert (X : cmp_list l m = 0%Z <-> l = m).
    { clear E. revert m L. induction l as [|a t IHl]; intros [|b u] L; try (cbn in L; lia); [split; auto|]. inversion IH; subst. cbn [cmp_list]. cbv zeta.
      destruct (Z.eqb_spec (plain_cmp a b) 0) as [Z|Z]; cbn [negb].
      - rewrite IHl by (auto; cbn in L; lia). apply H1 in Z. subst b. split; [intros ->; reflexivity|]. intros Q; injection Q; auto.
      - split; [tauto|]. intros Q. injection Q as <- <-. exfalso. apply Z, H1. reflexivity. }
    rewrite X. split; [intros ->; reflexivity|]. intros Q; injection Q; auto.
Qed.
Lemma plain_cmp_anti : forall p q, Z.sgn (plain_cmp q p) = (- Z.sgn (plain_cmp p q))%Z.
Proof.
  induction p as [n d|v l IH] using poly_ind'; intros [n' d'|w m].
  - cbn [plain_cmp pvar]. rewrite !Z.eqb_refl. cbn [negb]. cbv zeta. unfold int_cmp. destruct (Z.ltb_spec n n'), (Z.ltb_spec n' n); try lia; cbn [Z.eqb negb]; try reflexivity. destruct (Z.ltb_spec d d'), (Z.ltb_spec d' d); try lia; reflexivity.
  - cbn [plain_cmp pvar]. destruct (Z.eqb_spec (-1) (Z.of_nat w)), (Z.eqb_spec (Z.of_nat w) (-1)); try lia. cbn [negb]. lia.
  - cbn [plain_cmp pvar]. destruct (Z.eqb_spec (Z.of_nat v) (-1)), (Z.eqb_spec (-1) (Z.of_nat v)); try lia. cbn [negb]. lia.
  - rewrite !plain_cmp_rec. destruct (Z.eqb_spec (Z.of_nat v) (Z.of_nat w)), (Z.eqb_spec (Z.of_nat w) (Z.of_nat v)); try lia; cbn [negb]; try lia.
    destruct (Nat.eqb_spec (length l) (length m)) as [L|L], (Nat.eqb_spec (length m) (length l)); try lia; cbn [negb]; try lia.
    clear - IH L. revert m L. induction l as [|a t IHl]; intros [|b u] L; try (cbn in L; lia); [reflexivity|]. inversion IH; subst. cbn [cmp_list]. cbv zeta.
    pose proof (H1 b) as A. destruct (Z.eqb_spec (plain_cmp a b) 0) as [Z|Z], (Z.eqb_spec (plain_cmp b a) 0) as [Z'|Z']; cbn [negb]; try lia. apply IHl; [assumption|cbn in L; lia].
Qed.
Lemma plain_cmp_trans : forall p q r, (plain_cmp p q < 0)%Z -> (plain_cmp q r < 0)%Z -> (plain_cmp p r < 0)%Z.
Proof.
  induction p as [n d|v l IH] using poly_ind'; intros q r.
  - destruct q as [n' d'|w m], r as [n'' d''|w' m']; cbn [plain_cmp pvar]; repeat match goal with |- context[(-1 =? Z.of_nat ?w)%Z] => destruct (Z.eqb_spec (-1) (Z.of_nat w)); [lia|] | |- context[(Z.of_nat ?w =? -1)%Z] => destruct (Z.eqb_spec (Z.of_nat w) (-1)); [lia|] end; cbn [negb]; try lia.
    rewrite !Z.eqb_refl. cbn [negb]. cbv zeta. unfold int_cmp. destruct (Z.ltb_spec n n'), (Z.ltb_spec n' n), (Z.ltb_spec n' n''), (Z.ltb_spec n'' n'), (Z.ltb_spec n n''), (Z.ltb_spec n'' n); try lia; cbn [Z.eqb negb]; try lia.
    destruct (Z.ltb_spec d d'), (Z.ltb_spec d' d), (Z.ltb_spec d' d''), (Z.ltb_spec d'' d'), (Z.ltb_spec d d''), (Z.ltb_spec d'' d); lia.
  - destruct q as [n' d'|w m].
    { cbn [plain_cmp pvar]. destruct (Z.eqb_spec (Z.of_nat v) (-1)); [lia|]. cbn [negb]. lia. }
    destruct r as [n'' d''|w' m'].
    { intros _. cbn [plain_cmp pvar]. destruct (Z.eqb_spec (Z.of_nat w) (-1)); [lia|]. cbn [negb]. lia. }
    rewrite !plain_cmp_rec. destruct (Z.eqb_spec (Z.of_nat v) (Z.of_nat w)), (Z.eqb_spec (Z.of_nat w) (Z.of_nat w')), (Z.eqb_spec (Z.of_nat v) (Z.of_nat w')); cbn [negb]; try lia.
    destruct (Nat.eqb_spec (length l) (length m)) as [L|L], (Nat.eqb_spec (length m) (length m')) as [L'|L'], (Nat.eqb_spec (length l) (length m')); cbn [negb]; try lia.
    clear - IH L L'. revert m m' L L'. induction l as [|a t IHl]; intros [|b u] [|c w] L L'; try (cbn in L, L'; lia). inversion IH; subst. cbn [cmp_list]. cbv zeta.
    destruct (Z.eqb_spec (plain_cmp a b) 0) as [Z1|Z1]; cbn [negb].
    + apply plain_cmp_0 in Z1. subst b. destruct (negb _); [auto|]. apply IHl; [assumption|cbn in L; lia|cbn in L'; lia].
    + intros C. destruct (Z.eqb_spec (plain_cmp b c) 0) as [Z2|Z2]; cbn [negb].
      * apply plain_cmp_0 in Z2. subst c. intros _. destruct (Z.eqb_spec (plain_cmp a b) 0); [lia|]. cbn [negb]. exact C.
      * intros C'. pose proof (H1 b c C C'). destruct (Z.eqb_spec (plain_cmp a c) 0); [lia|]. cbn [negb]. assumption.
Qed.
