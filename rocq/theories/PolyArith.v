(** The sum and the product of polynomials. *)
From Coq Require Import ZArith List Bool QArith Arith Lia Setoid Morphisms.
From Verif Require Import SeqModel MatModel ValModel BMapModel BMapLists LocalModel PolyModel PolySpec PolyBase.
Import ListNotations.
Open Scope Q_scope.

(** ** sum *)
(** what is required of the sum of coefficients *)
Definition sums (v : nat) (f : poly -> poly -> res poly) (a b : poly) : Prop :=
  exists s, f a b = Ok s /\ ordered v s /\ (forall x, pval x s == pval x a + pval x b) /\ (reduced a -> reduced b -> reduced s).
Lemma sum_loop_ok v f : forall k l1 l2, (k <= length l1)%nat -> (k <= length l2)%nat ->
  (forall a b, List.In a (firstn k l1) -> List.In b l2 -> sums v f a b) ->
  Forall (ordered v) l1 -> ((k < length l1)%nat -> p_is_zero (last l1 p_zero) = false) ->
  exists l, sum_loop f k l1 l2 = Ok l /\ Forall (ordered v) l /\ (l <> [] -> p_is_zero (last l p_zero) = false) /\
    (forall x z, horner z (vals x l) == horner z (vals x l1) + horner z (vals x (firstn k l2))) /\
    (Forall reduced l1 -> Forall reduced l2 -> Forall reduced l).
Proof.
  induction k as [|i IH]; intros l1 l2 H1 H2 F O Hl.
  - exists l1. split; [reflexivity|]. split; [exact O|]. split; [|split; [|auto]].
    + intros H. apply Hl. destruct l1; [congruence|cbn; lia].
    + intros x z. cbn. ring.
  - destruct (nth_error_mid l1 i) as (u & a & w & E1 & L1 & N1); [lia|].
    destruct (nth_error_mid l2 i) as (u2 & b & w2 & E2 & L2 & N2); [lia|].
    cbn [sum_loop]. rewrite N1, N2.
    assert (F1 : firstn (S i) l1 = u ++ [a]).
    { rewrite E1, <- L1. replace (u ++ a :: w) with ((u ++ [a]) ++ w) by (rewrite <- app_assoc; reflexivity).
      replace (S (length u)) with (length (u ++ [a])) by (rewrite app_length; cbn; lia). apply firstn_mid. }
    destruct (F a b) as (s & Es & Os & Vs & Rs); [rewrite F1; apply in_elt|rewrite E2; apply in_elt|]. rewrite Es. cbn [LocalModel.bind].
    assert (F2 : firstn (S i) l2 = firstn i l2 ++ [b]).
    { rewrite E2, <- L2. rewrite firstn_mid. replace (u2 ++ b :: w2) with ((u2 ++ [b]) ++ w2) by (rewrite <- app_assoc; reflexivity).
      replace (S (length u2)) with (length (u2 ++ [b])) by (rewrite app_length; cbn; lia). apply firstn_mid. }
    assert (Fi : length (firstn i l2) = i) by (rewrite firstn_length; lia).
    assert (Ou : Forall (ordered v) u) by (rewrite E1 in O; apply Forall_app in O; tauto).
    assert (Ow : Forall (ordered v) w). { rewrite E1 in O. apply Forall_app in O as [_ O']. inversion O'; auto. }
    destruct (Nat.eqb i (length l1 - 1) && p_is_zero s) eqn:C.
    + apply andb_true_iff in C as [C1 C2]. apply Nat.eqb_eq in C1.
      assert (w = []). { destruct w; [reflexivity|]. rewrite E1, app_length in C1. cbn in C1. lia. } subst w.
      replace (firstn i l1) with u by (rewrite E1, <- L1; symmetry; apply firstn_mid).
      destruct (IH u l2) as (l & A & B & C & D & R); [lia|lia| |exact Ou|lia|].
      { intros a' b' Ha Hb. rewrite firstn_all2 in Ha by lia. apply F; [rewrite F1; apply in_or_app; auto|exact Hb]. }
      exists l. split; [exact A|]. split; [exact B|]. split; [exact C|]. split.
      * intros x z. rewrite D, F2, E1, !vals_app, !horner_app, !vals_length, L1, Fi. unfold vals. cbn [map horner].
        assert (Z0 : pval x a + pval x b == 0) by (rewrite <- Vs; apply is_zero_val; exact C2).
        assert (pval x b == - pval x a) as -> by (rewrite <- (Qplus_0_l (- pval x a)), <- Z0; ring). ring.
      * intros R1 R2. apply R; [|exact R2]. rewrite E1 in R1. apply Forall_app in R1. tauto.
    + replace (lset l1 i s) with (u ++ s :: w) by (rewrite E1, <- L1; symmetry; apply lset_mid).
      assert (Ll : length (u ++ s :: w) = length l1) by (rewrite E1, !app_length; reflexivity).
      destruct (IH (u ++ s :: w) l2) as (l & A & B & C' & D & R); [lia|lia| | | |].
      { intros a' b' Ha Hb. rewrite <- L1, firstn_mid in Ha. apply F; [rewrite F1; apply in_or_app; auto|exact Hb]. }
      { apply Forall_app. split; [exact Ou|]. constructor; auto. }
      { intros Hn. rewrite last_app_cons. destruct w as [|c w'].
        - cbn. apply andb_false_iff in C as [C|C]; [|exact C]. apply Nat.eqb_neq in C. rewrite E1, app_length in C. cbn in C. lia.
        - rewrite E1, last_app_cons in Hl. cbn [last]. cbn [last] in Hl. apply Hl. rewrite app_length. cbn. lia. }
      exists l. split; [exact A|]. split; [exact B|]. split; [exact C'|]. split.
      * intros x z. rewrite D, F2, E1, !vals_app, !horner_app, !vals_length, L1, Fi. unfold vals. cbn [map horner]. rewrite Vs. ring.
      * intros R1 R2. apply R; [|exact R2]. rewrite E1 in R1. apply Forall_app in R1 as [Ra Rb]. inversion Rb; subst. apply Forall_app. split; [exact Ra|].
        constructor; [|assumption]. apply Rs; [assumption|]. apply Forall_app in R2 as [_ R2]. inversion R2; assumption.
Qed.

Definition swaps (p q : poly) : nat :=
  if (pvar p <? pvar q)%Z then 1 else if (pvar q <? pvar p)%Z then 0
  else match p, q with Rec _ l, Rec _ m => if Nat.ltb (length l) (length m) then 1 else 0 | _, _ => 0 end.
Lemma swaps_le p q : (swaps p q <= 1)%nat.
Proof. unfold swaps. destruct (pvar p <? pvar q)%Z, (pvar q <? pvar p)%Z; try lia. destruct p, q; try lia. destruct (Nat.ltb _ _); lia. Qed.
Lemma swaps_lt p q : (pvar p < pvar q)%Z -> swaps p q = 1%nat /\ swaps q p = 0%nat.
Proof. intros H. unfold swaps. rewrite (proj2 (Z.ltb_lt _ _) H). destruct (Z.ltb_spec (pvar q) (pvar p)); [lia|]. auto. Qed.
Lemma swaps_len v l m : (length l < length m)%nat -> swaps (Rec v l) (Rec v m) = 1%nat /\ swaps (Rec v m) (Rec v l) = 0%nat.
Proof. intros H. unfold swaps. cbn [pvar]. rewrite Z.ltb_irrefl. rewrite (proj2 (Nat.ltb_lt _ _) H). destruct (Nat.ltb_spec (length m) (length l)); [lia|]. auto. Qed.
Lemma sum_ok : forall f p q b, (2 * (depth p + depth q) + 1 + swaps p q <= f)%nat ->
  ordered b p -> ordered b q -> sums b (sum_f f) p q.
Proof.
  induction f as [|f IH]; intros p q b Hf Op Oq; [lia|]. unfold sums. cbn [sum_f].
  pose proof (ordered_finite _ _ Op) as Fp. pose proof (ordered_finite _ _ Oq) as Fq.
  rewrite !finite_not_nan by assumption.
  destruct (p_is_zero p) eqn:Zp.
  { exists q. split; [reflexivity|]. split; [exact Oq|]. split; [|auto]. intros x. rewrite (is_zero_val x p Zp). ring. }
  destruct (p_is_zero q) eqn:Zq.
  { exists p. split; [reflexivity|]. split; [exact Op|]. split; [|auto]. intros x. rewrite (is_zero_val x q Zq). ring. }
  assert (SW : sums b (sum_f f) q p -> exists s, sum_f f q p = Ok s /\ ordered b s /\ (forall x, pval x s == pval x p + pval x q) /\ (reduced p -> reduced q -> reduced s)).
  { intros (s & A & B & C & D). exists s. split; [exact A|]. split; [exact B|]. split; [|auto]. intros x. rewrite C. ring. }
  destruct (Z.ltb_spec (pvar p) (pvar q)) as [L|L].
  { apply SW. destruct (swaps_lt p q L). apply IH; [lia|exact Oq|exact Op]. }
  destruct (Z.ltb_spec (pvar q) (pvar p)) as [M|M].
  - destruct (finite_not_inf q Fq) as [-> ->]. cbn [orb].
    destruct p as [n d|v l]; [destruct q; cbn in M; lia|]. pose proof (proj1 (ordered_rec b v l) Op) as (Hv & Hn & Hl & F).
    destruct l as [|a t]; [cbn in Hn; lia|]. inversion F as [|a0 t0 Oa Ot]; subst a0 t0.
    pose proof (depth_in v (a :: t) a (or_introl eq_refl)) as Da. pose proof (swaps_le a q).
    destruct (IH a q v) as (s & Es & Os & Vs & Rs); [lia|exact Oa|exact (ordered_at b q v Oq M)|].
    rewrite Es. cbn [LocalModel.bind]. destruct (Nat.eqb_spec (length (a :: t)) 1) as [E|E]; [lia|].
    eexists. split; [reflexivity|]. split; [|split].
    + apply ordered_rec. split; [exact Hv|]. split; [exact Hn|]. split; [|constructor; auto]. destruct t; [cbn in Hn; lia|exact Hl].
    + intros x. rewrite !pval_rec. unfold vals. cbn [map horner]. rewrite Vs. ring.
    + rewrite !reduced_rec. intros R1 R2. inversion R1; subst. constructor; auto.
  - destruct p as [n1 d1|v l1], q as [n2 d2|v' l2]; try (cbn [pvar] in L, M; lia).
    + destruct (sum_cst_spec n1 d1 n2 d2 (fun _ => 0)) as (n & d & A & B & C & _); [exact Op|exact Oq|]. exists (Cst n d). rewrite A. split; [reflexivity|].
      split; [exact B|]. split; [|intros _ _; exact C]. intros x. destruct (sum_cst_spec n1 d1 n2 d2 x Op Oq) as (n' & d' & A' & _ & _ & D'). rewrite A in A'. injection A' as <- <-. exact D'.
    + assert (v' = v) by (cbn [pvar] in L, M; lia). subst v'. destruct (Nat.ltb_spec (length l1) (length l2)) as [N|N].
      { apply SW. destruct (swaps_len v l1 l2 N). apply IH; [lia|exact Oq|exact Op]. }
      pose proof (proj1 (ordered_rec b v l1) Op) as (Hv & Hn1 & Hl1 & F1). pose proof (proj1 (ordered_rec b v l2) Oq) as (_ & Hn2 & Hl2 & F2).
      destruct (sum_loop_ok v (sum_f f) (length l2) l1 l2) as (l & A & B & C & D & R); [exact N|lia| |exact F1|auto|].
      { intros a c Ha Hc. assert (Ha' : List.In a l1) by (rewrite <- (firstn_skipn (length l2) l1); apply in_or_app; auto).
        pose proof (depth_in v l1 a Ha'). pose proof (depth_in v l2 c Hc). pose proof (swaps_le a c). rewrite Forall_forall in F1, F2. apply IH; [lia|auto|auto]. }
      rewrite A. cbn [LocalModel.bind]. rewrite firstn_all in D. assert (D' : forall x, horner (x v) (vals x l) == pval x (Rec v l1) + pval x (Rec v l2)) by (intros x; rewrite D, !pval_rec; reflexivity).
      eexists. split; [reflexivity|]. destruct l as [|a [|c t]].
      * split; [cbn; lia|]. split; [|intros; reflexivity]. intros x. rewrite <- D'. reflexivity.
      * inversion B; subst. split; [apply (ordered_mono v); [lia|assumption]|]. split; [intros x; rewrite <- D'; unfold vals; cbn [map horner]; ring|].
        rewrite !reduced_rec. intros R1 R2. specialize (R R1 R2). inversion R; assumption.
      * split; [apply ordered_rec; split; [exact Hv|]; split; [cbn; lia|]; split; [apply C; discriminate|exact B]|]. split; [intros x; rewrite pval_rec; apply D'|].
        rewrite !reduced_rec. exact R.
Qed.
Lemma poly_sum_ok p q b : ordered b p -> ordered b q -> sums b poly_sum p q.
Proof. intros. unfold sums, poly_sum. apply sum_ok; auto. unfold p_fuel. pose proof (swaps_le p q). lia. Qed.

(** ** product *)
Definition prods (v : nat) (f : poly -> poly -> res poly) (a b : poly) : Prop :=
  exists m, f a b = Ok m /\ ordered v m /\ (forall x, pval x m == pval x a * pval x b) /\ (reduced a -> reduced b -> reduced m) /\
    (p_is_zero a = false -> p_is_zero b = false -> p_is_zero m = false).
Lemma prods_comm v f a b : prods v f b a -> exists m, f b a = Ok m /\ ordered v m /\ (forall x, pval x m == pval x a * pval x b) /\ (reduced a -> reduced b -> reduced m) /\
    (p_is_zero a = false -> p_is_zero b = false -> p_is_zero m = false).
Proof. intros (m & A & B & C & D & E). exists m. split; [exact A|]. split; [exact B|]. split; [intros x; rewrite C; ring|]. auto. Qed.
Lemma mapr_ok v f c (G N : Prop) : forall l,
  (forall a, List.In a l -> exists m, f a = Ok m /\ ordered v m /\ (forall x, pval x m == c x * pval x a) /\ (reduced a -> G -> reduced m) /\ (p_is_zero a = false -> N -> p_is_zero m = false)) ->
  exists l', mapr f l = Ok l' /\ length l' = length l /\ Forall (ordered v) l' /\ (forall x z, horner z (vals x l') == c x * horner z (vals x l)) /\
    (Forall reduced l -> G -> Forall reduced l') /\ (p_is_zero (last l p_zero) = false -> N -> p_is_zero (last l' p_zero) = false).
Proof.
  induction l as [|a t IH]; intros H.
  - exists []. split; [reflexivity|]. split; [reflexivity|]. split; [constructor|]. split; [intros; cbn; ring|]. split; auto.
  - destruct (H a (or_introl eq_refl)) as (m & A & B & C & D & E). destruct IH as (l' & A' & L & B' & C' & D' & E'); [intros; apply H; right; assumption|].
    cbn [mapr]. rewrite A. cbn [LocalModel.bind]. rewrite A'. cbn [LocalModel.bind]. exists (m :: l'). split; [reflexivity|]. split; [cbn; lia|].
    split; [constructor; assumption|]. split; [intros x z; cbn [vals map horner]; unfold vals in C'; rewrite C, C'; ring|].
    split; [intros R g; inversion R; subst; constructor; auto|]. destruct t as [|b t]; [destruct l'; [|cbn in L; lia]; exact E|].
    destruct l' as [|b' t']; [cbn in L; lia|]. exact E'.
Qed.
Lemma sum_zero m : finite m -> poly_sum p_zero m = Ok m.
Proof. intros F. unfold poly_sum, p_fuel. rewrite Nat.add_comm. cbn [Nat.add sum_f]. rewrite (finite_not_nan m F). reflexivity. Qed.
Lemma mul_inner_ok v mul a i : forall l2 j r, (i + j + length l2 <= length r)%nat -> Forall (ordered v) r -> (forall b, List.In b l2 -> prods v mul b a) ->
  exists r', mul_inner mul a i j l2 r = Ok r' /\ length r' = length r /\ Forall (ordered v) r' /\
    (forall x z, horner z (vals x r') == horner z (vals x r) + pw z (i + j) * pval x a * horner z (vals x l2)) /\
    (reduced a -> Forall reduced l2 -> Forall reduced r -> Forall reduced r') /\
    (forall k, (i + j + length l2 <= k)%nat \/ (k < i + j)%nat -> nth k r' p_zero = nth k r p_zero) /\
    (l2 <> [] -> p_is_zero a = false -> p_is_zero (last l2 p_zero) = false -> nth (i + j + length l2 - 1) r p_zero = p_zero ->
       p_is_zero (nth (i + j + length l2 - 1) r' p_zero) = false).
Proof.
  induction l2 as [|b t IH]; intros j r Hr O H.
  - exists r. split; [reflexivity|]. split; [reflexivity|]. split; [exact O|]. split; [intros; cbn; ring|]. split; [auto|]. split; [auto|congruence].
  - destruct (H b (or_introl eq_refl)) as (m & A & B & C & D & E). cbn [length] in *.
    destruct (nth_error_mid r (i + j)) as (u & c & w & E1 & L1 & N1); [lia|]. cbn [mul_inner]. rewrite A. cbn [LocalModel.bind]. rewrite N1.
    assert (Oc : ordered v c /\ Forall (ordered v) u /\ Forall (ordered v) w).
    { rewrite E1 in O. apply Forall_app in O as [Ou O]. inversion O; auto. } destruct Oc as (Oc & Ou & Ow).
    destruct (poly_sum_ok c m v Oc B) as (s & As & Os & Vs & Rs). rewrite As. cbn [LocalModel.bind].
    assert (El : lset r (i + j) s = u ++ s :: w) by (rewrite E1, <- L1; apply lset_mid). rewrite El.
    assert (Len : length (u ++ s :: w) = length r) by (rewrite E1, !app_length; reflexivity).
    destruct (IH (S j) (u ++ s :: w)) as (r' & A' & L' & O' & V' & R' & K' & Z').
    { lia. } { apply Forall_app. split; [exact Ou|constructor; assumption]. } { intros; apply H; right; assumption. }
    assert (Kn : forall k, k <> (i + j)%nat -> nth k (u ++ s :: w) p_zero = nth k r p_zero).
    { intros k Hk. rewrite E1. destruct (Nat.lt_ge_cases k (length u)) as [X|X]; [rewrite !app_nth1 by lia; reflexivity|].
      rewrite !app_nth2 by lia. destruct (k - length u)%nat eqn:Ek; [lia|reflexivity]. }
    exists r'. split; [exact A'|]. split; [lia|]. split; [exact O'|]. split; [|split; [|split]].
    + intros x z. rewrite V', E1, !vals_app, !horner_app, !vals_length, L1. rewrite Nat.add_succ_r. unfold vals. cbn [map horner pw]. rewrite Vs, C. ring.
    + intros Ra R2 Rr. inversion R2; subst b t. apply R'; [exact Ra|assumption|]. rewrite E1 in Rr. apply Forall_app in Rr as [Ru Rw]. inversion Rw; subst.
      apply Forall_app. split; [exact Ru|]. constructor; [|assumption]. auto.
    + intros k Hk. rewrite K' by lia. apply Kn. lia.
    + intros _ Za Zl Zr. destruct t as [|b' t'].
      * cbn [length] in *. replace (i + j + 1 - 1)%nat with (i + j)%nat in * by lia. rewrite K' by lia.
        assert (c = p_zero). { rewrite E1, <- L1 in Zr. rewrite app_nth2, Nat.sub_diag in Zr by lia. exact Zr. } subst c.
        rewrite sum_zero in As by (eapply ordered_finite; exact B). injection As as ->. rewrite <- L1, app_nth2, Nat.sub_diag by lia. apply E; [exact Zl|exact Za].
      * cbn [length] in *. replace (i + j + S (S (length t')) - 1)%nat with (i + S j + S (length t') - 1)%nat by lia. apply Z'; [discriminate|exact Za|exact Zl|].
        rewrite Kn by lia. etransitivity; [|exact Zr]. f_equal. lia.
Qed.
Lemma mul_outer_ok v mul l2 : l2 <> [] -> forall l1 i r, (i + length l1 + length l2 <= length r)%nat -> Forall (ordered v) r ->
  (forall a b, List.In a l1 -> List.In b l2 -> prods v mul b a) ->
  exists r', mul_outer mul i l1 l2 r = Ok r' /\ length r' = length r /\ Forall (ordered v) r' /\
    (forall x z, horner z (vals x r') == horner z (vals x r) + pw z i * z * horner z (vals x l1) * horner z (vals x l2)) /\
    (Forall reduced l1 -> Forall reduced l2 -> Forall reduced r -> Forall reduced r') /\
    (l1 <> [] -> p_is_zero (last l1 p_zero) = false -> p_is_zero (last l2 p_zero) = false -> nth (i + length l1 - 1 + length l2) r p_zero = p_zero ->
       p_is_zero (nth (i + length l1 - 1 + length l2) r' p_zero) = false).
Proof.
  intros N2. induction l1 as [|a t IH]; intros i r Hr O H.
  - exists r. split; [reflexivity|]. split; [reflexivity|]. split; [exact O|]. split; [intros; cbn; ring|]. split; [auto|congruence].
  - cbn [length] in *. destruct (mul_inner_ok v mul a i l2 1 r) as (r1 & A & L & O1 & V & R & K & Z1); [lia|exact O|intros; apply H; [left; reflexivity|assumption]|].
    destruct (IH (S i) r1) as (r' & A' & L' & O' & V' & R' & Z'); [lia|exact O1|intros; apply H; [right|]; assumption|].
    cbn [mul_outer]. rewrite A. cbn [LocalModel.bind]. exists r'. split; [exact A'|]. split; [lia|]. split; [exact O'|]. split; [|split].
    + intros x z. rewrite V', V, pw_add. unfold vals. cbn [map horner pw]. ring.
    + intros R1 R2 Rr. inversion R1; subst. auto.
    + intros _ Zl Z2 Zr. destruct t as [|a' t'].
      * cbn [mul_outer] in A'. injection A' as <-. cbn [length] in *. replace (i + 1 - 1 + length l2)%nat with (i + 1 + length l2 - 1)%nat in * by lia. apply Z1; assumption.
      * cbn [length] in *. replace (i + S (S (length t')) - 1 + length l2)%nat with (S i + S (length t') - 1 + length l2)%nat in * by lia.
        apply Z'; [discriminate|exact Zl|exact Z2|]. rewrite K; [exact Zr|]. lia.
Qed.
Lemma last_nth {A} (l : list A) d : last l d = nth (length l - 1) l d.
Proof. induction l as [|a [|b t] IH]; [reflexivity|reflexivity|]. change (last (a :: b :: t) d) with (last (b :: t) d). rewrite IH. cbn [length]. replace (S (S (length t)) - 1)%nat with (S (S (length t) - 1))%nat by lia. reflexivity. Qed.
Lemma mul_rec_ok v b mul l1 l2 : (v < b)%nat -> (2 <= length l1)%nat -> (2 <= length l2)%nat ->
  p_is_zero (last l1 p_zero) = false -> p_is_zero (last l2 p_zero) = false ->
  (forall a c, List.In a l1 -> List.In c l2 -> prods v mul c a) ->
  exists m, mul_rec mul v l1 l2 = Ok m /\ ordered b m /\ (forall x, pval x m == pval x (Rec v l1) * pval x (Rec v l2)) /\
    (Forall reduced l1 -> Forall reduced l2 -> reduced m) /\ p_is_zero m = false.
Proof.
  intros Hv H1 H2 Z1 Z2 H. destruct l2 as [|c t]; [cbn in H2; lia|]. cbn [mul_rec].
  destruct (mapr_ok v (fun a => mul c a) (fun x => pval x c) (reduced c) (p_is_zero c = false) l1) as (r & A & L & O & V & R & _).
  { intros a Ha. destruct (H a c Ha (or_introl eq_refl)) as (m & A & B & C & D & E). exists m. split; [exact A|]. split; [exact B|]. split; [exact C|]. split; auto. }
  rewrite A. cbn [LocalModel.bind]. cbn [length] in H2.
  assert (Ht : t <> []) by (destruct t; [cbn in H2; lia|discriminate]).
  destruct (mul_outer_ok v mul t Ht l1 0 (r ++ repeat p_zero (length t))) as (r' & A' & L' & O' & V' & R' & Z').
  { rewrite app_length, repeat_length. lia. }
  { apply Forall_app. split; [exact O|]. apply Forall_forall. intros y Hy. apply repeat_spec in Hy. subst y. cbn. lia. }
  { intros a d Ha Hd. apply H; [exact Ha|right; exact Hd]. }
  rewrite A'. cbn [LocalModel.bind]. rewrite app_length, repeat_length in L'.
  assert (Vz : forall x, horner (x v) (vals x (repeat p_zero (length t))) == 0).
  { intros x. clear. induction (length t) as [|k IH]; [reflexivity|]. unfold vals in *. cbn [repeat map horner]. rewrite IH. cbn. ring. }
  exists (Rec v r'). split; [reflexivity|]. split; [|split; [|split; [|reflexivity]]].
  - apply ordered_rec. split; [exact Hv|]. split; [lia|]. split; [|exact O'].
    rewrite last_nth. replace (length r' - 1)%nat with (0 + length l1 - 1 + length t)%nat by lia. apply Z'; [destruct l1; [cbn in H1; lia|discriminate]|exact Z1|destruct t; [congruence|exact Z2]|].
    rewrite app_nth2 by lia. apply nth_repeat.
  - intros x. rewrite !pval_rec, V', vals_app, horner_app, V, Vz. unfold vals. cbn [map horner pw]. ring.
  - intros R1 R2. inversion R2; subst. apply reduced_rec. apply R'; [exact R1|assumption|]. apply Forall_app. split; [auto|].
    apply Forall_forall. intros y Hy. apply repeat_spec in Hy. subst y. reflexivity.
Qed.
Definition mswaps (p q : poly) : nat := if (pvar p <? pvar q)%Z then 1 else 0.
Lemma mul_ok : forall f p q b, (2 * (depth p + depth q) + 1 + mswaps p q <= f)%nat ->
  ordered b p -> ordered b q -> prods b (mul_f f) p q.
Proof.
  induction f as [|f IH]; intros p q b Hf Op Oq; [lia|]. unfold prods. cbn [mul_f].
  assert (ML : forall p q, (mswaps p q <= 1)%nat) by (intros; unfold mswaps; destruct (_ <? _)%Z; lia).
  pose proof (ordered_finite _ _ Op) as Fp. pose proof (ordered_finite _ _ Oq) as Fq.
  rewrite !finite_not_nan by assumption.
  destruct (p_is_zero p) eqn:Zp.
  { exists p. split; [reflexivity|]. split; [exact Op|]. split; [|split; [auto|congruence]]. intros x. rewrite (is_zero_val x p Zp). ring. }
  destruct (p_is_zero q) eqn:Zq.
  { exists q. split; [reflexivity|]. split; [exact Oq|]. split; [|split; [auto|congruence]]. intros x. rewrite (is_zero_val x q Zq). ring. }
  destruct (p_is_one p) eqn:U.
  { exists q. split; [reflexivity|]. split; [exact Oq|]. split; [|split; [auto|congruence]]. intros x. rewrite (is_one_val x p U). ring. }
  destruct (p_is_one q) eqn:W.
  { exists p. split; [reflexivity|]. split; [exact Op|]. split; [|split; [auto|congruence]]. intros x. rewrite (is_one_val x q W). ring. }
  destruct (Z.ltb_spec (pvar p) (pvar q)) as [L|L].
  { assert (X : prods b (mul_f f) q p); [|apply prods_comm in X; rewrite Zp, Zq in X; exact X]. apply IH; [|exact Oq|exact Op]. unfold mswaps in *. destruct (Z.ltb_spec (pvar p) (pvar q)); [|lia]. destruct (Z.ltb_spec (pvar q) (pvar p)); lia. }
  destruct (Z.ltb_spec (pvar q) (pvar p)) as [M|M].
  - destruct (finite_not_inf q Fq) as [-> ->]. cbn [orb].
    destruct p as [n d|v l]; [destruct q; cbn in M; lia|]. pose proof (proj1 (ordered_rec b v l) Op) as (Hv & Hn & Hl & F).
    destruct (mapr_ok v (fun a => mul_f f a q) (fun x => pval x q) (reduced q) (p_is_zero q = false) l) as (l' & A & Ll & O & V & R & Z').
    { intros a Ha. rewrite Forall_forall in F. pose proof (depth_in v l a Ha). pose proof (ML a q).
      destruct (IH a q v) as (m & A & B & C & D & E); [lia|apply F; exact Ha|exact (ordered_at b q v Oq M)|].
      exists m. split; [exact A|]. split; [exact B|]. split; [intros x; rewrite C; ring|]. split; assumption. }
    rewrite A. cbn [LocalModel.bind]. exists (Rec v l'). split; [reflexivity|]. split; [|split; [|split; [|reflexivity]]].
    + apply ordered_rec. split; [exact Hv|]. split; [lia|]. split; [auto|exact O].
    + intros x. rewrite !pval_rec, V. ring.
    + rewrite !reduced_rec. exact R.
  - destruct p as [n1 d1|v l1], q as [n2 d2|v' l2]; try (cbn [pvar] in L, M; lia).
    + destruct (mul_cst_spec n1 d1 n2 d2 (fun _ => 0)) as (n & d & A & B & C & D); [exact Op|exact Oq|]. exists (Cst n d). rewrite A. split; [reflexivity|].
      split; [exact B|]. split; [|split; [intros _ _; exact C|]].
      { intros x. destruct (mul_cst_spec n1 d1 n2 d2 x Op Oq) as (n' & d' & A' & _ & _ & D'). rewrite A in A'. injection A' as <- <-. exact D'. }
      intros _ _. destruct (p_is_zero (Cst n d)) eqn:Z; [|reflexivity]. exfalso. apply (cst_zero_val n d (fun _ => 0) B) in Z. rewrite Z in D. symmetry in D.
      apply Qmult_integral in D as [D|D]; apply cst_zero_val in D; try assumption; congruence.
    + assert (v' = v) by (cbn [pvar] in L, M; lia). subst v'.
      pose proof (proj1 (ordered_rec b v l1) Op) as (Hv & Hn1 & Hl1 & F1). pose proof (proj1 (ordered_rec b v l2) Oq) as (_ & Hn2 & Hl2 & F2).
      destruct (mul_rec_ok v b (mul_f f) l1 l2 Hv Hn1 Hn2 Hl1 Hl2) as (m & A & B & C & D & E).
      { intros a c Ha Hc. rewrite Forall_forall in F1, F2. pose proof (depth_in v l1 a Ha). pose proof (depth_in v l2 c Hc). pose proof (ML c a). apply IH; [lia|auto|auto]. }
      exists m. split; [exact A|]. split; [exact B|]. split; [exact C|]. split; [rewrite !reduced_rec; exact D|auto].
Qed.
Lemma poly_mul_ok p q b : ordered b p -> ordered b q -> prods b poly_mul p q.
Proof. intros. unfold prods, poly_mul. apply mul_ok; auto. unfold p_fuel. assert (mswaps p q <= 1)%nat by (unfold mswaps; destruct (_ <? _)%Z; lia). lia. Qed.
