(** The factor of isl_mat_right_inverse is the smallest one. *)
From Coq Require Import ZArith List Bool Lia Arith ZifyBool.
From Verif Require Import SeqModel SeqSpec SeqProofs MatModel MatSpec MatTheory HermiteProofs HermiteProofs2 InverseProofs.
Import ListNotations.
Open Scope Z_scope.

Ltac ites := repeat match goal with |- context [Nat.eqb ?a ?b] => destruct (Nat.eqb_spec a b); subst end.
Section Min.
Variables (nr nc : nat).
(** a covector applied to a column *)
Definition cv (U : list (list Z)) (g : nat -> Z) (c : nat) : Z := sumn nc (fun r => g r * get U r c).
(** the columns from [row] on have a dual basis that vanishes on the others;
    each of the others is primitive modulo the former *)
Definition prim (row : nat) (U : list (list Z)) : Prop := exists W F : nat -> nat -> Z,
  (forall k c, (row <= k < nc)%nat -> (c < nc)%nat -> cv U (W k) c = Id k c) /\
  (forall i, (i < row)%nat -> cv U (F i) i = 1 /\ forall k, (row <= k < nc)%nat -> cv U (F i) k = 0).

Lemma cv_ext U U' g c c' : (forall r, (r < nc)%nat -> get U' r c' = get U r c) -> cv U' g c' = cv U g c.
Proof. intros H. apply sumn_ext. intros r Hr. rewrite H by exact Hr. reflexivity. Qed.
Lemma cv_comb U U' g c i j x y : (forall r, (r < nc)%nat -> get U' r c = x * get U r i + y * get U r j) -> cv U' g c = x * cv U g i + y * cv U g j.
Proof.
  intros H. unfold cv. rewrite <- !sumn_mul, <- sumn_add. apply sumn_ext. intros r Hr. rewrite H by exact Hr. ring.
Qed.
Lemma cv_lin U g h x y c : cv U (fun r => x * g r + y * h r) c = x * cv U g c + y * cv U h c.
Proof. unfold cv. rewrite <- !sumn_mul, <- sumn_add. apply sumn_ext. intros. ring. Qed.

Lemma exchange_prim s row r0 i j : (row <= i < nc)%nat -> (row <= j < nc)%nat -> prim row (hU s) -> prim row (hU (exchange nr nc s r0 i j)).
Proof.
  intros Hi Hj (W & F & HW & HF). exists (fun k => W (swp i j k)), F.
  assert (E : forall g c, (c < nc)%nat -> cv (hU (exchange nr nc s r0 i j)) g c = cv (hU s) g (swp i j c)).
  { intros g c Hc. apply cv_ext. intros r Hr. unfold exchange, mat_swap_cols. cbn [hU]. rewrite get_tab by assumption. unfold swp.
    destruct (Nat.eqb c i); [reflexivity|]. destruct (Nat.eqb c j); reflexivity. }
  assert (Hs : forall k, (row <= k < nc)%nat -> (row <= swp i j k < nc)%nat).
  { intros k Hk. unfold swp. destruct (Nat.eqb k i), (Nat.eqb k j); lia. }
  split.
  - intros k c Hk Hc. rewrite E by exact Hc. rewrite (HW (swp i j k) (swp i j c) (Hs k Hk) (swp_lt i j c nc ltac:(lia) ltac:(lia) Hc)). unfold Id.
    destruct (Nat.eqb_spec (swp i j k) (swp i j c)) as [e|e], (Nat.eqb_spec k c) as [e'|e']; try reflexivity; exfalso.
    + apply e'. rewrite <- (swp_invol i j k), e. apply swp_invol.
    + apply e. congruence.
  - intros k Hk. destruct (HF k Hk) as (F1 & F2). split.
    + rewrite E by lia. replace (swp i j k) with k; [exact F1|]. unfold swp. destruct (Nat.eqb_spec k i), (Nat.eqb_spec k j); lia.
    + intros k' Hk'. rewrite E by lia. apply F2. apply Hs. exact Hk'.
Qed.
Lemma subtract_prim s row r0 i j m : (row <= i < nc)%nat -> (row <= j < nc)%nat -> i <> j -> prim row (hU s) -> prim row (hU (subtract nr nc s r0 i j m)).
Proof.
  intros Hi Hj Hij (W & F & HW & HF). exists (fun k => if Nat.eqb k i then (fun r => 1 * W i r + m * W j r) else W k), F.
  assert (E : forall g c, (c < nc)%nat -> cv (hU (subtract nr nc s r0 i j m)) g c = if Nat.eqb c j then cv (hU s) g j - m * cv (hU s) g i else cv (hU s) g c).
  { intros g c Hc. destruct (Nat.eqb_spec c j) as [->|].
    - rewrite (cv_comb (hU s) _ g j j i 1 (- m)); [ring|]. intros r Hr. unfold subtract. cbn [hU]. rewrite get_tab by assumption. rewrite Nat.eqb_refl. ring.
    - apply cv_ext. intros r Hr. unfold subtract. cbn [hU]. rewrite get_tab by assumption. destruct (Nat.eqb_spec c j); [contradiction|reflexivity]. }
  split.
  - intros k c Hk Hc. rewrite E by exact Hc. destruct (Nat.eqb_spec k i) as [->|Hki].
    + rewrite !cv_lin, !HW by lia. unfold Id. destruct (Nat.eqb_spec c j) as [->|]; ites; try lia.
    + rewrite !HW by lia. unfold Id. ites; try lia.
  - intros k Hk. destruct (HF k Hk) as (F1 & F2). split.
    + rewrite E by lia. destruct (Nat.eqb_spec k j); [lia|exact F1].
    + intros k' Hk'. rewrite E by lia. rewrite !F2 by lia. destruct (Nat.eqb k' j); ring.
Qed.
Lemma oppose_prim s row r0 j : (row <= j < nc)%nat -> prim row (hU s) -> prim row (hU (oppose nr nc s r0 j)).
Proof.
  intros Hj (W & F & HW & HF). exists (fun k => if Nat.eqb k j then (fun r => -1 * W j r + 0 * W j r) else W k), F.
  assert (E : forall g c, (c < nc)%nat -> cv (hU (oppose nr nc s r0 j)) g c = if Nat.eqb c j then - cv (hU s) g j else cv (hU s) g c).
  { intros g c Hc. destruct (Nat.eqb_spec c j) as [->|].
    - rewrite (cv_comb (hU s) _ g j j j (-1) 0); [ring|]. intros r Hr. unfold oppose. cbn [hU]. rewrite get_tab by assumption. rewrite Nat.eqb_refl. ring.
    - apply cv_ext. intros r Hr. unfold oppose. cbn [hU]. rewrite get_tab by assumption. destruct (Nat.eqb_spec c j); [contradiction|reflexivity]. }
  split.
  - intros k c Hk Hc. rewrite E by exact Hc. destruct (Nat.eqb_spec k j) as [->|Hki].
    + rewrite !cv_lin, !HW by lia. unfold Id. ites; try lia.
    + rewrite !HW by lia. unfold Id. ites; try lia.
  - intros k Hk. destruct (HF k Hk) as (F1 & F2). split.
    + rewrite E by lia. destruct (Nat.eqb_spec k j); [lia|exact F1].
    + intros k' Hk'. rewrite E by lia. rewrite !F2 by lia. destruct (Nat.eqb k' j); ring.
Qed.

Lemma euclid_prim row : (row < nr)%nat -> (row < nc)%nat -> forall fuel s first s', wf nr nc (hM s) -> prim row (hU s) -> (row < first)%nat ->
  euclid_cols fuel nr nc s row row first = Some s' -> wf nr nc (hM s') /\ prim row (hU s').
Proof.
  intros Hrow Hcol. induction fuel as [|fuel IH]; intros s first s' W P Hf; cbn [euclid_cols]; [discriminate|].
  pose proof (first_non_zero_ok (skipn first (mrow (hM s) row))) as F.
  destruct (seq_first_non_zero (skipn first (mrow (hM s) row))) as [off|]; [|intros [= <-]; auto].
  destruct F as (F1 & _ & _). rewrite skipn_length in F1. rewrite (proj2 W row Hrow) in F1.
  set (c := fdiv_q _ _). set (s1 := subtract nr nc s row row (first + off) c).
  assert (P1 : prim row (hU s1)) by (apply subtract_prim; auto; lia).
  destruct (negb _).
  - apply IH; [apply wf_tab|apply exchange_prim; auto; lia|lia].
  - apply IH; [apply wf_tab|exact P1|lia].
Qed.
Lemma pivot_prim row s s' : (row < nr)%nat -> wf nr nc (hM s) -> prim row (hU s) ->
  pivot_row nr nc s row row = Some (Some s') -> (row < nc)%nat /\ wf nr nc (hM s') /\ prim row (hU s').
Proof.
  intros Hrow W P. unfold pivot_row.
  pose proof (abs_min_ok (skipn row (mrow (hM s) row))) as F.
  destruct (seq_abs_min_non_zero (skipn row (mrow (hM s) row))) as [k|]; [|discriminate].
  destruct F as (F1 & _ & _). rewrite skipn_length in F1. rewrite (proj2 W row Hrow) in F1.
  set (s1 := if negb (Nat.eqb (k + row) row) then exchange nr nc s row (k + row) row else s).
  assert (W1 : wf nr nc (hM s1)) by (unfold s1; destruct (negb _); [apply wf_tab|exact W]).
  assert (P1 : prim row (hU s1)) by (unfold s1; destruct (negb _); [apply exchange_prim; auto; lia|exact P]).
  set (s2 := if get (hM s1) row row <? 0 then oppose nr nc s1 row row else s1).
  assert (W2 : wf nr nc (hM s2)) by (unfold s2; destruct (_ <? _); [apply wf_tab|exact W1]).
  assert (P2 : prim row (hU s2)) by (unfold s2; destruct (_ <? _); [apply oppose_prim; auto; lia|exact P1]).
  destruct (euclid_cols _ nr nc s2 row row (S row)) as [s3|] eqn:E; [|discriminate]. intros [= <-].
  split; [lia|]. apply (euclid_prim row Hrow ltac:(lia)) in E; auto; lia.
Qed.

(** clearing the columns before [row] *)
Definition prim_part (row t : nat) (U : list (list Z)) : Prop := exists W F : nat -> nat -> Z,
  (forall k c, (row < k < nc)%nat -> (c < nc)%nat -> cv U (W k) c = Id k c) /\
  (forall c, (t <= c < nc)%nat -> cv U (W row) c = Id row c) /\
  (forall i, (i < row)%nat -> cv U (F i) i = 1 /\ forall k, (row < k < nc)%nat \/ (k = row /\ t <= i)%nat -> cv U (F i) k = 0).

Lemma clear_prim row t s : (row < nr)%nat -> (row < nc)%nat -> (t < row)%nat -> wf nr nc (hM s) -> prim_part row t (hU s) ->
  wf nr nc (hM (clear_col nr nc row s t)) /\ prim_part row (S t) (hU (clear_col nr nc row s t)).
Proof.
  intros Hrow Hcol Ht Wf (W & F & HW & HR & HF). unfold clear_col.
  destruct (Z.eqb_spec (get (hM s) row t) 0) as [E0|E0].
  { split; [exact Wf|]. exists W, F. split; [exact HW|]. split; [intros c Hc; apply HR; lia|].
    intros i Hi. destruct (HF i Hi) as (F1 & F2). split; [exact F1|]. intros k Hk. apply F2. lia. }
  split; [apply wf_tab|]. cbn [hU]. set (p := get (hM s) row row) in *. set (x := get (hM s) row t) in *.
  set (g := Z.gcd p x). set (a := divexact p g). set (b := divexact x g).
  assert (Hg : g <> 0). { intros e. apply Z.gcd_eq_0_r in e. contradiction. }
  assert (Hab : exists u v, u * - a + v * b = 1).
  { destruct (Z.gcd_bezout p x g eq_refl) as (u & v & Huv). exists (- u), v.
    destruct (Z.gcd_divide_l p x) as [q Hq]. destruct (Z.gcd_divide_r p x) as [q' Hq']. fold g in Hq, Hq'.
    unfold a, b, divexact. rewrite Hq, Hq'. rewrite !Z.div_mul by exact Hg.
    assert (g * (u * q + v * q' - 1) = 0) as Z0 by (rewrite Hq, Hq' in Huv; lia). apply Z.mul_eq_0 in Z0. destruct Z0; [contradiction|lia]. }
  destruct Hab as (u & v & Huv).
  set (U' := mat_col_combine nc nc (hU s) t (- a) t b row).
  assert (E : forall h c, (c < nc)%nat -> cv U' h c = if Nat.eqb c t then - a * cv (hU s) h t + b * cv (hU s) h row else cv (hU s) h c).
  { intros h c Hc. destruct (Nat.eqb_spec c t) as [->|].
    - apply cv_comb. intros r Hr. unfold U', mat_col_combine. rewrite get_tab by assumption. rewrite Nat.eqb_refl. ring.
    - apply cv_ext. intros r Hr. unfold U', mat_col_combine. rewrite get_tab by assumption. destruct (Nat.eqb_spec c t); [contradiction|reflexivity]. }
  exists W, (fun i => if Nat.eqb i t then (fun r => u * F t r + v * W row r) else F i). split; [|split].
  - intros k c Hk Hc. rewrite E by exact Hc. rewrite !HW by lia. unfold Id. ites; try lia.
  - intros c Hc. rewrite E by lia. destruct (Nat.eqb_spec c t); [lia|]. apply HR. lia.
  - intros i Hi. destruct (Nat.eqb_spec i t) as [->|Hit].
    + destruct (HF t Hi) as (F1 & F2). split.
      * rewrite E by lia. rewrite Nat.eqb_refl, !cv_lin, F1, (F2 row), !HR by lia. unfold Id. rewrite Nat.eqb_refl.
        destruct (Nat.eqb_spec row t); [lia|]. transitivity (u * - a + v * b); [ring|exact Huv].
      * intros k Hk. rewrite E by lia. destruct (Nat.eqb_spec k t); [lia|]. rewrite cv_lin, F2, HR by lia. unfold Id.
        destruct (Nat.eqb_spec row k); [lia|ring].
    + destruct (HF i Hi) as (F1 & F2). split; [rewrite E by lia; destruct (Nat.eqb_spec i t); [contradiction|exact F1]|].
      intros k Hk. rewrite E by lia. destruct (Nat.eqb_spec k t); [lia|]. apply F2. lia.
Qed.
Lemma clear_all_prim row s : (row < nr)%nat -> (row < nc)%nat -> wf nr nc (hM s) -> prim row (hU s) ->
  let s' := fold_left (clear_col nr nc row) (seq 0 row) s in wf nr nc (hM s') /\ prim (S row) (hU s').
Proof.
  intros Hrow Hcol Wf (W & F & HW & HF).
  assert (G : forall t, (t <= row)%nat -> let s' := fold_left (clear_col nr nc row) (seq 0 t) s in wf nr nc (hM s') /\ prim_part row t (hU s')).
  { induction t as [|t IH]; intros Ht.
    - cbn. split; [exact Wf|]. exists W, F. split; [intros; apply HW; lia|]. split; [intros; apply HW; lia|].
      intros i Hi. destruct (HF i Hi) as (F1 & F2). split; [exact F1|]. intros k Hk. apply F2. lia.
    - rewrite seq_S, fold_left_app. cbn [plus fold_left]. destruct (IH ltac:(lia)) as (W1 & P1). apply clear_prim; auto; lia. }
  destruct (G row (Nat.le_refl _)) as (W1 & W' & F' & A & B & C). split; [exact W1|].
  exists W', (fun i => if Nat.eqb i row then W' row else F' i). split; [intros; apply A; lia|].
  intros i Hi. destruct (Nat.eqb_spec i row) as [->|].
  - split; [rewrite B by lia; unfold Id; rewrite Nat.eqb_refl; reflexivity|]. intros k Hk. rewrite B by lia. unfold Id. destruct (Nat.eqb_spec row k); [lia|reflexivity].
  - destruct (C i ltac:(lia)) as (C1 & C2). split; [exact C1|]. intros k Hk. apply C2. lia.
Qed.
Lemma right_loop_prim : forall n row s s', (row + n = nr)%nat -> wf nr nc (hM s) -> prim row (hU s) ->
  right_inverse_loop nr nc (seq row n) s = Ok s' -> prim nr (hU s').
Proof.
  induction n as [|n IH]; intros row s s' Hn W P; cbn [seq right_inverse_loop].
  { intros [= <-]. replace nr with row by lia. exact P. }
  destruct (pivot_row nr nc s row row) as [[s1|]|] eqn:E; try discriminate.
  destruct (pivot_prim row s s1 ltac:(lia) W P E) as (Hlt & W1 & P1).
  destruct (clear_all_prim row s1 ltac:(lia) Hlt W1 P1) as (W2 & P2). apply IH; auto; lia.
Qed.
End Min.

Lemma lcm_fold_least (D : nat -> Z) rows b : forall a0, (a0 | b) -> (forall r, In r rows -> (D r | b)) ->
  (fold_left (fun a r => Z.lcm a (D r)) rows a0 | b).
Proof.
  induction rows as [|r rows IH]; intros a0 H0 H; [exact H0|]. cbn [fold_left]. apply IH.
  - apply Z.lcm_least; [exact H0|apply H; left; reflexivity].
  - intros r' Hr'. apply H. right. exact Hr'.
Qed.

(** any integer inverse up to a factor has a multiple of the factor *)
Lemma right_inverse_min n M inv : is_mat n n M -> (1 <= n)%nat -> right_inverse n n M = Ok inv ->
  forall W b, (forall i j, (i < n)%nat -> (j < n)%nat -> times n (elt M) W i j = b * delta i j) ->
  (times n (elt M) (elt inv) 0 0 | b).
Proof.
  intros WM Hn E W b HW. pose proof (right_inverse_ok n n M WM Hn) as F. rewrite E in F. destruct F as (a & Ha & _ & RI & LI).
  specialize (LI eq_refl). rewrite RI by lia. unfold delta at 1. cbn [Nat.eqb]. rewrite Z.mul_1_r.
  revert E. unfold right_inverse. set (s0 := mkh M (mat_identity n) (mat_identity n)).
  assert (C0 : core n n (get M) s0 Id 1).
  { split.
    - exact WM.
    - intros r c Hr Hc. cbn [hM hU s0]. rewrite (mmul_ext n _ (get M) _ Id) by (intros; try apply get_identity; auto).
      rewrite mmul_Id_r by exact Hc. reflexivity.
    - apply (invp_ext n Id Id); [| |apply invp_Id]; intros; [symmetry; apply get_identity; assumption|reflexivity]. }
  pose proof (right_loop_ok n n (get M) n 0 s0 Id 1 ltac:(lia) C0 ltac:(lia)) as F.
  destruct (right_inverse_loop n n (seq 0 n) s0) as [s| | |] eqn:EL; try discriminate.
  destruct F as (_ & P & sc & C & Hs & [D1 D2] & Hlast); [split; intros; lia|left; reflexivity|].
  destruct (Nat.eqb_spec n 0); [lia|].
  destruct (right_loop_prim n n n 0 s0 s ltac:(lia) WM) as (W' & F & _ & HF).
  { exists (fun k r => Id k r), (fun _ _ => 0). split; [|intros; lia]. intros k c Hk Hc. unfold cv.
    rewrite (sumn_one n c); [cbn [hU s0]; rewrite get_identity by lia; unfold Id; rewrite Nat.eqb_refl; ring|exact Hc|].
    intros r Hr Hne. cbn [hU s0]. rewrite get_identity by lia. unfold Id. destruct (Nat.eqb_spec r c); [contradiction|ring]. }
  { exact EL. }
  set (a' := fold_left _ _ _). destruct (Z.eqb_spec a' 0) as [|Ha']; [discriminate|]. intros [= EI].
  (* all diagonal elements divide b *)
  assert (DB : forall i, (i < n)%nat -> (get (hM s) i i | b)).
  { intros i Hi. set (h := get (hM s) i i).
    assert (Q : forall r, (r < n)%nat -> h * W r i = b * get (hU s) r i).
    { assert (Q0 : forall r, (r < n)%nat -> mvec n (get M) (fun k => h * W k i + - b * get (hU s) k i) r = 0).
      { intros r Hr. unfold mvec. rewrite (sumn_ext n _ (fun k => h * (get M r k * W k i) + - b * (get M r k * get (hU s) k i))) by (intros; ring).
        rewrite sumn_add, !sumn_mul. specialize (HW r i Hr Hi). change (mmul n (get M) W r i = b * Id r i) in HW. unfold mmul in HW. rewrite HW.
        pose proof (c_M _ _ _ _ _ _ C r i Hr Hi) as CM. unfold mmul in CM. rewrite <- CM. unfold Id.
        destruct (Nat.eqb_spec r i) as [->|]; [fold h; ring|]. rewrite D1 by lia. ring. }
      intros r Hr.
      assert (Q1 : mvec n (mmul n (get inv) (get M)) (fun k => h * W k i + - b * get (hU s) k i) r = 0).
      { rewrite mvec_mmul. unfold mvec at 1. apply sumn_0. intros k Hk. rewrite Q0 by exact Hk. ring. }
      rewrite (mvec_ext n _ (fun i j => a * Id i j) _ (fun k => h * W k i + - b * get (hU s) k i)) in Q1; [|intros k Hk; apply LI; assumption|reflexivity].
      rewrite mvec_scale, mvec_Id in Q1 by exact Hr. apply Z.mul_eq_0 in Q1. lia. }
    destruct (HF i Hi) as (F1 & _). exists (sumn n (fun r => F i r * W r i)).
    transitivity (b * cv n (hU s) (F i) i); [rewrite F1; ring|]. unfold cv. rewrite <- sumn_mul, <- sumn_mul_r. apply sumn_ext. intros r Hr.
    transitivity (F i r * (b * get (hU s) r i)); [ring|]. rewrite <- (Q r Hr). ring. }
  assert (AB : (a' | b)).
  { apply lcm_fold_least; [apply DB; lia|]. intros r Hr. apply in_seq in Hr. apply DB. lia. }
  (* the factor is a' *)
  enough (a = a') by (subst; exact AB).
  destruct (lcm_fold (fun r => get (hM s) r r) (seq 1 (n - 1)) (get (hM s) 0 0)) as (A1 & A2 & A3).
  { intros r Hr. apply in_seq in Hr. apply D2. lia. }
  { apply D2. lia. }
  { destruct (Nat.eq_dec n 1) as [En|En]; [right; subst; destruct Hlast; [lia|assumption]|]. left. destruct (n - 1)%nat eqn:E1; [lia|discriminate]. }
  fold a' in A1, A2, A3.
  assert (DV : forall r, (r < n)%nat -> get (hM s) r r <> 0 /\ (get (hM s) r r | a')).
  { intros r Hr. split; [apply D2; exact Hr|]. destruct r as [|r]; [exact A2|]. apply (A3 (S r)). apply in_seq. lia. }
  destruct (scale_cols n (fun r => get (hM s) r r) a' n (hU s) P sc (Nat.le_refl _) Hs (c_inv _ _ _ _ _ _ C) DV ltac:(lia)) as (_ & E').
  cbv zeta in E'. rewrite EI in E'.
  specialize (RI O O ltac:(lia) ltac:(lia)). unfold delta in RI. cbn [Nat.eqb] in RI. rewrite Z.mul_1_r in RI. rewrite <- RI.
  change (mmul n (get M) (get inv) 0 0 = a'). set (q := a' / get (hM s) 0 0) in *. transitivity (get (hM s) 0 0 * q).
  - rewrite (c_M _ _ _ _ _ _ C) by lia. unfold mmul. rewrite <- sumn_mul_r. apply sumn_ext. intros k Hk.
    rewrite E' by lia. destruct (Nat.ltb_spec 0 n); [fold q; ring|lia].
  - unfold q. destruct (DV O ltac:(lia)) as (N & (q' & Hq)). rewrite Hq, Z.div_mul by exact N. ring.
Qed.

(** the shape of the result *)
Lemma right_inverse_wf n M inv : (1 <= n)%nat -> is_mat n n M -> right_inverse n n M = Ok inv -> is_mat n n inv.
Proof.
  intros Hn WM. unfold right_inverse. set (s0 := mkh M (mat_identity n) (mat_identity n)).
  assert (P : forall rows s s', wf n n (hU s) -> right_inverse_loop n n rows s = Ok s' -> wf n n (hU s')).
  { assert (PE : forall fuel s row first s', wf n n (hU s) -> euclid_cols fuel n n s row row first = Some s' -> wf n n (hU s')).
    { induction fuel as [|fuel IH]; intros s row first s' W; cbn [euclid_cols]; [discriminate|].
      destruct (seq_first_non_zero _); [|intros [= <-]; exact W]. destruct (negb _); apply IH; apply wf_tab. }
    induction rows as [|row rows IH]; intros s s' W; cbn [right_inverse_loop]; [intros [= <-]; exact W|].
    destruct (pivot_row n n s row row) as [[s1|]|] eqn:E; try discriminate.
    assert (W1 : wf n n (hU s1)).
    { revert E. unfold pivot_row. destruct (seq_abs_min_non_zero _) as [k|]; [|discriminate].
      set (s2 := if negb (Nat.eqb (k + row) row) then exchange n n s row (k + row) row else s).
      assert (W2 : wf n n (hU s2)) by (unfold s2; destruct (negb _); [apply wf_tab|exact W]).
      set (s3 := if get (hM s2) row row <? 0 then oppose n n s2 row row else s2).
      assert (W3 : wf n n (hU s3)) by (unfold s3; destruct (_ <? _); [apply wf_tab|exact W2]).
      destruct (euclid_cols _ n n s3 row row (S row)) as [s4|] eqn:E; [|discriminate]. intros [= <-]. apply PE in E; assumption. }
    apply IH. generalize (seq 0 row). intros l. clear - W1. revert s1 W1. induction l as [|i l IHl]; intros s1 W1; [exact W1|]. cbn [fold_left].
    apply IHl. unfold clear_col. destruct (_ =? 0); [exact W1|apply wf_tab]. }
  destruct (right_inverse_loop n n (seq 0 n) s0) as [s| | |] eqn:E; try discriminate.
  apply P in E; [|apply wf_tab]. destruct (Nat.eqb_spec n 0); [lia|]. destruct (_ =? 0); [discriminate|]. intros [= <-].
  generalize (fold_left (fun a r => Z.lcm a (get (hM s) r r)) (seq 1 (n - 1)) (get (hM s) 0 0)). intros a. generalize (seq 0 n).
  intros l. generalize dependent (hU s). induction l as [|r l IH]; intros U WU; [exact WU|]. cbn [fold_left]. apply IH. cbv zeta. destruct (_ =? 1); [exact WU|apply wf_tab].
Qed.
