(** Proofs about variable compression. *)
From Coq Require Import ZArith List Bool Lia Arith ZifyBool.
From Verif Require Import SeqModel SeqSpec SeqProofs MatModel MatSpec MatTheory HermiteProofs HermiteProofs2 InverseProofs InverseProofs2 MatProofs EqModel EqSpec.
Import ListNotations.
Open Scope Z_scope.

(** ** the shape of the result of isl_mat_inverse_product *)
Lemma euclid_rows_wf n m row : forall fuel s s' first, wf n m (iR s) -> euclid_rows fuel n m s row first = Some s' -> wf n m (iR s').
Proof.
  induction fuel as [|fuel IH]; intros s s' first W; cbn [euclid_rows]; [discriminate|].
  destruct (row_first_non_zero n (iL s) first row) as [off|]; [|intros [= <-]; exact W].
  destruct (negb _); apply IH; apply wf_tab.
Qed.
Lemma clear_row_wf n m row s i : wf n m (iR s) -> wf n m (iR (clear_row n m row s i)).
Proof. intros W. unfold clear_row. destruct (_ =? 0); [exact W|apply wf_tab]. Qed.
Lemma inverse_loop_wf n m : forall rows s s', wf n m (iR s) -> inverse_product_loop n m rows s = Ok s' -> wf n m (iR s').
Proof.
  induction rows as [|row rows IH]; intros s s' W; cbn [inverse_product_loop]; [intros [= <-]; exact W|].
  destruct (row_abs_min_non_zero n (iL s) row row) as [p|]; [|discriminate].
  set (s1 := if negb (Nat.eqb (p + row) row) then inv_exchange n m s (p + row) row else s).
  assert (W1 : wf n m (iR s1)) by (unfold s1; destruct (negb _); [apply wf_tab|exact W]).
  set (s2 := if get (iL s1) row row <? 0 then inv_oppose n m s1 row else s1).
  assert (W2 : wf n m (iR s2)) by (unfold s2; destruct (_ <? _); [apply wf_tab|exact W1]).
  destruct (euclid_rows _ n m s2 row (S row)) as [s3|] eqn:E; [|discriminate].
  apply IH. apply euclid_rows_wf in E; [|exact W2]. generalize (seq 0 row). intros l. clear - E. revert s3 E.
  induction l as [|i l IHl]; intros s3 E; [exact E|]. cbn [fold_left]. apply IHl. apply clear_row_wf. exact E.
Qed.
Lemma inverse_product_wf n m L R X : is_mat n m R -> inverse_product n m L R = Ok X -> is_mat n m X.
Proof.
  intros W. unfold inverse_product. destruct (Nat.eqb n 0); [intros [= <-]; exact W|].
  destruct (inverse_product_loop n m (seq 0 n) (mkis L R)) as [s| | |] eqn:E; try discriminate.
  apply inverse_loop_wf in E; [|exact W]. destruct (_ =? 0); [discriminate|]. intros [= <-].
  generalize (fold_left (fun a r => Z.lcm a (get (iL s) r r)) (seq 1 (n - 1)) (get (iL s) 0 0)). intros a.
  assert (G : forall l R, wf n m R -> wf n m (fold_left (fun R r => let x := divexact a (get (iL s) r r) in
     if x =? 1 then R else tab n m (fun i j => if Nat.eqb i r then get R i j * x else get R i j)) l R)).
  { induction l as [|r l IH]; intros R0 W0; [exact W0|]. cbn [fold_left]. apply IH. cbv zeta. destruct (_ =? 1); [exact W0|apply wf_tab]. }
  apply G. exact E.
Qed.

Lemma mat_sub_ok M fr nr fc nc : is_mat nr nc (mat_sub M fr nr fc nc) /\
  forall r c, (r < nr)%nat -> (c < nc)%nat -> get (mat_sub M fr nr fc nc) r c = get M (fr + r) (fc + c).
Proof. split; [apply wf_tab|]. intros. unfold mat_sub. rewrite get_tab by assumption. reflexivity. Qed.
Lemma lin_to_aff_wf nr nc M : is_mat (1 + nr) (1 + nc) (mat_lin_to_aff nr nc M).
Proof. apply wf_tab. Qed.
Lemma lin_to_aff_get nr nc M r c : (r < 1 + nr)%nat -> (c < 1 + nc)%nat -> get (mat_lin_to_aff nr nc M) r c =
  match r, c with O, O => 1 | O, S _ => 0 | S _, O => 0 | S i, S j => get M i j end.
Proof. intros. unfold mat_lin_to_aff. rewrite get_tab by assumption. reflexivity. Qed.

(** strictly increasing pivots that fill up all rows *)
Lemma ech_pivots nr nc neg H ps : is_hermite nr nc neg H ps -> length ps = nr -> forall c, (c < nr)%nat -> nth c ps O = c.
Proof.
  intros (A & B & C & _) HL.
  assert (G1 : forall c, (c < nr)%nat -> (c <= nth c ps O)%nat).
  { induction c as [|c IH]; intros Hc; [lia|]. specialize (IH ltac:(lia)). specialize (C c (S c) ltac:(lia)). lia. }
  assert (G2 : forall k c, (c + k = nr - 1)%nat -> (c < nr)%nat -> (nth c ps O <= c)%nat).
  { induction k as [|k IH]; intros c Hk Hc; [specialize (B c ltac:(lia)); lia|].
    specialize (IH (S c) ltac:(lia) ltac:(lia)). specialize (C c (S c) ltac:(lia)). lia. }
  intros c Hc. specialize (G1 c Hc). specialize (G2 (nr - 1 - c)%nat c ltac:(lia) Hc). lia.
Qed.

(** isl_mat_inverse_product of an affine matrix *)
Lemma inverse_aff m k H1 C X : is_mat m m H1 -> is_mat (1 + m) k C -> (1 <= k)%nat ->
  get C 0 0 = 1 -> (forall j, (0 < j < k)%nat -> get C 0 j = 0) ->
  inverse_product (1 + m) k (mat_lin_to_aff m m H1) C = Ok X ->
  is_mat (1 + m) k X /\ 0 < get X 0 0 /\ (forall j, (0 < j < k)%nat -> get X 0 j = 0) /\
  forall i j, (i < m)%nat -> (j < k)%nat -> mmul m (get H1) (fun r c => get X (S r) c) i j = get X 0 0 * get C (S i) j.
Proof.
  intros WH WC Hk C0 C1 E. pose proof (inverse_product_wf _ _ _ _ _ WC E) as WX.
  pose proof (inverse_product_ok (1 + m) k (mat_lin_to_aff m m H1) C (lin_to_aff_wf m m H1) WC) as F. rewrite E in F.
  destruct F as (a & Ha & F & _).
  assert (F0 : forall j, (j < k)%nat -> get X 0 j = a * get C 0 j).
  { intros j Hj. specialize (F O j ltac:(lia) Hj).
    change (mmul (1 + m) (get (mat_lin_to_aff m m H1)) (get X) 0 j = a * get C 0 j) in F. rewrite <- F.
    unfold mmul. rewrite (sumn_one (1 + m) 0); [rewrite lin_to_aff_get by lia; ring|lia|].
    intros c Hc Hne. rewrite lin_to_aff_get by lia. destruct c; [lia|ring]. }
  assert (Ea : get X 0 0 = a) by (rewrite F0, C0 by lia; ring).
  split; [exact WX|]. split; [lia|]. split; [intros j Hj; rewrite F0, C1 by lia; ring|].
  intros i j Hi Hj. rewrite Ea. specialize (F (S i) j ltac:(lia) Hj).
  change (mmul (1 + m) (get (mat_lin_to_aff m m H1)) (get X) (S i) j = a * get C (S i) j) in F. rewrite <- F.
  unfold mmul. change (1 + m)%nat with (S m). rewrite sumn_front. rewrite lin_to_aff_get by lia. rewrite Z.mul_0_l, Z.add_0_l.
  apply sumn_ext. intros c Hc. rewrite lin_to_aff_get by lia. reflexivity.
Qed.
Lemma inverse_aff_null m k H1 C : is_mat m m H1 -> is_mat (1 + m) k C ->
  inverse_product (1 + m) k (mat_lin_to_aff m m H1) C = Null ->
  exists v, (exists r, (r < m)%nat /\ v r <> 0) /\ forall r, (r < m)%nat -> mvec m (get H1) v r = 0.
Proof.
  intros WH WC E. pose proof (inverse_product_ok (1 + m) k (mat_lin_to_aff m m H1) C (lin_to_aff_wf m m H1) WC) as F. rewrite E in F.
  destruct F as (v & (r & Hr & Hv) & F).
  assert (V0 : v O = 0).
  { specialize (F O ltac:(lia)). change (mvec (1 + m) (get (mat_lin_to_aff m m H1)) v 0 = 0) in F. unfold mvec in F.
    rewrite (sumn_one (1 + m) 0) in F; [rewrite lin_to_aff_get in F by lia; lia|lia|].
    intros c Hc Hne. rewrite lin_to_aff_get by lia. destruct c; [lia|ring]. }
  exists (fun i => v (S i)). split.
  - destruct r as [|r]; [congruence|]. exists r. split; [lia|exact Hv].
  - intros i Hi. specialize (F (S i) ltac:(lia)). change (mvec (1 + m) (get (mat_lin_to_aff m m H1)) v (S i) = 0) in F. rewrite <- F.
    unfold mvec. change (1 + m)%nat with (S m). rewrite sumn_front, V0, Z.mul_0_r, Z.add_0_l.
    apply sumn_ext. intros c Hc. rewrite lin_to_aff_get by lia. reflexivity.
Qed.

(** solving with the triangular part *)
Section Solve.
Variables (m n : nat) (M : nat -> nat -> Z) (s : hst) (ps : list nat).
Hypothesis HC : core m n M s (get (hQ s)) 1.
Hypothesis HH : is_hermite m n false (get (hM s)) ps.
Let H1 := mat_sub (hM s) 0 m 0 m.

Lemma solve_eq x i : (length ps <= m)%nat -> (m <= n)%nat -> (i < m)%nat -> mvec n M x i = mvec m (get H1) (mvec n (get (hQ s)) x) i.
Proof.
  intros Hl Hmn Hi. rewrite (core_HQ m n M s HC x i Hi). rewrite (ech_trunc m n false _ ps HH) by exact Hi.
  rewrite (mvec_ext m (get H1) (get (hM s)) _ (mvec n (get (hQ s)) x)); [|intros c Hc; apply (mat_sub_ok (hM s) 0 m 0 m); lia|reflexivity].
  unfold mvec. replace m with (length ps + (m - length ps))%nat by lia. rewrite sumn_split.
  rewrite (sumn_0 (m - length ps)); [ring|]. intros k Hk. destruct HH as (_ & _ & _ & _ & E). rewrite E by lia. ring.
Qed.
Lemma H1_inj z : length ps = m -> (m <= n)%nat -> (forall i, (i < m)%nat -> mvec m (get H1) z i = 0) -> forall j, (j < m)%nat -> z j = 0.
Proof.
  intros HL Hmn Hz j Hj. apply (ech_inj m n false _ ps HH z); [|lia]. intros i Hi. rewrite HL, <- (Hz i Hi).
  apply mvec_ext; [|reflexivity]. intros k Hk. symmetry. apply (mat_sub_ok (hM s) 0 m 0 m); lia.
Qed.
(** if the triangular part is singular then the rank is not full *)
Lemma H1_singular v : (m <= n)%nat -> (exists r, (r < m)%nat /\ v r <> 0) -> (forall r, (r < m)%nat -> mvec m (get H1) v r = 0) -> (length ps < m)%nat.
Proof.
  intros Hmn (r & Hr & Hv) H0. assert (length ps <= m)%nat.
  { destruct HH as (A & B & C & _). clear - B C.
    assert (G : forall c, (c < length ps)%nat -> (c <= nth c ps O)%nat).
    { induction c as [|c IH]; intros Hc; [lia|]. specialize (IH ltac:(lia)). specialize (C c (S c) ltac:(lia)). lia. }
    destruct (Nat.le_gt_cases (length ps) m) as [|L]; [assumption|]. specialize (G m L). specialize (B m L). lia. }
  destruct (Nat.eq_dec (length ps) m) as [E|]; [|lia]. exfalso. apply Hv. apply (H1_inj v E Hmn H0). exact Hr.
Qed.
Lemma ps_le : (length ps <= m)%nat.
Proof.
  destruct HH as (A & B & C & _). clear - B C.
  assert (G : forall c, (c < length ps)%nat -> (c <= nth c ps O)%nat).
  { induction c as [|c IH]; intros Hc; [lia|]. specialize (IH ltac:(lia)). specialize (C c (S c) ltac:(lia)). lia. }
  destruct (Nat.le_gt_cases (length ps) m) as [|L]; [assumption|]. specialize (G m L). specialize (B m L). lia.
Qed.
End Solve.

Lemma mvec_split n1 n2 A x i : mvec (n1 + n2) A x i = mvec n1 A x i + mvec n2 (fun r c => A r (n1 + c)%nat) (fun c => x (n1 + c)%nat) i.
Proof. unfold mvec. apply sumn_split. Qed.

Lemma divisible_by_ok a b : b <> 0 -> divisible_by a b = true <-> (b | a).
Proof. intros H. unfold divisible_by. rewrite Z.eqb_eq. apply Z.mod_divide. exact H. Qed.
Lemma first_non_zero_none p : (forall l, (l < length p)%nat -> nth l p 0 = 0) -> seq_first_non_zero p = None.
Proof.
  intros H. pose proof (first_non_zero_ok p) as F. destruct (seq_first_non_zero p) as [k|]; [|reflexivity].
  destruct F as (A & B & _). exfalso. apply B. apply H. exact A.
Qed.

(** the columns of the result before parameter rows are inserted *)
Lemma aff_direct_sum_ok nr nc1 L nc2 R : is_mat nr nc1 L -> is_mat nr nc2 R -> (1 <= nr)%nat -> (1 <= nc1)%nat -> (1 <= nc2)%nat ->
  0 < get L 0 0 -> (forall j, (0 < j < nc1)%nat -> get L 0 j = 0) ->
  get R 0 0 = 1 -> (forall j, (0 < j < nc2)%nat -> get R 0 j = 0) ->
  exists S, mat_aff_direct_sum nr nc1 L nc2 R = Ok S /\ is_mat nr (nc1 + nc2 - 1) S /\
    get S 0 0 = get L 0 0 /\ (forall j, (0 < j < nc1 + nc2 - 1)%nat -> get S 0 j = 0) /\
    forall r c, (0 < r < nr)%nat -> (c < nc1 + nc2 - 1)%nat ->
      get S r c = if Nat.eqb c 0 then get L r 0 + get L 0 0 * get R r 0
                  else if Nat.ltb c nc1 then get L r c else get L 0 0 * get R r (c - nc1 + 1).
Proof.
  intros [WL1 WL2] [WR1 WR2] Hn Hc1 Hc2 HL0 HLj HR0 HRj. unfold mat_aff_direct_sum.
  destruct (Nat.eqb_spec nr 0), (Nat.eqb_spec nc1 0), (Nat.eqb_spec nc2 0); try lia. cbn [orb].
  rewrite (first_non_zero_none (skipn 1 (mrow L 0))).
  2:{ intros l Hl. rewrite nth_skipn. rewrite skipn_length in Hl. unfold mrow in *. rewrite WL2 in Hl by lia. apply HLj. lia. }
  rewrite (first_non_zero_none (skipn 1 (mrow R 0))).
  2:{ intros l Hl. rewrite nth_skipn. rewrite skipn_length in Hl. unfold mrow in *. rewrite WR2 in Hl by lia. apply HRj. lia. }
  rewrite HR0. rewrite Z.lcm_1_r, Z.abs_eq by lia. unfold divexact. rewrite Z.div_same, Z.div_1_r by lia.
  eexists. split; [reflexivity|]. split; [apply wf_tab|]. split; [|split].
  - rewrite get_tab by lia. reflexivity.
  - intros j Hj. rewrite get_tab by lia. destruct j; [lia|reflexivity].
  - intros r c Hr Hc. rewrite get_tab by lia. destruct r as [|r]; [lia|]. destruct c as [|c]; cbn [Nat.eqb]; [ring|].
    destruct (Nat.ltb (S c) nc1); ring.
Qed.

Section Compression.
Variables (m first n : nat) (B : list (list Z)).
Hypothesis WB : is_mat m (1 + first + n) B.
Hypothesis Hmn : (m <= n)%nat.
Let nf := (1 + first)%nat.
Let M := mat_sub B 0 m (1 + first) n.

Lemma M_get i c : (i < m)%nat -> (c < n)%nat -> get M i c = get B i (nf + c).
Proof. intros Hi Hc. apply (mat_sub_ok B 0 m (1 + first) n); assumption. Qed.

Definition Cmat := tab (1 + m) (1 + first) (fun r c => match r, c with O, O => 1 | O, S _ => 0 | S i, _ => - get B i c end).

(** satisfying the equalities means solving for the last variables *)
Lemma satisfies_iff v : satisfies m (1 + first + n) (elt B) v <->
  forall i, (i < m)%nat -> mvec n (get M) (fun k => v (nf + k)%nat) i = mvec nf (fun r c => get Cmat (S r) c) v i.
Proof.
  assert (E : forall i, (i < m)%nat -> apply (1 + first + n) (elt B) v i =
    mvec n (get M) (fun k => v (nf + k)%nat) i - mvec nf (fun r c => get Cmat (S r) c) v i).
  { intros i Hi. change (mvec (nf + n) (get B) v i = mvec n (get M) (fun k => v (nf + k)%nat) i - mvec nf (fun r c => get Cmat (S r) c) v i).
    rewrite mvec_split.
    assert (E1 : mvec n (fun r c => get B r (nf + c)%nat) (fun c => v (nf + c)%nat) i = mvec n (get M) (fun k => v (nf + k)%nat) i).
    { apply mvec_ext; [|reflexivity]. intros k Hk. symmetry. apply M_get; assumption. }
    assert (E2 : mvec nf (fun r c => get Cmat (S r) c) v i = -1 * mvec nf (get B) v i).
    { rewrite <- mvec_scale. apply mvec_ext; [|reflexivity]. intros c Hc. unfold Cmat. rewrite get_tab by (unfold nf in *; lia). ring. }
    rewrite E1, E2. ring. }
  split.
  - intros H i Hi. specialize (H i Hi). rewrite E in H by exact Hi. lia.
  - intros H i Hi. rewrite E, H by exact Hi. lia.
Qed.

Variables (s : hst) (ps : list nat).
Hypothesis HC : core m n (get M) s (get (hQ s)) 1.
Hypothesis HH : is_hermite m n false (get (hM s)) ps.
Let H1 := mat_sub (hM s) 0 m 0 m.
Variable X : list (list Z).
Hypothesis full : length ps = m.
Hypothesis WX : is_mat (1 + m) nf X.
Hypothesis X00 : 0 < get X 0 0.
Hypothesis X0j : forall j, (0 < j < nf)%nat -> get X 0 j = 0.
Hypothesis HX : forall i j, (i < m)%nat -> (j < nf)%nat -> mmul m (get H1) (fun r c => get X (S r) c) i j = get X 0 0 * get Cmat (S i) j.

(** the first transformed variables are determined *)
Lemma first_vars v : satisfies m (1 + first + n) (elt B) v <->
  forall i, (i < m)%nat -> get X 0 0 * mvec n (get (hQ s)) (fun k => v (nf + k)%nat) i = mvec nf (fun r c => get X (S r) c) v i.
Proof.
  rewrite satisfies_iff. set (z := mvec n (get (hQ s)) (fun k => v (nf + k)%nat)).
  assert (E1 : forall i, (i < m)%nat -> mvec n (get M) (fun k => v (nf + k)%nat) i = mvec m (get H1) z i).
  { intros i Hi. apply (solve_eq m n (get M) s ps HC HH); lia. }
  assert (E2 : forall i, (i < m)%nat -> mvec m (get H1) (mvec nf (fun r c => get X (S r) c) v) i = get X 0 0 * mvec nf (fun r c => get Cmat (S r) c) v i).
  { intros i Hi. rewrite <- mvec_mmul, <- mvec_scale. apply mvec_ext; [|reflexivity]. intros k Hk. apply HX; assumption. }
  assert (L : forall u w i, mvec m (get H1) (fun j => u j + -1 * w j) i = mvec m (get H1) u i - mvec m (get H1) w i).
  { intros u w i. unfold mvec. rewrite (sumn_ext m _ (fun k => get H1 i k * u k + -1 * (get H1 i k * w k))) by (intros; ring).
    rewrite sumn_add, sumn_mul. ring. }
  assert (L2 : forall a w i, mvec m (get H1) (fun j => a * w j) i = a * mvec m (get H1) w i).
  { intros a w i. unfold mvec. rewrite <- sumn_mul. apply sumn_ext. intros; ring. }
  split.
  - intros Sv i Hi.
    assert (G : get X 0 0 * z i + -1 * mvec nf (fun r c => get X (S r) c) v i = 0); [|lia].
    apply (H1_inj m n s ps HH (fun i => get X 0 0 * z i + -1 * mvec nf (fun r c => get X (S r) c) v i) full Hmn); [|exact Hi].
    intros r Hr. rewrite (L (fun j => get X 0 0 * z j)), L2. fold H1. rewrite <- E1, E2, Sv by exact Hr. ring.
  - intros Sv i Hi. rewrite E1 by exact Hi.
    assert (G : get X 0 0 * mvec m (get H1) z i = get X 0 0 * mvec nf (fun r c => get Cmat (S r) c) v i); [|nia].
    rewrite <- L2, <- E2 by exact Hi. apply mvec_ext; [reflexivity|exact Sv].
Qed.

(** the compression itself, for any scaled solution *)
Lemma insert_get nr nc N np r c : is_mat nr nc N -> (1 <= nr)%nat -> (r < np + nr)%nat -> (c < nc)%nat ->
  get (insert_parameter_rows nr nc N np) r c =
    if Nat.ltb r 1 then get N r c else if Nat.ltb r (1 + np) then (if Nat.eqb c r then get N 0 0 else 0) else get N (r - np) c.
Proof.
  intros W Hn Hr Hc. unfold insert_parameter_rows. destruct (Nat.eqb_spec np 0) as [->|E].
  - destruct (Nat.ltb r 1) eqn:E1; [reflexivity|]. rewrite Nat.sub_0_r. destruct (Nat.ltb_spec r (1 + 0)); [lia|reflexivity].
  - apply get_tab; assumption.
Qed.
Definition T2mat := mat_diagonal (1 + first) (1 + first) (mat_identity (1 + first)) (n - m) n (mat_sub (hQ s) m (n - m) 0 n).
Lemma T2_get r c : (r < nf + (n - m))%nat -> (c < nf + n)%nat ->
  get T2mat r c = if Nat.ltb r nf then (if Nat.ltb c nf then Id r c else 0) else if Nat.ltb c nf then 0 else get (hQ s) (m + (r - nf)) (c - nf).
Proof.
  intros Hr Hc. unfold T2mat, mat_diagonal. rewrite get_tab by assumption. fold nf.
  destruct (Nat.ltb_spec r nf), (Nat.ltb_spec c nf); try reflexivity.
  - rewrite get_identity by assumption. reflexivity.
  - rewrite (proj2 (mat_sub_ok (hQ s) m (n - m) 0 n)) by lia. reflexivity.
Qed.
Lemma T2_low v j : (j < nf)%nat -> mvec (nf + n) (get T2mat) v j = v j.
Proof.
  intros Hj. unfold mvec. rewrite (sumn_one (nf + n) j).
  - rewrite T2_get by lia. destruct (Nat.ltb_spec j nf); [|lia]. unfold Id. rewrite Nat.eqb_refl. ring.
  - lia.
  - intros k Hk Hne. rewrite T2_get by lia. destruct (Nat.ltb_spec j nf); [|lia]. destruct (Nat.ltb_spec k nf); [|ring].
    unfold Id. destruct (Nat.eqb_spec j k); [lia|ring].
Qed.
Lemma T2_high v k : (k < n - m)%nat -> mvec (nf + n) (get T2mat) v (nf + k) = mvec n (get (hQ s)) (fun c => v (nf + c)%nat) (m + k).
Proof.
  intros Hk. unfold mvec. rewrite sumn_split. rewrite sumn_0.
  - rewrite Z.add_0_l. apply sumn_ext. intros c Hc. rewrite T2_get by lia.
    destruct (Nat.ltb_spec (nf + k) nf), (Nat.ltb_spec (nf + c) nf); try lia.
    replace (nf + k - nf)%nat with k by lia. replace (nf + c - nf)%nat with c by lia. reflexivity.
  - intros c Hc. rewrite T2_get by lia. destruct (Nat.ltb_spec (nf + k) nf), (Nat.ltb_spec c nf); try lia.
Qed.

Lemma U_Q x i : (i < n)%nat -> mvec n (get (hU s)) (mvec n (get (hQ s)) x) i = x i.
Proof. intros Hi. rewrite (invp_vec n (get (hQ s)) (get (hU s)) 1 x); [ring|apply invp_sym; apply HC|exact Hi]. Qed.
Lemma Q_U x i : (i < n)%nat -> mvec n (get (hQ s)) (mvec n (get (hU s)) x) i = x i.
Proof. intros Hi. rewrite (invp_vec n (get (hU s)) (get (hQ s)) 1 x); [ring|apply HC|exact Hi]. Qed.
Lemma mvec_lin k A a x i : mvec k A (fun j => a * x j) i = a * mvec k A x i.
Proof. unfold mvec. rewrite <- sumn_mul. apply sumn_ext. intros; ring. Qed.

Variable Y : list (list Z).
Hypothesis WY : is_mat (1 + m) nf Y.
Hypothesis Y00 : 0 < get Y 0 0.
Hypothesis Y0j : forall j, (0 < j < nf)%nat -> get Y 0 j = 0.
Definition solved v := forall i, (i < m)%nat -> get Y 0 0 * mvec n (get (hQ s)) (fun k => v (nf + k)%nat) i = mvec nf (fun r c => get Y (S r) c) v i.
Definition U1Y := mat_product (1 + n) (1 + first) (mat_lin_to_aff n m (mat_sub (hU s) 0 n 0 m)) Y.
Definition U2mat := mat_lin_to_aff n (n - m) (mat_sub (hU s) 0 n m (n - m)).
Lemma U1Y_ok : is_mat (1 + n) nf U1Y /\ (forall j, (j < nf)%nat -> get U1Y 0 j = get Y 0 j) /\
  forall i j, (i < n)%nat -> (j < nf)%nat -> get U1Y (S i) j = mmul m (get (hU s)) (fun r c => get Y (S r) c) i j.
Proof.
  destruct (product_ok (1 + n) (1 + m) nf (mat_lin_to_aff n m (mat_sub (hU s) 0 n 0 m)) Y (lin_to_aff_wf n m _)) as (P1 & P2).
  fold nf. split; [exact P1|]. split.
  - intros j Hj. specialize (P2 O j ltac:(lia) Hj). change (get U1Y 0 j = mmul (1 + m) (get (mat_lin_to_aff n m (mat_sub (hU s) 0 n 0 m))) (get Y) 0 j) in P2.
    rewrite P2. unfold mmul. rewrite (sumn_one (1 + m) 0); [rewrite lin_to_aff_get by lia; ring|lia|].
    intros c Hc Hne. rewrite lin_to_aff_get by lia. destruct c; [lia|ring].
  - intros i j Hi Hj. specialize (P2 (S i) j ltac:(lia) Hj). change (get U1Y (S i) j = mmul (1 + m) (get (mat_lin_to_aff n m (mat_sub (hU s) 0 n 0 m))) (get Y) (S i) j) in P2.
    rewrite P2. unfold mmul. change (1 + m)%nat with (S m). rewrite sumn_front. rewrite lin_to_aff_get by lia. rewrite Z.mul_0_l, Z.add_0_l.
    apply sumn_ext. intros c Hc. rewrite lin_to_aff_get by lia. rewrite (proj2 (mat_sub_ok (hU s) 0 n 0 m)) by lia. reflexivity.
Qed.
Lemma compress_ok : exists N, mat_aff_direct_sum (1 + n) (1 + first) U1Y (1 + (n - m)) U2mat = Ok N /\
  let T := insert_parameter_rows (1 + n) (1 + first + (n - m)) N first in
  get T 0 0 = get Y 0 0 /\ is_mat (1 + first + n) (1 + first + (n - m)) T /\
  compresses (nf + n) (nf + (n - m)) (get T) (get T2mat) solved.
Proof.
  destruct U1Y_ok as (W1 & R1 & E1).
  destruct (aff_direct_sum_ok (1 + n) nf U1Y (1 + (n - m)) U2mat W1 (lin_to_aff_wf _ _ _)) as (N & EN & WN & N00 & N0 & Nr); try (unfold nf; lia).
  { rewrite R1 by (unfold nf; lia). exact Y00. }
  { intros j Hj. rewrite R1 by lia. apply Y0j. exact Hj. }
  { unfold U2mat. rewrite lin_to_aff_get by lia. reflexivity. }
  { intros j Hj. unfold U2mat. rewrite lin_to_aff_get by lia. destruct j; [lia|reflexivity]. }
  replace (nf + (1 + (n - m)) - 1)%nat with (nf + (n - m))%nat in * by lia.
  rewrite R1 in N00, Nr by (unfold nf; lia). set (a := get Y 0 0) in *.
  exists N. split; [exact EN|]. intros T.
  assert (ET : forall r c, (r < nf + n)%nat -> (c < nf + (n - m))%nat -> get T r c =
    if Nat.ltb r 1 then get N r c else if Nat.ltb r nf then (if Nat.eqb c r then a else 0) else get N (r - first) c).
  { intros r c Hr Hc. rewrite <- N00. apply (insert_get (1 + n) (nf + (n - m)) N first r c WN); unfold nf in *; lia. }
  assert (T0 : forall c, (c < nf + (n - m))%nat -> get T 0 c = if Nat.eqb c 0 then a else 0).
  { intros c Hc. rewrite ET by (unfold nf; lia). cbn [Nat.ltb Nat.leb]. destruct (Nat.eqb_spec c 0) as [->|Hne]; [exact N00|]. apply N0. lia. }
  assert (Tlow : forall w i, (i < nf)%nat -> mvec (nf + (n - m)) (get T) w i = a * w i).
  { intros w i Hi. unfold mvec. rewrite (sumn_one _ i); [|lia|].
    - destruct i as [|i]; [rewrite T0 by lia; reflexivity|]. rewrite ET by lia.
      destruct (Nat.ltb_spec (S i) 1), (Nat.ltb_spec (S i) nf); try lia. rewrite Nat.eqb_refl. reflexivity.
    - intros c Hc Hne. destruct i as [|i]; [rewrite T0 by lia; destruct c; [lia|reflexivity]|]. rewrite ET by lia.
      destruct (Nat.ltb_spec (S i) nf), (Nat.ltb_spec (S i) 1), (Nat.eqb_spec c (S i)); try lia. }
  assert (Thigh : forall w k, (k < n)%nat -> mvec (nf + (n - m)) (get T) w (nf + k) =
     mvec m (get (hU s)) (mvec nf (fun r c => get Y (S r) c) w) k + a * mvec (n - m) (fun r c => get (hU s) r (m + c)) (fun c => w (nf + c)%nat) k).
  { intros w k Hk. rewrite mvec_split.
    assert (ER : forall c, (c < nf + (n - m))%nat -> get T (nf + k) c = get N (S k) c).
    { intros c Hc. rewrite ET by lia. destruct (Nat.ltb_spec (nf + k) 1), (Nat.ltb_spec (nf + k) nf); try (unfold nf in *; lia).
      f_equal. unfold nf. lia. }
    assert (U20 : get U2mat (S k) 0 = 0) by (unfold U2mat; rewrite lin_to_aff_get by lia; reflexivity).
    f_equal.
    - rewrite <- mvec_mmul. unfold mvec. apply sumn_ext. intros c Hc. f_equal. rewrite ER, Nr by lia.
      destruct (Nat.eqb_spec c 0) as [->|]; [|destruct (Nat.ltb_spec c nf); [|lia]; apply E1; lia].
      rewrite U20, E1 by lia. ring.
    - rewrite <- mvec_scale. unfold mvec. apply sumn_ext. intros c Hc. f_equal. rewrite ER, Nr by lia.
      destruct (Nat.eqb_spec (nf + c) 0) as [|]; [unfold nf in *; lia|]. destruct (Nat.ltb_spec (nf + c) nf); [lia|]. f_equal.
      replace (nf + c - nf + 1)%nat with (S c) by lia. unfold U2mat. rewrite lin_to_aff_get by lia.
      rewrite (proj2 (mat_sub_ok (hU s) 0 n m (n - m))) by lia. reflexivity. }
  assert (HU : forall y k, (k < n)%nat -> mvec n (get (hU s)) y k = mvec m (get (hU s)) y k + mvec (n - m) (fun r c => get (hU s) r (m + c)) (fun c => y (m + c)%nat) k).
  { intros y k Hk. replace n with (m + (n - m))%nat at 1 by lia. apply mvec_split. }
  split. { rewrite T0 by (unfold nf; lia). reflexivity. }
  split. { unfold T, insert_parameter_rows. destruct (Nat.eqb_spec first 0) as [E|E].
    - replace (1 + first + n)%nat with (1 + n)%nat by lia. exact WN.
    - replace (1 + first + n)%nat with (first + (1 + n))%nat by lia. apply wf_tab. }
  unfold compresses. rewrite T0 by (unfold nf; lia). cbn [Nat.eqb]. split; [exact Y00|].
  split. { intros j Hj. rewrite T0 by lia. destruct (Nat.eqb_spec j 0); [lia|reflexivity]. }
  change (apply (nf + n)) with (mvec (nf + n)). change (apply (nf + (n - m))) with (mvec (nf + (n - m))).
  split.
  - intros v Hv Sv. split; [rewrite T2_low by (unfold nf; lia); exact Hv|].
    intros i Hi. destruct (Nat.lt_ge_cases i nf) as [L|L].
    + rewrite Tlow, T2_low by exact L. reflexivity.
    + replace i with (nf + (i - nf))%nat by lia. set (k := (i - nf)%nat). assert (Hk : (k < n)%nat) by (unfold k; lia).
      rewrite Thigh by exact Hk. rewrite <- (U_Q (fun k => v (nf + k)%nat) k Hk). rewrite HU by exact Hk.
      rewrite Z.mul_add_distr_l. f_equal.
      * rewrite <- mvec_lin. apply mvec_ext; [reflexivity|]. intros r Hr. specialize (Sv r Hr). fold a in Sv. rewrite Sv. apply mvec_ext; [reflexivity|].
        intros c Hc. apply T2_low. exact Hc.
      * f_equal. apply mvec_ext; [reflexivity|]. intros c Hc. apply T2_high. exact Hc.
  - intros w v Hw Hv E.
    assert (Elow : forall i, (i < nf)%nat -> w i = v i).
    { intros i Hi. specialize (E i ltac:(lia)). rewrite Tlow in E by exact Hi. nia. }
    set (y := fun i => if Nat.ltb i m then mvec nf (fun r c => get Y (S r) c) v i else a * w (nf + (i - m))%nat).
    assert (EU : forall k, (k < n)%nat -> mvec n (get (hU s)) y k = a * v (nf + k)%nat).
    { intros k Hk. rewrite <- E by lia. rewrite Thigh by exact Hk. rewrite HU by exact Hk. f_equal.
      - apply mvec_ext; [reflexivity|]. intros r Hr. unfold y. destruct (Nat.ltb_spec r m); [|lia].
        apply mvec_ext; [reflexivity|]. intros c Hc. symmetry. apply Elow. exact Hc.
      - rewrite <- mvec_lin. apply mvec_ext; [reflexivity|]. intros c Hc. unfold y. destruct (Nat.ltb_spec (m + c) m); [lia|].
        do 2 f_equal. lia. }
    assert (EQ : forall i, (i < n)%nat -> a * mvec n (get (hQ s)) (fun k => v (nf + k)%nat) i = y i).
    { intros i Hi. rewrite <- (Q_U y i Hi), <- mvec_lin. apply mvec_ext; [reflexivity|]. intros k Hk. symmetry. apply EU. exact Hk. }
    split.
    + intros i Hi. fold a. rewrite EQ by lia. unfold y. destruct (Nat.ltb_spec i m); [reflexivity|lia].
    + intros j Hj. destruct (Nat.lt_ge_cases j nf) as [L|L]; [rewrite T2_low by exact L; apply Elow; exact L|].
      replace j with (nf + (j - nf))%nat by lia. rewrite T2_high by lia. specialize (EQ (m + (j - nf))%nat ltac:(lia)). unfold y in EQ.
      destruct (Nat.ltb_spec (m + (j - nf)) m); [lia|]. replace (m + (j - nf) - m)%nat with (j - nf)%nat in EQ by lia. nia.
Qed.
End Compression.

Lemma compresses_iff nv nw T T2 (P P' : (nat -> Z) -> Prop) : (forall v, P v <-> P' v) -> compresses nv nw T T2 P -> compresses nv nw T T2 P'.
Proof.
  intros H (A & B & C & D). split; [exact A|]. split; [exact B|]. split.
  - intros v Hv Pv. apply C; [exact Hv|]. apply H. exact Pv.
  - intros w v Hw Hv E. destruct (D w v Hw Hv E) as (D1 & D2). split; [apply H; exact D1|exact D2].
Qed.

Lemma row_skip nr nc X i j : is_mat nr nc X -> (i < nr)%nat -> (0 < j < nc)%nat -> In (get X i j) (skipn 1 (mrow X i)).
Proof.
  intros [W1 W2] Hi Hj. replace (get X i j) with (nth (j - 1) (skipn 1 (mrow X i)) 0).
  - apply nth_In. rewrite skipn_length. unfold mrow. rewrite W2 by exact Hi. lia.
  - rewrite nth_skipn. unfold get, mrow. f_equal. lia.
Qed.

Lemma final_variable_compression_ok m first n B : is_mat m (1 + first + n) B ->
  match final_variable_compression m first n B with
  | Ok (Some (T, T2)) =>
      is_mat (1 + first + n) (1 + first + (n - m)) T /\ is_mat (1 + first + (n - m)) (1 + first + n) T2 /\
      (first = O -> get T 0 0 = 1) /\
      compresses (1 + first + n) (1 + first + (n - m)) (elt T) (elt T2) (satisfies m (1 + first + n) (elt B))
  | Ok None => forall v, homogeneous v -> ~ satisfies m (1 + first + n) (elt B) v
  | Null => (n < m)%nat \/ exists k, (k < m)%nat /\ has_rank m n (fun i j => elt B i (1 + first + j)) k
  | _ => False
  end.
Proof.
  intros WB. unfold final_variable_compression. destruct (Nat.ltb_spec n m) as [L|Hmn]; [left; exact L|].
  set (M := mat_sub B 0 m (1 + first) n).
  destruct (left_hermite_ok m n M false (proj1 (mat_sub_ok B 0 m (1 + first) n))) as (s & ps & E & HC & HH). rewrite E.
  fold (Cmat m first B). fold (T2mat m first n s). set (C := Cmat m first B). set (H1 := mat_sub (hM s) 0 m 0 m).
  assert (WC : is_mat (1 + m) (1 + first) C) by apply wf_tab.
  assert (WH1 : is_mat m m H1) by apply (mat_sub_ok (hM s) 0 m 0 m).
  destruct (inverse_product (1 + m) (1 + first) (mat_lin_to_aff m m H1) C) as [X| | |] eqn:EX.
  2:{ right. destruct (inverse_aff_null m (1 + first) H1 C WH1 WC EX) as (v & V1 & V2).
      pose proof (H1_singular m n s ps HH v Hmn V1 V2) as Hl.
      destruct (rank_ok m n M (proj1 (mat_sub_ok B 0 m (1 + first) n))) as (k & Ek & Hk).
      unfold mat_rank in Ek. rewrite E, (first_zero_col_ok m n false _ ps HH) in Ek. injection Ek as <-.
      exists (length ps). split; [exact Hl|]. destruct Hk as (W & K1 & K2 & K3). exists W. 
      assert (ME : forall x i, (i < m)%nat -> apply n (fun i j => elt B i (1 + first + j)) x i = apply n (elt M) x i).
      { intros x i Hi. apply mvec_ext; [|reflexivity]. intros c Hc. symmetry. apply (mat_sub_ok B 0 m (1 + first) n); assumption. }
      split; [|split; [|exact K3]].
      - intros x. destruct (K1 x) as (y & Hy). exists y. intros i Hi. rewrite ME by exact Hi. apply Hy. exact Hi.
      - intros y. destruct (K2 y) as (x & Hx). exists x. intros i Hi. rewrite ME by exact Hi. apply Hx. exact Hi. }
  2,3: pose proof (inverse_product_ok (1 + m) (1 + first) (mat_lin_to_aff m m H1) C (lin_to_aff_wf m m H1) WC) as F; rewrite EX in F; exact F.
  destruct (inverse_aff m (1 + first) H1 C X WH1 WC ltac:(lia)) as (WX & X00 & X0j & HX); [| |exact EX|].
  { unfold C, Cmat. rewrite get_tab by lia. reflexivity. }
  { intros j Hj. unfold C, Cmat. rewrite get_tab by lia. destruct j; [lia|reflexivity]. }
  assert (full : length ps = m).
  { destruct (Nat.eq_dec (length ps) m) as [e|ne]; [exact e|exfalso]. pose proof (ps_le m n s ps HH) as Hle.
    pose proof (ech_trunc m n false (get (hM s)) ps HH) as Tr.
    (* the last column of [H1] is zero, while [H1 X = a C] for every right-hand side *)
    pose proof (inverse_product_ok (1 + m) (1 + first) (mat_lin_to_aff m m H1) C (lin_to_aff_wf m m H1) WC) as R. rewrite EX in R. destruct R as (_ & _ & _ & R).
    specialize (R (fun i => if Nat.eqb i m then 1 else 0)).
    assert (R0 : forall i, (i < 1 + m)%nat -> mvec (1 + m) (get (mat_lin_to_aff m m H1)) (fun i => if Nat.eqb i m then 1 else 0) i = 0).
    { intros i Hi. unfold mvec. apply sumn_0. intros c Hc. destruct (Nat.eqb_spec c m) as [->|]; [|ring].
      rewrite lin_to_aff_get by lia. destruct i as [|i], m as [|m']; try lia. unfold H1.
      rewrite (proj2 (mat_sub_ok (hM s) 0 (S m') 0 (S m'))) by lia. cbn [Nat.add].
      destruct HH as (_ & _ & _ & _ & Hz). rewrite Hz by lia. ring. }
    specialize (R R0 m ltac:(lia)). cbn beta in R. rewrite Nat.eqb_refl in R. discriminate. }
  pose proof (first_vars m first n B Hmn s ps HC HH X full X00 HX) as FV.
  (* the row condition *)
  set (test := fun i => divisible_by (get X (1 + i) 0) (Z.gcd (seq_gcd (skipn 1 (mrow X (1 + i)))) (get X 0 0))).
  assert (GN : forall i, Z.gcd (seq_gcd (skipn 1 (mrow X (1 + i)))) (get X 0 0) <> 0).
  { intros i E0. apply Z.gcd_eq_0_r in E0. lia. }
  destruct (negb (get X 0 0 =? 1) && negb (forallb test (seq 0 m))) eqn:ET.
  { apply andb_true_iff in ET. destruct ET as [_ ET]. apply negb_true_iff in ET. intros v Hv Sv. rewrite FV in Sv.
    assert (F : forallb test (seq 0 m) = true); [|congruence]. apply forallb_forall. intros i Hi. apply in_seq in Hi.
    unfold test. apply divisible_by_ok; [apply GN|]. specialize (Sv i ltac:(lia)). unfold mvec in Sv at 2. rewrite sumn_front in Sv.
    cbv beta in Sv. rewrite Hv, Z.mul_1_r in Sv. change (1 + i)%nat with (S i). set (g := Z.gcd _ _).
    replace (get X (S i) 0) with (get X 0 0 * mvec n (get (hQ s)) (fun k => v (1 + first + k)%nat) i - sumn first (fun k => get X (S i) (S k) * v (S k))) by lia.
    apply Z.divide_sub_r.
    - apply Z.divide_mul_l. apply Z.gcd_divide_r.
    - assert (Q : forall k, (k < first)%nat -> (g | get X (S i) (S k) * v (S k))).
      { intros k Hk. apply Z.divide_mul_l. apply (Z.divide_trans _ (seq_gcd (skipn 1 (mrow X (1 + i))))); [apply Z.gcd_divide_l|].
        destruct (seq_gcd_ok (skipn 1 (mrow X (1 + i)))) as (_ & G2 & _). apply G2. apply (row_skip (1 + m) (1 + first)); try assumption; lia. }
      clear - Q. induction first as [|f IH]; [exists 0; reflexivity|]. cbn [sumn]. apply Z.divide_add_r; [apply IH; auto|apply Q; lia]. }
  assert (NY : exists Y g, (if get X 0 0 =? 1 then Ok X else mat_normalize (1 + m) X) = Ok Y /\ 0 < g /\ is_mat (1 + m) (1 + first) Y /\
     (forall i j, (i < 1 + m)%nat -> (j < 1 + first)%nat -> get X i j = g * get Y i j) /\ (first = O -> get Y 0 0 = 1)).
  { destruct (Z.eqb_spec (get X 0 0) 1) as [E1|E1].
    - exists X, 1. split; [reflexivity|]. split; [lia|]. split; [exact WX|]. split; [intros; ring|]. auto.
    - pose proof (normalize_mat_ok (1 + m) (1 + first) X WX) as F. destruct (mat_normalize (1 + m) X) as [Y| | |].
      + destruct F as (g & G1 & G2 & G3 & G4). exists Y, g. split; [reflexivity|]. split; [exact G2|]. split; [exact G3|]. split; [exact G4|].
        intros ->. cbn [negb andb] in ET. apply negb_false_iff in ET. rewrite forallb_forall in ET.
        assert (GD : (get X 0 0 | g)).
        { destruct G1 as (_ & _ & G1). apply G1. intros x Hx. apply in_concat in Hx. destruct Hx as (row & Hr & Hx).
          destruct (In_nth _ _ [] Hr) as (i & Hi & Ei). destruct (In_nth _ _ 0 Hx) as (j & Hj & Ej).
          destruct WX as [W1 W2]. rewrite W1 in Hi. rewrite <- Ei, W2 in Hj by exact Hi. rewrite <- Ej, <- Ei.
          destruct j as [|j]; [|lia]. change (get X 0 0 | get X i 0). destruct i as [|i]; [apply Z.divide_refl|].
          specialize (ET i). rewrite in_seq in ET. specialize (ET ltac:(lia)). unfold test in ET. apply divisible_by_ok in ET; [|apply GN].
          assert (S0 : skipn 1 (mrow X (1 + i)) = []). { apply length_zero_iff_nil. rewrite skipn_length. unfold mrow. rewrite W2 by lia. reflexivity. }
          rewrite S0 in ET. change (seq_gcd []) with 0 in ET. rewrite Z.gcd_0_l, Z.abs_eq in ET by lia. exact ET. }
        specialize (G4 O O ltac:(lia) ltac:(lia)). change (get X 0 0 = g * get Y 0 0) in G4.
        destruct GD as (q & Hq). set (y := get Y 0 0) in *. set (x := get X 0 0) in *. clearbody x y. subst g.
        assert (x * (1 - q * y) = 0) as Z1 by nia. apply Z.mul_eq_0 in Z1. destruct Z1 as [|Z1]; [lia|].
        assert (D : (y | 1)) by (exists q; lia). apply Z.divide_1_r in D. destruct D; [assumption|nia].
      + contradiction.
      + specialize (F O O ltac:(lia) ltac:(lia)). change (get X 0 0 = 0) in F. lia.
      + contradiction. }
  destruct NY as (Y & g & EY & Hg & WY & GY & Y1). rewrite EY.
  assert (Y00 : 0 < get Y 0 0). { specialize (GY O O ltac:(lia) ltac:(lia)). nia. }
  assert (Y0j : forall j, (0 < j < 1 + first)%nat -> get Y 0 j = 0).
  { intros j Hj. specialize (GY O j ltac:(lia) ltac:(lia)). rewrite X0j in GY by exact Hj. nia. }
  fold (U1Y m first n s Y). fold (U2mat m n s).
  destruct (compress_ok m first n B Hmn s ps HC full Y Y00 Y0j) as (N & EN & N0 & WN & CN).
  rewrite EN. split; [exact WN|]. split; [apply wf_tab|]. split; [intros Hf; rewrite N0; apply Y1; exact Hf|].
  apply (compresses_iff _ _ _ _ (solved m first n s Y)); [|exact CN].
  intros v. rewrite FV. unfold solved.
  assert (Q : forall i, (i < m)%nat -> mvec (1 + first) (fun r c => get X (S r) c) v i = g * mvec (1 + first) (fun r c => get Y (S r) c) v i).
  { intros i Hi. rewrite <- mvec_scale. apply mvec_ext; [|reflexivity]. intros c Hc. apply GY; lia. }
  rewrite (GY O O) by lia. split; intros F i Hi; specialize (F i Hi); rewrite Q in * by exact Hi; nia.
Qed.
