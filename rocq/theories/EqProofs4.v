(** Proofs about parameter compression, several congruences. *)
From Coq Require Import ZArith List Bool Lia Arith ZifyBool.
From Verif Require Import SeqModel SeqSpec SeqProofs MatModel MatSpec MatTheory HermiteProofs HermiteProofs2 InverseProofs InverseProofs2 InverseMin MatProofs EqModel EqSpec EqProofs EqProofs2 EqProofs3.
Import ListNotations.
Open Scope Z_scope.

Lemma block_index n i i' j : (j < n)%nat -> Nat.leb (i * n) (i' * n + j) && Nat.ltb (i' * n + j) (i * n + n) = Nat.eqb i' i.
Proof.
  intros Hj. destruct (Nat.eqb_spec i' i) as [->|Hne].
  - destruct (Nat.leb_spec (i * n) (i * n + j)), (Nat.ltb_spec (i * n + j) (i * n + n)); try lia; reflexivity.
  - destruct (Nat.lt_ge_cases i' i) as [L|L].
    + pose proof (Nat.mul_le_mono_r (S i') i n L) as Q. destruct (Nat.leb_spec (i * n) (i' * n + j)); [lia|reflexivity].
    + pose proof (Nat.mul_le_mono_r (S i) i' n ltac:(lia)) as Q. destruct (Nat.ltb_spec (i' * n + j) (i * n + n)); [lia|apply andb_false_r].
Qed.
Lemma block_lt n m i j : (i < m)%nat -> (j < n)%nat -> (i * n + j < m * n)%nat.
Proof. intros Hi Hj. pose proof (Nat.mul_le_mono_r (S i) m n Hi). lia. Qed.

Definition block (n : nat) (B : list (list Z)) (d : list Z) (D : Z) (A : list (list Z)) (i : nat) : Prop :=
  exists R V, (forall c, (c < n)%nat -> get R 0 c = get B i (1 + c)) /\ invp n V (get R) 1 /\
    forall k j, (k < n)%nat -> (j < n)%nat -> get A k (i * n + j) = if Nat.eqb j 0 then D / nth i d 0 * get R 0 k else D * get R j k.

Lemma compression_loop_ok n B d D : (forall row, In row B -> row_ok n row) -> (forall i, (i < length B)%nat -> 0 < nth i d 0 /\ (nth i d 0 | D)) ->
  forall k i A, (i + k = length B)%nat -> is_mat n (length B * n) A ->
  exists A', compression_loop (length B) n B d D (seq i k) A = Ok A' /\ is_mat n (length B * n) A' /\
    (forall i', (i <= i' < length B)%nat -> block n B d D A' i') /\
    (forall i' r j, (i' < i)%nat -> (r < n)%nat -> (j < n)%nat -> get A' r (i' * n + j) = get A r (i' * n + j)).
Proof.
  intros HB Hd. induction k as [|k IH]; intros i A Hi WA; cbn [seq compression_loop].
  { exists A. split; [reflexivity|]. split; [exact WA|]. split; [intros; lia|]. reflexivity. }
  destruct (row_ok_prim n (nth i B []) (HB _ (nth_In (n:=i) B [] ltac:(lia)))) as (Hn & Hp).
  destruct (complete_prim n (fun c => nth (1 + c) (nth i B []) 0) Hn Hp) as (R & V & ER & WR & R0 & IR).
  change (fun r c => if Nat.eqb r 0 then get B i (1 + c) else 0) with (fun r c => if Nat.eqb r 0 then nth (1 + c) (nth i B []) 0 else 0).
  rewrite ER. destruct (Hd i ltac:(lia)) as (D1 & q & Hq).
  assert (ED : divexact D (nth i d 0) * nth i d 0 = D). { unfold divexact. rewrite Hq, Z.div_mul by lia. reflexivity. }
  rewrite ED. set (A1 := tab n (length B * n) _).
  destruct (IH (S i) A1 ltac:(lia) (wf_tab _ _ _)) as (A' & E & WA' & B1 & B2).
  assert (AG : forall i' r j, (i' < length B)%nat -> (r < n)%nat -> (j < n)%nat -> get A1 r (i' * n + j) =
     if Nat.eqb i' i then (if Nat.eqb j 0 then D / nth i d 0 * get R 0 r else D * get R j r) else get A r (i' * n + j)).
  { intros i' r j Hi' Hr Hj. unfold A1. rewrite get_tab by (auto using block_lt). rewrite block_index by exact Hj.
    destruct (Nat.eqb_spec i' i) as [->|]; [|reflexivity]. replace (i * n + j - i * n)%nat with j by lia.
    destruct (Nat.eqb_spec (i * n + j) (i * n)), (Nat.eqb_spec j 0); try lia. reflexivity. }
  exists A'. split; [exact E|]. split; [exact WA'|]. split.
  - intros i' Hi'. destruct (Nat.eq_dec i' i) as [->|]; [|apply B1; lia].
    exists R, V. split; [exact R0|]. split; [exact IR|]. intros r j Hr Hj. rewrite B2 by lia. rewrite AG by lia. rewrite Nat.eqb_refl. reflexivity.
  - intros i' r j Hi' Hr Hj. rewrite B2 by lia. rewrite AG by lia. destruct (Nat.eqb_spec i' i); [lia|reflexivity].
Qed.

(** vector-matrix product *)
Lemma dot_sumn_swap n k (A : nat -> nat -> Z) x y : sumn n (fun r => y r * mvec k A x r) = sumn k (fun c => sumn n (fun r => y r * A r c) * x c).
Proof.
  unfold mvec. rewrite (sumn_ext n _ (fun r => sumn k (fun c => y r * A r c * x c))) by (intros; rewrite <- sumn_mul; apply sumn_ext; intros; ring).
  rewrite sumn_swap. apply sumn_ext. intros c Hc. rewrite <- sumn_mul_r. reflexivity.
Qed.
Lemma sumn_divide n f D : (forall k, (k < n)%nat -> (D | f k)) -> (D | sumn n f).
Proof. induction n as [|n IH]; intros H; [apply Z.divide_0_r|]. cbn [sumn]. apply Z.divide_add_r; [apply IH; auto|apply H; lia]. Qed.

Lemma lin_nth n B d y : length B = length d -> (lin n B d y <-> forall i, (i < length B)%nat -> (nth i d 0 | rdot n (nth i B []) y)).
Proof.
  revert d. induction B as [|row B IH]; intros [|x d] HL; try discriminate.
  - split; [intros _ i Hi; cbn in Hi; lia|intros _; constructor].
  - specialize (IH d ltac:(cbn in HL; lia)). unfold lin in *. split.
    + intros F i Hi. inversion F as [|? ? ? ? F1 F2]; subst. destruct i as [|i]; [exact F1|]. cbn [nth]. apply IH; [exact F2|cbn in Hi; lia].
    + intros F. constructor; [exact (F O ltac:(cbn; lia))|]. apply IH. intros i Hi. exact (F (S i) ltac:(cbn; lia)).
Qed.

Section Multi.
Variables (n : nat) (B : list (list Z)) (d : list Z) (D : Z) (A : list (list Z)).
Let m := length B.
Hypothesis HL : length B = length d.
Hypothesis Hm : (1 <= m)%nat.
Hypothesis Hn : (1 <= n)%nat.
Hypothesis HD : 0 < D.
Hypothesis Hd : forall i, (i < m)%nat -> 0 < nth i d 0 /\ (nth i d 0 | D).
Hypothesis HA : forall i, (i < m)%nat -> block n B d D A i.

(** the congruences in terms of the columns of [A] *)
Lemma lin_columns y : lin n B d y <-> forall c, (c < m * n)%nat -> (D | sumn n (fun r => y r * get A r c)).
Proof.
  rewrite (lin_nth n B d y HL). fold m. split.
  - intros F c Hc. pose proof (Nat.div_mod c n ltac:(lia)) as DM. set (i := (c / n)%nat) in *. set (j := (c mod n)%nat) in *.
    assert (Hj : (j < n)%nat) by (apply Nat.mod_upper_bound; lia).
    assert (Hi : (i < m)%nat) by (apply Nat.div_lt_upper_bound; lia).
    replace c with (i * n + j)%nat by lia. destruct (HA i Hi) as (R & V & R0 & _ & E).
    destruct (Nat.eqb_spec j 0) as [Ej|Ej].
    + specialize (F i Hi). destruct (Hd i Hi) as (P & (q & Hq)).
      rewrite (sumn_ext n _ (fun r => q * (nth (1 + r) (nth i B []) 0 * y r))).
      * rewrite sumn_mul. rewrite Hq at 1. apply Z.mul_divide_mono_l. exact F.
      * intros r Hr. rewrite E by assumption. rewrite Ej. cbn [Nat.eqb]. rewrite R0 by exact Hr. rewrite Hq, Z.div_mul by lia.
        unfold get. ring.
    + apply sumn_divide. intros r Hr. rewrite E by assumption. destruct (Nat.eqb_spec j 0); [contradiction|].
      apply Z.divide_mul_r, Z.divide_mul_l, Z.divide_refl.
  - intros F i Hi. specialize (F (i * n + 0)%nat (block_lt n m i 0 Hi ltac:(lia))). destruct (HA i Hi) as (R & V & R0 & _ & E).
    destruct (Hd i Hi) as (P & (q & Hq)).
    rewrite (sumn_ext n _ (fun r => q * (nth (1 + r) (nth i B []) 0 * y r))) in F.
    + rewrite sumn_mul in F. destruct F as (k & Hk). exists k. assert (Hq0 : q <> 0) by nia.
      unfold rdot. set (t := sumn n _) in *. rewrite Hq in Hk. assert (q * (t - k * nth i d 0) = 0) as Z0 by (rewrite Z.mul_sub_distr_l, Hk; ring).
      apply Z.mul_eq_0 in Z0. destruct Z0; [contradiction|lia].
    + intros r Hr. rewrite E by lia. cbn [Nat.eqb]. rewrite R0 by exact Hr. rewrite Hq, Z.div_mul by lia. unfold get. ring.
Qed.
(** the multiples of [D] are in the column lattice *)
Lemma columns_full r : (r < n)%nat -> exists z, forall i, (i < n)%nat -> mvec (m * n) (get A) z i = D * Id i r.
Proof.
  intros Hr. destruct (HA O ltac:(lia)) as (R & V & R0 & [IV1 IV2] & E). destruct (Hd O ltac:(lia)) as (P & (q & Hq)).
  exists (fun c => if Nat.ltb c n then (if Nat.eqb c 0 then nth 0 d 0 * V r 0%nat else V r c) else 0).
  intros i Hi. assert (Le : (n <= m * n)%nat) by (pose proof (Nat.mul_le_mono_r 1 m n Hm); lia).
  rewrite (mvec_pad n (m * n) (get A) (fun c => if Nat.eqb c 0 then nth 0 d 0 * V r 0%nat else V r c)) by exact Le.
  unfold mvec. rewrite (sumn_ext n _ (fun c => D * (V r c * get R c i))).
  - rewrite sumn_mul. specialize (IV1 r i Hr Hi). unfold mmul in IV1. rewrite IV1. rewrite Id_sym. ring.
  - intros c Hc. specialize (E i c Hi Hc). cbn [Nat.mul plus] in E. rewrite E. destruct (Nat.eqb_spec c 0) as [e|]; [rewrite e|ring].
    rewrite Hq, Z.div_mul by lia. ring.
Qed.
End Multi.

Lemma lcm_pos d : d <> [] -> (forall x, In x d -> 0 < x) -> 0 < seq_lcm d.
Proof.
  destruct d as [|x d]; [congruence|]. intros _ H. cbn [seq_lcm]. assert (Hx : 0 < x) by (apply H; left; reflexivity).
  assert (Hd : forall y, In y d -> 0 < y) by (intros; apply H; right; assumption). clear H. revert x Hx Hd.
  induction d as [|y d IH]; intros x Hx Hd; [exact Hx|]. cbn [fold_left]. apply IH; [|intros; apply Hd; right; assumption].
  specialize (Hd y (or_introl eq_refl)). pose proof (Z.lcm_nonneg x y). assert (Z.lcm x y <> 0); [|lia]. intros E. apply Z.lcm_eq_0 in E. lia.
Qed.

Lemma compression_multi_ok n B d : (forall row, In row B -> row_ok n row) -> (forall x, In x d -> 0 < x) -> length B = length d -> (1 <= length B)%nat ->
  exists T, parameter_compression_multi (length B) n B d = Ok T /\ aff_lattice n T (lin n B d).
Proof.
  intros HB Hd HL Hm.
  assert (Hn : (1 <= n)%nat). { destruct B as [|row B']; [cbn in Hm; lia|]. apply (row_ok_prim n row). apply HB. left. reflexivity. }
  unfold parameter_compression_multi. set (D := seq_lcm d).
  assert (HD : 0 < D). { apply lcm_pos; [|exact Hd]. destruct d; [cbn in HL; lia|discriminate]. }
  assert (Hd' : forall i, (i < length B)%nat -> 0 < nth i d 0 /\ (nth i d 0 | D)).
  { intros i Hi. assert (In (nth i d 0) d) by (apply nth_In; lia). split; [apply Hd; assumption|]. apply (lcm_ok d). assumption. }
  destruct (compression_loop_ok n B d D HB Hd' (length B) 0 (mat_zero n (length B * n)) ltac:(lia) (wf_tab _ _ _)) as (A & EA & WA & BA & _).
  rewrite EA. assert (HA : forall i, (i < length B)%nat -> block n B d D A i) by (intros; apply BA; lia).
  set (mn := (length B * n)%nat) in *.
  destruct (left_hermite_ok n mn A false WA) as (s & ps & E & HC & HH). rewrite E.
  assert (Hle : (n <= mn)%nat) by (unfold mn; pose proof (Nat.mul_le_mono_r 1 (length B) n Hm); lia).
  set (H1 := mat_sub (hM s) 0 n 0 n).
  assert (FZ : forall r, (r < n)%nat -> exists z, forall i, (i < n)%nat -> mvec n (get H1) z i = D * Id i r).
  { intros r Hr. destruct (columns_full n B d D A HL Hm Hn Hd' HA r Hr) as (x & Hx). exists (mvec mn (get (hQ s)) x).
    intros i Hi. rewrite <- Hx by exact Hi. symmetry. apply (solve_eq n mn (get A) s ps HC HH); [apply (ps_le n mn s ps HH)|exact Hle|exact Hi]. }
  assert (full : length ps = n).
  { apply (ech_full_rank n mn false _ ps HH). intros r Hr. destruct (columns_full n B d D A HL Hm Hn Hd' HA r Hr) as (x & Hx).
    exists D, (mvec mn (get (hQ s)) x). split; [lia|]. intros i Hi. rewrite <- Hx by exact Hi. symmetry. apply (core_HQ n mn (get A) s HC). exact Hi. }
  set (T0 := tab (1 + n) (1 + n) _).
  assert (TG : forall r c, (r < 1 + n)%nat -> (c < 1 + n)%nat -> get T0 r c =
     match r, c with O, O => D | O, S _ => 0 | S _, O => 0 | S i, S j => get H1 i j end).
  { intros r c Hr Hc. unfold T0. rewrite get_tab by assumption. rewrite lin_to_aff_get by assumption. destruct r, c; reflexivity. }
  assert (WT : is_mat (1 + n) (1 + n) T0) by apply wf_tab.
  (* an integer inverse with factor D *)
  assert (EW : exists W, forall i j, (i < 1 + n)%nat -> (j < 1 + n)%nat -> mmul (1 + n) (get T0) W i j = D * Id i j).
  { assert (CH : forall k, (k <= n)%nat -> exists Z0 : nat -> nat -> Z, forall r, (r < k)%nat -> forall i, (i < n)%nat -> mvec n (get H1) (Z0 r) i = D * Id i r).
    { induction k as [|k IHk]; intros Hk; [exists (fun _ _ => 0); intros; lia|]. destruct (IHk ltac:(lia)) as (Z0 & HZ). destruct (FZ k ltac:(lia)) as (z & Hz).
      exists (fun r => if Nat.eqb r k then z else Z0 r). intros r Hr i Hi. destruct (Nat.eqb_spec r k) as [->|]; [apply Hz; exact Hi|apply HZ; lia]. }
    destruct (CH n (Nat.le_refl _)) as (Z0 & HZ).
    exists (fun r c => match r, c with O, O => 1 | O, S _ => 0 | S _, O => 0 | S i, S j => Z0 j i end).
    intros i j Hi Hj. unfold mmul. change (1 + n)%nat with (S n). rewrite sumn_front. rewrite TG by lia. destruct i as [|i], j as [|j].
    - rewrite sumn_0 by (intros; ring). unfold Id. cbn [Nat.eqb]. ring.
    - rewrite sumn_0; [unfold Id; cbn [Nat.eqb]; ring|]. intros k Hk. rewrite TG by lia. ring.
    - rewrite sumn_0 by (intros; ring). unfold Id. cbn [Nat.eqb]. ring.
    - rewrite (sumn_ext n _ (fun k => get H1 i k * Z0 j k)) by (intros k Hk; rewrite TG by lia; reflexivity).
      pose proof (HZ j ltac:(lia) i ltac:(lia)) as Q. unfold mvec in Q. rewrite Q. unfold Id. cbn [Nat.eqb]. ring. }
  destruct EW as (W & HW).
  pose proof (right_inverse_ok (1 + n) (1 + n) T0 WT ltac:(lia)) as F.
  destruct (right_inverse (1 + n) (1 + n) T0) as [X| | |] eqn:EX; try contradiction.
  2:{ exfalso. destruct F as (v & (r & Hr & Hv) & F). apply Hv.
      assert (Q : mmul (1 + n) (mmul (1 + n) (fun _ k => v k) (get T0)) W 0 r = D * v r).
      { rewrite mmul_assoc. rewrite (mmul_ext (1 + n) _ (fun _ k => v k) _ (fun i j => D * Id i j)); [|reflexivity|intros k Hk; apply HW; lia].
        rewrite mmul_scale_r, (mmul_Id_r (1 + n) (fun _ k => v k) 0 r Hr). reflexivity. }
      unfold mmul at 1 in Q. rewrite sumn_0 in Q; [symmetry in Q; apply Z.mul_eq_0 in Q; lia|]. intros c Hc. specialize (F c Hc). change (mmul (1 + n) (fun _ k => v k) (get T0) 0 c = 0) in F. rewrite F. ring. }
  destruct F as (a & Ha & _ & F1 & F2). specialize (F2 eq_refl).
  assert (Da : (a | D)).
  { pose proof (right_inverse_min (1 + n) T0 X WT ltac:(lia) EX W D HW) as Q. rewrite F1 in Q by lia. change (delta 0 0) with 1 in Q. rewrite Z.mul_1_r in Q. exact Q. }
  assert (R0 : forall c, (c < 1 + n)%nat -> D * get X 0 c = a * Id 0 c).
  { intros c Hc. specialize (F1 O c ltac:(lia) Hc). change (mmul (1 + n) (get T0) (get X) 0 c = a * Id 0 c) in F1. rewrite <- F1.
    unfold mmul. change (1 + n)%nat with (S n). rewrite sumn_front, TG by lia. rewrite sumn_0; [ring|]. intros k Hk. rewrite TG by lia. ring. }
  assert (X00 : get X 0 0 = 1 /\ a = D).
  { pose proof (R0 O ltac:(lia)) as Q. change (Id 0 0) with 1 in Q. rewrite Z.mul_1_r in Q.
    destruct Da as (q & Hq). assert (a * (q * get X 0 0 - 1) = 0) as Z0 by (rewrite Z.mul_sub_distr_l; rewrite <- Q at 1; rewrite <- Q; rewrite Hq at 1; nia).
    apply Z.mul_eq_0 in Z0. destruct Z0 as [|Z0]; [lia|]. assert (D1 : (get X 0 0 | 1)) by (exists q; lia). apply Z.divide_1_r in D1.
    assert (get X 0 0 = 1) by nia. split; [assumption|nia]. }
  destruct X00 as (X00 & ->). rewrite X00. cbn [Z.eqb Pos.eqb].
  (* the rest of the inverse *)
  set (Y := fun r c => get X (S r) (S c)).
  assert (HY1 : forall i j, (i < n)%nat -> (j < n)%nat -> mmul n (get H1) Y i j = D * Id i j).
  { intros i j Hi Hj. specialize (F1 (S i) (S j) ltac:(lia) ltac:(lia)). change (mmul (1 + n) (get T0) (get X) (S i) (S j) = D * Id (S i) (S j)) in F1.
    replace (Id i j) with (Id (S i) (S j)) by reflexivity. rewrite <- F1. unfold mmul. change (1 + n)%nat with (S n). rewrite sumn_front, TG by lia.
    rewrite Z.mul_0_l, Z.add_0_l. apply sumn_ext. intros k Hk. rewrite TG by lia. reflexivity. }
  assert (HY2 : forall i j, (i < n)%nat -> (j < n)%nat -> mmul n Y (get H1) i j = D * Id i j).
  { intros i j Hi Hj. specialize (F2 (S i) (S j) ltac:(lia) ltac:(lia)). change (mmul (1 + n) (get X) (get T0) (S i) (S j) = D * Id (S i) (S j)) in F2.
    replace (Id i j) with (Id (S i) (S j)) by reflexivity. rewrite <- F2. unfold mmul. change (1 + n)%nat with (S n). rewrite sumn_front, TG by lia.
    rewrite Z.mul_0_r, Z.add_0_l. apply sumn_ext. intros k Hk. rewrite TG by lia. reflexivity. }
  assert (C0 : forall j, (j < n)%nat -> get X (S j) 0 = 0).
  { intros j Hj. specialize (F2 (S j) O ltac:(lia) ltac:(lia)). change (mmul (1 + n) (get X) (get T0) (S j) 0 = D * Id (S j) 0) in F2.
    unfold mmul in F2. change (1 + n)%nat with (S n) in F2. rewrite sumn_front, TG in F2 by lia. rewrite sumn_0 in F2.
    - unfold Id in F2. cbn [Nat.eqb] in F2. nia.
    - intros k Hk. rewrite TG by lia. ring. }
  assert (WX : is_mat (1 + n) (1 + n) X).
  { apply (right_inverse_wf (1 + n) T0); [lia|exact WT|exact EX]. }
  destruct (transpose_ok (1 + n) (1 + n) X WX) as (WT' & ET').
  eexists. split; [reflexivity|].
  assert (ET : forall r c, (r < 1 + n)%nat -> (c < 1 + n)%nat -> get (mat_transpose (1 + n) (1 + n) X) r c = get X c r) by (intros; apply ET'; assumption).
  split; [exact WT'|]. split; [rewrite ET by lia; exact X00|]. split.
  { intros j Hj. rewrite !ET by lia. split; [apply C0; exact Hj|]. pose proof (R0 (S j) ltac:(lia)) as Q. unfold Id in Q. cbn [Nat.eqb] in Q. nia. }
  apply (lattice_ext n (tr Y)); [intros i j Hi Hj; rewrite ET by lia; reflexivity|intros y y' Ey; apply lin_ext; exact Ey|].
  (* the lattice *)
  assert (LH : forall y, lin n B d y <-> forall c, (c < n)%nat -> (D | mvec n (tr (get H1)) y c)).
  { intros y. rewrite (lin_columns n B d D A HL Hm Hn HD Hd' HA). fold mn.
    assert (TE : forall c, (c < n)%nat -> mvec n (tr (get H1)) y c = sumn n (fun r => y r * get (hM s) r c)).
    { intros c Hc. unfold mvec, tr. apply sumn_ext. intros r Hr. rewrite (proj2 (mat_sub_ok (hM s) 0 n 0 n)) by lia. cbn [plus]. ring. }
    split.
    - intros F c Hc. rewrite TE by exact Hc.
      rewrite (sumn_ext n _ (fun r => y r * mvec mn (get A) (fun k => get (hU s) k c) r)).
      + rewrite dot_sumn_swap. apply sumn_divide. intros k Hk. apply Z.divide_mul_l. apply F. exact Hk.
      + intros r Hr. f_equal. apply (c_M _ _ _ _ _ _ HC); lia.
    - intros F c Hc.
      rewrite (sumn_ext n _ (fun r => y r * mvec mn (get (hM s)) (mvec mn (get (hQ s)) (fun k => Id k c)) r)).
      + rewrite dot_sumn_swap. apply sumn_divide. intros k Hk. apply Z.divide_mul_l. destruct (Nat.lt_ge_cases k n) as [L|L].
        * rewrite <- TE by exact L. apply F. exact L.
        * rewrite sumn_0; [apply Z.divide_0_r|]. intros r Hr. destruct HH as (_ & _ & _ & _ & Hz). rewrite Hz by lia. ring.
      + intros r Hr. f_equal. rewrite <- (core_HQ n mn (get A) s HC) by exact Hr. symmetry. exact (mmul_Id_r mn (get A) r c Hc). }
  assert (IT : invp n (tr Y) (tr (get H1)) D).
  { apply invp_tr. split; [exact HY1|exact HY2]. }
  split; [|split].
  - intros w. apply LH. intros c Hc. rewrite (invp_vec n (tr Y) (tr (get H1)) D w IT c Hc). apply Z.divide_mul_l, Z.divide_refl.
  - intros y Hy. rewrite LH in Hy. exists (fun c => mvec n (tr (get H1)) y c / D). intros i Hi.
    assert (Q : D * y i = D * mvec n (tr Y) (fun c => mvec n (tr (get H1)) y c / D) i); [|nia].
    rewrite <- (invp_vec n (tr (get H1)) (tr Y) D y (invp_sym _ _ _ _ IT) i Hi). rewrite <- mvec_lin. apply mvec_ext; [reflexivity|].
    intros k Hk. destruct (Hy k Hk) as (q & Hq). rewrite Hq, Z.div_mul by lia. ring.
  - intros w Hw j Hj. assert (Q : D * w j = 0); [|nia]. rewrite <- (invp_vec n (tr Y) (tr (get H1)) D w IT j Hj).
    unfold mvec at 1. apply sumn_0. intros k Hk. rewrite Hw by exact Hk. ring.
Qed.

Lemma sumn_sub n f g : sumn n (fun k => f k - g k) = sumn n f - sumn n g.
Proof. induction n as [|n IH]; cbn [sumn]; [reflexivity|]. rewrite IH. ring. Qed.

Lemma lin_congruent m n B d y : is_mat m (1 + n) B -> length d = m ->
  (lin n B d y <-> forall i, (i < m)%nat -> (nth i d 0 | mvec n (fun r c => get B r (1 + c)) y i)).
Proof. intros (L1 & _) L2. rewrite lin_nth by lia. rewrite L1. reflexivity. Qed.

(** the first row of a Hermite form *)
Lemma hermite_row0 nr nc H ps : (1 <= nr)%nat -> is_hermite nr nc false H ps ->
  (exists c, (c < nc)%nat /\ H O c <> 0) -> 0 < H O O /\ forall c, (0 < c < nc)%nat -> H O c = 0.
Proof.
  intros Hr HH (c0 & Hc0 & Hne). pose proof HH as (A & B & C & D & E).
  destruct ps as [|p ps'] eqn:EP; [exfalso; apply Hne; apply E; cbn; lia|]. rewrite <- EP in *.
  assert (LP : (0 < length ps)%nat) by (rewrite EP; cbn; lia).
  assert (P0 : nth 0 ps O = O).
  { destruct (Nat.eq_dec (nth 0 ps O) O) as [|NZ]; [assumption|]. exfalso. apply Hne.
    destruct (Nat.lt_ge_cases c0 (length ps)) as [L|L]; [|apply E; lia].
    apply (D c0 L). destruct c0 as [|c0]; [lia|]. specialize (C O (S c0) ltac:(lia)). lia. }
  split; [|intros c Hc; rewrite <- P0; apply (ech_right nr nc false H ps HH); lia].
  destruct (D O LP) as (Dp & _). rewrite P0 in Dp. exact Dp.
Qed.

Lemma parameter_compression_ok m n B d : is_mat m (1 + n) B -> length d = m -> (forall x, In x d -> 0 < x) ->
  match parameter_compression m n B d with
  | Ok (Some T) => is_mat (1 + n) (1 + n) T /\ parametrizes (1 + n) (elt T) (congruent m (1 + n) (elt B) (fun i => nth i d 0)) /\ elt T 0 0 = 1 /\ reduced_triangular (1 + n) (elt T)
  | Ok None => forall v, homogeneous v -> ~ congruent m (1 + n) (elt B) (fun i => nth i d 0) v
  | _ => False
  end.
Proof.
  intros WB Ld Hd. unfold parameter_compression.
  pose proof (particular_solution_ok m n B d ltac:(intros i Hi; apply Hd, nth_In; lia)) as PS.
  destruct (particular_solution m n B d) as [[cst|]| | |]; try contradiction; [|exact PS]. destruct PS as (WC & PC).
  pose proof (scale_rows_ok n B d ltac:(intros row Hr; destruct (In_nth B row [] Hr) as (i & Hi & <-); apply (proj2 WB); rewrite <- (proj1 WB); exact Hi) Hd ltac:(rewrite Ld; apply WB)) as SR.
  destruct (scale_rows B d) as [B' d']. destruct SR as (L' & HB' & Hd' & EL).
  set (T := match length B' with O => _ | _ => _ end).
  assert (HT : exists T', T = Ok T' /\ aff_lattice n T' (lin n B' d')).
  { unfold T. destruct B' as [|row [|row2 B'']].
    - destruct d'; [|discriminate]. eexists. split; [reflexivity|].
      assert (G : forall r c, (r < 1 + n)%nat -> (c < 1 + n)%nat -> get (mat_identity (1 + n)) r c = Id r c) by (intros; apply get_identity; assumption).
      split; [apply wf_tab|]. split; [rewrite G by lia; reflexivity|]. split; [intros j Hj; rewrite !G by lia; split; reflexivity|].
      assert (G2 : forall w i, (i < n)%nat -> mvec n (fun r c => get (mat_identity (1 + n)) (S r) (S c)) w i = w i).
      { intros w i Hi. unfold mvec. rewrite (sumn_one _ i); [rewrite G by lia; unfold Id; rewrite Nat.eqb_refl; ring|exact Hi|].
        intros k Hk Hne. rewrite G by lia. unfold Id. cbn [Nat.eqb]. destruct (Nat.eqb_spec i k); [congruence|ring]. }
      split; [intros; constructor|]. split.
      + intros y _. exists y. intros i Hi. symmetry. apply G2. exact Hi.
      + intros w Hw j Hj. rewrite <- (G2 w j Hj). apply Hw. exact Hj.
    - destruct d' as [|x [|]]; try discriminate. cbn [length]. apply compression_1_ok; [apply HB'; left; reflexivity|apply Hd'; left; reflexivity].
    - apply (compression_multi_ok n (row :: row2 :: B'') d' HB' Hd' L'). cbn. lia. }
  clearbody T. destruct HT as (T' & -> & WT & T00 & TZ & LT).
  destruct (left_hermite_ok (1 + n) (1 + n) T' false WT) as (s & ps & E & HC & HH). rewrite E.
  assert (LL : forall y, lin n B' d' y <-> (forall i, (i < m)%nat -> (nth i d 0 | mvec n (fun r c => get B r (1 + c)) y i))).
  { intros y. rewrite <- EL. apply lin_congruent; assumption. }
  assert (MT0 : forall x, mvec (1 + n) (get T') x 0 = x O).
  { intros x. unfold mvec. change (1 + n)%nat with (S n). rewrite sumn_front, T00. rewrite sumn_0; [ring|]. intros k Hk. rewrite (proj1 (TZ k Hk)). ring. }
  assert (MTS : forall x i, (i < n)%nat -> mvec (1 + n) (get T') x (S i) = mvec n (fun r c => get T' (S r) (S c)) (fun k => x (S k)) i).
  { intros x i Hi. unfold mvec at 1. change (1 + n)%nat with (S n). rewrite sumn_front, (proj2 (TZ i Hi)). rewrite Z.mul_0_l, Z.add_0_l. reflexivity. }
  set (H := get (hM s)) in *.
  assert (HQ : forall x i, (i < 1 + n)%nat -> mvec (1 + n) (get T') x i = mvec (1 + n) H (mvec (1 + n) (get (hQ s)) x) i) by (intros; apply (core_HQ (1 + n) (1 + n) (get T') s HC); assumption).
  assert (HU : forall x i, (i < 1 + n)%nat -> mvec (1 + n) H x i = mvec (1 + n) (get T') (mvec (1 + n) (get (hU s)) x) i) by (intros; apply (core_HU (1 + n) (1 + n) (get T') s _ 1 HC); assumption).
  assert (e0 : mvec (1 + n) H (mvec (1 + n) (get (hQ s)) (fun k => Id k 0)) 0 = 1) by (rewrite <- HQ by lia; rewrite MT0; reflexivity).
  assert (H0 : 0 < H O O /\ forall c, (0 < c < 1 + n)%nat -> H O c = 0).
  { apply (hermite_row0 (1 + n) (1 + n) H ps); [lia|exact HH|]. destruct (find_nonzero (1 + n) 0 (H O)) as [(c & Hc & F)|F]; [exists c; split; [lia|exact F]|].
    exfalso. unfold mvec at 1 in e0. rewrite sumn_0 in e0; [discriminate|]. intros k Hk. rewrite F by lia. ring. }
  destruct H0 as (Hp & Hz).
  assert (MH0 : forall x, mvec (1 + n) H x 0 = H O O * x O).
  { intros x. unfold mvec. change (1 + n)%nat with (S n). rewrite sumn_front. rewrite sumn_0; [ring|]. intros k Hk. rewrite Hz by lia. ring. }
  assert (H00 : H O O = 1).
  { rewrite MH0 in e0. assert (D1 : (H O O | 1)) by (exists (mvec (1 + n) (get (hQ s)) (fun k => Id k 0) 0); lia). apply Z.divide_1_r_nonneg in D1; lia. }
  set (N := tab (1 + n) (1 + n) _).
  assert (NG : forall r c, (r < 1 + n)%nat -> (c < 1 + n)%nat -> get N r c = match r, c with S i, O => get cst i 0 | _, _ => H r c end).
  { intros r c Hr Hc. unfold N. rewrite get_tab by assumption. destruct c as [|c], r as [|r]; cbn [Nat.eqb andb negb]; try reflexivity. rewrite Nat.sub_succ, Nat.sub_0_r. reflexivity. }
  assert (N0 : forall w, homogeneous w -> mvec (1 + n) (get N) w 0 = 1).
  { intros w Hw. unfold mvec. change (1 + n)%nat with (S n). rewrite sumn_front, NG by lia. rewrite H00, Hw. rewrite sumn_0; [ring|].
    intros k Hk. rewrite NG by lia. rewrite Hz by lia. ring. }
  set (z0 := fun w : nat -> Z => fun k => match k with O => 0 | S k => w (S k) end).
  assert (NS : forall w i, homogeneous w -> (i < n)%nat -> mvec (1 + n) (get N) w (S i) = get cst i 0 + mvec (1 + n) H (z0 w) (S i)).
  { intros w i Hw Hi. unfold mvec. change (1 + n)%nat with (S n). rewrite !sumn_front, NG by lia. rewrite Hw. cbn [z0]. rewrite Z.mul_0_r, Z.mul_1_r, Z.add_0_l.
    f_equal. apply sumn_ext. intros k Hk. rewrite NG by lia. reflexivity. }
  rewrite (congruent_hom m n B d) in PC.
  assert (CE : forall y, congruent m (1 + n) (elt B) (fun i => nth i d 0) (hom y) <-> lin n B' d' (fun j => y j - get cst j 0)).
  { intros y. rewrite congruent_hom, LL.
    assert (SB : forall i, mvec n (fun r c => get B r (1 + c)) (fun j => y j - get cst j 0) i = mvec n (fun r c => get B r (1 + c)) y i - mvec n (fun r c => get B r (1 + c)) (fun j => get cst j 0) i).
    { intros i. unfold mvec. rewrite <- sumn_sub. apply sumn_ext. intros; ring. }
    split; intros F i Hi; specialize (F i Hi); specialize (PC i Hi).
    - rewrite SB. replace (_ - _) with ((get B i 0 + mvec n (fun r c => get B r (1 + c)) y i) - (get B i 0 + mvec n (fun r c => get B r (1 + c)) (fun j => get cst j 0) i)) by ring.
      apply Z.divide_sub_r; assumption.
    - rewrite SB in F. pose proof (Z.divide_add_r _ _ _ F PC) as Q. replace (_ + _) with (get B i 0 + mvec n (fun r c => get B r (1 + c)) y i) in Q by ring. exact Q. }
  assert (HI : forall w, (forall i, (i < 1 + n)%nat -> mvec (1 + n) H w i = 0) -> forall j, (j < 1 + n)%nat -> w j = 0).
  { intros w Hw j Hj. assert (U0 : forall k, (k < 1 + n)%nat -> mvec (1 + n) (get (hU s)) w k = 0).
    { intros k Hk. destruct k as [|k].
      - rewrite <- MT0. rewrite <- HU by lia. apply Hw. lia.
      - refine (proj2 (proj2 LT) (fun k => mvec (1 + n) (get (hU s)) w (S k)) _ k ltac:(lia)). intros i Hi. rewrite <- (MTS (mvec (1 + n) (get (hU s)) w) i Hi). rewrite <- HU by lia. apply Hw. lia. }
    assert (Q : 1 * w j = 0); [|lia]. rewrite <- (invp_vec (1 + n) _ _ 1 w (c_inv _ _ _ _ _ _ HC) j Hj). unfold mvec at 1. apply sumn_0. intros k Hk. rewrite U0 by exact Hk. ring. }
  assert (LP : length ps = (1 + n)%nat).
  { destruct HH as (Lp & _ & _ & _ & ZC). destruct (Nat.eq_dec (length ps) (1 + n)) as [|NE]; [assumption|exfalso]. assert (F : delta n n = 0).
    { apply (HI (fun k => delta k n)); [|lia]. intros i Hi. unfold mvec. rewrite sumn_0; [reflexivity|]. intros k Hk. unfold delta. destruct (Nat.eqb_spec k n) as [->|]; [|ring]. rewrite ZC by lia. ring. }
    unfold delta in F. rewrite Nat.eqb_refl in F. discriminate. }
  assert (PC2 : forall c, (c < 1 + n)%nat -> nth c ps O = c).
  { destruct HH as (_ & B1 & B2 & _). assert (GE : forall c, (c < 1 + n)%nat -> (c <= nth c ps O)%nat) by (induction c as [|c IHc]; intros Hc; [lia|]; specialize (IHc ltac:(lia)); specialize (B2 c (S c) ltac:(lia)); lia).
    assert (LE : forall k c, (c + k = n)%nat -> (nth c ps O <= c)%nat) by (induction k as [|k IHk]; intros c Hc; [specialize (B1 c ltac:(lia)); lia|]; specialize (IHk (S c) ltac:(lia)); specialize (B2 c (S c) ltac:(lia)); lia).
    intros c Hc. specialize (GE c Hc). specialize (LE (n - c)%nat c ltac:(lia)). lia. }
  assert (TRI : elt N 0 0 = 1 /\ reduced_triangular (1 + n) (elt N)).
  { destruct HH as (_ & _ & _ & B3 & _). split; [change (get N 0 0 = 1); rewrite NG by lia; exact H00|]. intros i Hi. change (elt N) with (get N). destruct (B3 i ltac:(lia)) as (P1 & _ & P3). rewrite PC2 in P1, P3 by exact Hi. split; [rewrite NG by exact Hi; destruct i; exact P1|]. split.
    - intros j Hj. rewrite NG by lia. destruct (B3 j ltac:(lia)) as (_ & P2 & _). rewrite PC2 in P2 by lia. specialize (P2 i ltac:(lia)). destruct i, j; try lia; exact P2.
    - intros j Hj. rewrite !NG by lia. specialize (P3 j ltac:(lia)). destruct i, j; try lia; exact P3. }
  split; [apply wf_tab|]. split; [split; [|split]|exact TRI].
  - intros w Hw. split; [exact (N0 w Hw)|].
    apply (congruent_ext m (1 + n) _ _ (hom (fun j => mvec (1 + n) (get N) w (S j)))).
    { intros [|i] Hi; [symmetry; exact (N0 w Hw)|reflexivity]. }
    rewrite CE.
    assert (U0 : mvec (1 + n) (get (hU s)) (z0 w) 0 = 0). { rewrite <- MT0. rewrite <- HU by lia. rewrite MH0. cbn [z0]. ring. }
    apply (lin_ext n B' d' (mvec n (fun r c => get T' (S r) (S c)) (fun k => mvec (1 + n) (get (hU s)) (z0 w) (S k)))); [|apply LT].
    intros i Hi. rewrite <- (MTS (mvec (1 + n) (get (hU s)) (z0 w)) i Hi). rewrite <- HU by lia. rewrite NS by assumption. ring.
  - intros v Hv Cv. assert (Cv' : lin n B' d' (fun j => v (S j) - get cst j 0)).
    { rewrite <- CE. apply (congruent_ext m (1 + n) _ _ v); [intros; apply homogeneous_hom; exact Hv|exact Cv]. }
    destruct (proj1 (proj2 LT) _ Cv') as (g & Hg). set (x := fun k => match k with O => 0 | S k => g k end).
    set (u := mvec (1 + n) (get (hQ s)) x).
    assert (U0 : u O = 0). { assert (Q : H O O * u O = 0); [|rewrite H00 in Q; lia]. rewrite <- MH0. unfold u. rewrite <- HQ by lia. rewrite MT0. reflexivity. }
    exists (fun k => match k with O => 1 | S k => u (S k) end). split; [reflexivity|].
    intros [|i] Hi; [rewrite Hv; symmetry; apply N0; reflexivity|].
    transitivity (get cst i 0 + mvec (1 + n) H u (S i)).
    + unfold u. rewrite <- HQ by lia. rewrite MTS by lia. cbn [x]. change (fun k => g k) with g. rewrite <- Hg by lia. ring.
    + symmetry. change (mvec (1 + n) (get N) (fun k => match k with O => 1 | S k => u (S k) end) (S i) = get cst i 0 + mvec (1 + n) H u (S i)). rewrite NS by (reflexivity || lia). f_equal. apply mvec_ext; [reflexivity|].
      intros [|k] Hk; cbn [z0]; [symmetry; exact U0|reflexivity].
  - intros w w' Hw Hw' Heq j Hj. assert (Q : w j - w' j = 0); [|lia]. apply (HI (fun j => w j - w' j)); [|exact Hj].
    assert (SB : forall i, mvec (1 + n) H (fun j => w j - w' j) i = mvec (1 + n) H w i - mvec (1 + n) H w' i).
    { intros i. unfold mvec. rewrite <- sumn_sub. apply sumn_ext. intros; ring. }
    intros [|i] Hi; [rewrite MH0, Hw, Hw'; ring|].
    specialize (Heq (S i) Hi). change (mvec (1 + n) (get N) w (S i) = mvec (1 + n) (get N) w' (S i)) in Heq. rewrite !NS in Heq by (assumption || lia).
    assert (Z0 : forall w, homogeneous w -> mvec (1 + n) H w (S i) = H (S i) O + mvec (1 + n) H (z0 w) (S i)).
    { intros w1 Hw1. unfold mvec. change (1 + n)%nat with (S n). rewrite !sumn_front. rewrite Hw1. cbn [z0]. rewrite Z.mul_0_r, Z.mul_1_r, Z.add_0_l. reflexivity. }
    rewrite SB, (Z0 w Hw), (Z0 w' Hw'). apply Z.add_cancel_l in Heq. rewrite Heq. ring.
Qed.
