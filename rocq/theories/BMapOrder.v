(** Proofs for isl_basic_map_order_divs and isl_basic_map_gauss. *)
From Coq Require Import ZArith List Bool Lia Arith Permutation.
From Verif Require Import SeqModel SeqSpec SeqProofs MatModel BMapModel BMapSpec BMapSem BMapLists BMapNorm BMapGauss BMapGauss2.
Import ListNotations.
Open Scope Z_scope.

Lemma swap_row_length off a b r : length (swap_row off a b r) = length r.
Proof. unfold swap_row. rewrite !zupd_length. reflexivity. Qed.
Definition tr (a b k : nat) : nat := if Nat.eqb k a then b else if Nat.eqb k b then a else k.
Lemma tr_tr a b k : tr a b (tr a b k) = k.
Proof. unfold tr. destruct (Nat.eqb_spec k a), (Nat.eqb_spec k b); repeat match goal with |- context [Nat.eqb ?x ?y] => destruct (Nat.eqb_spec x y) end; lia. Qed.
Lemma tr_lt a b k n : (a < n)%nat -> (b < n)%nat -> (k < n)%nat -> (tr a b k < n)%nat.
Proof. intros. unfold tr. repeat match goal with |- context [Nat.eqb ?x ?y] => destruct (Nat.eqb_spec x y) end; lia. Qed.
Lemma nth_swap_row off a b r k : (off + a < length r)%nat -> (off + b < length r)%nat -> nth (off + k) (swap_row off a b r) 0 = nth (off + tr a b k) r 0.
Proof.
  intros Ha Hb. unfold swap_row. rewrite !nth_zupd, zupd_length. destruct (Nat.ltb_spec (off + a) (length r)); [|lia]. destruct (Nat.ltb_spec (off + b) (length r)); [|lia]. rewrite !andb_true_r. unfold tr.
  repeat match goal with |- context [Nat.eqb ?x ?y] => destruct (Nat.eqb_spec x y) end; try lia; try reflexivity; f_equal; lia.
Qed.
Lemma nth_swap_row_lt off a b r k : (k < off)%nat -> nth k (swap_row off a b r) 0 = nth k r 0.
Proof.
  intros H. unfold swap_row. rewrite !nth_zupd. destruct (Nat.eqb_spec k (off + b)); [lia|]. destruct (Nat.eqb_spec k (off + a)); [lia|]. reflexivity.
Qed.
Lemma list_ext (l m : list Z) : length l = length m -> (forall k, nth k l 0 = nth k m 0) -> l = m.
Proof. intros L H. apply (nth_ext _ _ 0 0); auto. Qed.
Lemma swap_row_swap off a b r : (off + a < length r)%nat -> (off + b < length r)%nat -> swap_row off a b (swap_row off a b r) = r.
Proof.
  intros Ha Hb. apply list_ext; [rewrite !swap_row_length; reflexivity|]. intros k. destruct (Nat.lt_ge_cases k off) as [L|G].
  - rewrite !nth_swap_row_lt by exact L. reflexivity.
  - replace k with (off + (k - off))%nat by lia. rewrite !nth_swap_row by (rewrite ?swap_row_length; assumption). rewrite tr_tr. reflexivity.
Qed.
Lemma dot_swap_row off a b r v : (off + a < length r)%nat -> (off + b < length r)%nat -> length v = length r ->
  dot (swap_row off a b r) v = dot r (swap_row off a b v).
Proof.
  intros Ha Hb L. unfold swap_row. rewrite (dot_comm r). rewrite !dot_zupd by (rewrite ?zupd_length; lia). rewrite !nth_zupd. rewrite (dot_comm v r).
  destruct (Nat.ltb_spec (off + a) (length r)); [|lia]. destruct (Nat.ltb_spec (off + a) (length v)); [|lia]. rewrite !andb_true_r. destruct (Nat.eqb_spec (off + b) (off + a)) as [E|E]; [rewrite E|]; ring.
Qed.
Lemma swap_row_tl off a b r : r <> [] -> tl (swap_row (S off) a b r) = swap_row off a b (tl r) /\ hd 0 (swap_row (S off) a b r) = hd 0 r.
Proof. destruct r as [|x r]; [congruence|]. intros _. unfold swap_row. cbn. split; reflexivity. Qed.
Lemma swap_row_app p a b e : swap_row (length p) a b (p ++ e) = p ++ swap_row 0 a b e.
Proof.
  unfold swap_row. rewrite !app_nth2 by lia. replace (length p + b - length p)%nat with b by lia. replace (length p + a - length p)%nat with a by lia. cbn [plus].
  assert (Z : forall i x e, zupd (p ++ e) (length p + i) x = p ++ zupd e i x) by (intros i x; induction p as [|y p IH]; intros e'; cbn; [reflexivity|f_equal; apply IH]).
  rewrite !Z. reflexivity.
Qed.

(** [b'] is [b] with its local variables renamed *)
Definition renames (b b' : bmap) : Prop :=
  shape b b' /\ wf b' /\
  (exists f : list Z -> list Z, exists g : list Z -> list Z,
    (forall e, length e = ndiv b -> length (f e) = ndiv b /\ length (g e) = ndiv b /\ f (g e) = e) /\
    forall p e, length p = (1 + nvar b)%nat -> length e = ndiv b ->
      (system (b_eq b') (b_ineq b') (p ++ e) <-> system (b_eq b) (b_ineq b) (p ++ f e)) /\
      (divisions (b_div b') (1 + nvar b) (p ++ e) <-> divisions (b_div b) (1 + nvar b) (p ++ f e))).
Lemma renames_refl b : wf b -> renames b b.
Proof. intros W. split; [apply shape_refl|]. split; [exact W|]. exists (fun e => e), (fun e => e). split; [auto|]. intros; tauto. Qed.
Lemma renames_trans a b c : renames a b -> renames b c -> renames a c.
Proof.
  intros (S1 & W1 & f1 & g1 & I1 & H1) (S2 & W2 & f2 & g2 & I2 & H2). split; [eapply shape_trans; eassumption|]. split; [exact W2|]. destruct (shape_nvar _ _ S1) as [NV _]. assert (ND : ndiv b = ndiv a) by apply S1. rewrite ND, NV in *.
  exists (fun e => f1 (f2 e)), (fun e => g2 (g1 e)). split.
  - intros e L. destruct (I2 e L) as (A1 & A2 & _). destruct (I1 _ A1) as (B1 & _). destruct (I1 e L) as (C1 & C2 & C3). destruct (I2 _ C2) as (D1 & D2 & D3). split; [exact B1|]. split; [exact D2|]. rewrite D3. exact C3.
  - intros p e Lp Le. destruct (I2 e Le) as (A1 & _). destruct (H2 p e Lp Le) as [X Y]. destruct (H1 p (f2 e) Lp A1) as [X' Y']. split; [rewrite X; exact X'|rewrite Y; exact Y'].
Qed.

Lemma swap_div_ok b i j : wf b -> (i < ndiv b)%nat -> (j < ndiv b)%nat ->
  renames b (swap_div b i j) /\ (denoms (b_div b) -> denoms (b_div (swap_div b i j))) /\
  (forall k, (k < ndiv b)%nat -> let d := nth (tr i j k) (b_div b) [] in let d' := nth k (b_div (swap_div b i j)) [] in
     hd 0 d' = hd 0 d /\ forall c, nth (2 + nvar b + c) d' 0 = nth (2 + nvar b + tr i j c) d 0).
Proof.
  intros (We & Wi & Wd) Hi Hj. 
  assert (ND : ndiv (swap_div b i j) = ndiv b) by (unfold swap_div, ndiv; cbn; rewrite map_length, lswap_length; reflexivity).
  assert (SH : shape b (swap_div b i j)) by (split; [reflexivity|]; split; [reflexivity|]; split; [reflexivity|]; split; [exact ND|]; split; reflexivity).
  assert (NTH : forall k, (k < ndiv b)%nat -> nth k (b_div (swap_div b i j)) [] = swap_row (2 + nvar b) i j (nth (tr i j k) (b_div b) [])).
  { intros k Hk. cbn [swap_div b_div set_div]. rewrite (nth_indep _ [] (swap_row (2 + nvar b) i j [])) by (rewrite map_length, lswap_length; exact Hk). rewrite map_nth. f_equal. rewrite nth_lswap by assumption. unfold tr.
    destruct (Nat.eqb_spec k j) as [->|]; [destruct (Nat.eqb_spec j i) as [->|]; reflexivity|]. destruct (Nat.eqb k i); reflexivity. }
  assert (ROWS : forall n l, rows_of n l -> rows_of n (map (swap_row (1 + nvar b) i j) l)).
  { intros n l. unfold rows_of. rewrite Forall_map. apply Forall_impl. intros r. rewrite swap_row_length. auto. }
  split; [|split].
  - split; [exact SH|]. split.
    + unfold wf. rewrite (proj2 (shape_nvar _ _ SH)). split; [apply ROWS; exact We|]. split; [apply ROWS; exact Wi|]. apply rows_iff. change (length (b_div (swap_div b i j))) with (ndiv (swap_div b i j)). rewrite ND. intros k Hk. rewrite NTH by exact Hk. rewrite swap_row_length. apply rows_nth; [exact Wd|apply tr_lt; assumption].
    + exists (swap_row 0 i j), (swap_row 0 i j). split.
      * intros e Le. rewrite !swap_row_length. split; [exact Le|]. split; [exact Le|]. apply swap_row_swap; cbn [plus]; lia.
      * intros p e Lp Le. rewrite <- swap_row_app, Lp. set (v := p ++ e). assert (Lv : length v = (1 + total b)%nat) by (unfold v, total; rewrite app_length; lia).
        assert (DT : forall r, length r = (1 + total b)%nat -> dot (swap_row (1 + nvar b) i j r) v = dot r (swap_row (1 + nvar b) i j v)) by (intros r Lr; apply dot_swap_row; unfold total in *; lia).
        split.
        -- unfold system. cbn [swap_div b_eq b_ineq set_div set_ineq set_eq]. rewrite !Forall_map.
           assert (Q : forall (P : Z -> Prop) l, rows_of (1 + total b) l -> (Forall (fun r => P (dot (swap_row (1 + nvar b) i j r) v)) l <-> Forall (fun r => P (dot r (swap_row (1 + nvar b) i j v))) l)).
           { intros P l R. rewrite !Forall_forall. split; intros H r Hr; specialize (H r Hr); (rewrite DT in * by (apply (proj1 (Forall_forall _ _) R); exact Hr)); exact H. }
           pose proof (Q (fun z => z = 0) _ We). pose proof (Q (fun z => 0 <= z) _ Wi). unfold zero_on, nonneg_on. tauto.
        -- assert (Q : forall k, (k < ndiv b)%nat -> (division (nth k (b_div (swap_div b i j)) []) (nth (1 + nvar b + k) v 0) v <-> division (nth (tr i j k) (b_div b) []) (nth (1 + nvar b + tr i j k) (swap_row (1 + nvar b) i j v) 0) (swap_row (1 + nvar b) i j v))).
           { intros k Hk. rewrite NTH by exact Hk. rewrite nth_swap_row by (unfold total in *; lia). rewrite tr_tr. set (d := nth (tr i j k) (b_div b) []). assert (Ld : length d = (2 + total b)%nat) by (apply rows_nth; [exact Wd|apply tr_lt; assumption]).
             unfold division. destruct (swap_row_tl (1 + nvar b) i j d) as [E1 E2]; [intros F; rewrite F in Ld; cbn in Ld; lia|]. change (2 + nvar b)%nat with (S (1 + nvar b)). rewrite E1, E2. rewrite DT; [reflexivity|]. destruct d; cbn in Ld |- *; lia. }
           unfold divisions. change (length (b_div (swap_div b i j))) with (ndiv (swap_div b i j)). rewrite ND. change (length (b_div b)) with (ndiv b). split; intros H k Hk.
           ++ specialize (H (tr i j k) ltac:(apply tr_lt; assumption)). apply Q in H; [|apply tr_lt; assumption]. rewrite tr_tr in H. exact H.
           ++ apply Q; [exact Hk|]. apply H. apply tr_lt; assumption.
  - unfold denoms. rewrite !(Forall_nth_iff _ _ []). change (length (b_div (swap_div b i j))) with (ndiv (swap_div b i j)). rewrite ND. intros D k Hk. rewrite NTH by exact Hk.
    assert (Hk' : (tr i j k < length (b_div b))%nat) by (apply tr_lt; assumption). pose proof (rows_nth _ _ _ Wd Hk') as Ld. change (2 + nvar b)%nat with (S (1 + nvar b)). rewrite (proj2 (swap_row_tl (1 + nvar b) i j (nth (tr i j k) (b_div b) []) ltac:(intros F; rewrite F in Ld; cbn in Ld; lia))). apply D. exact Hk'.
  - intros k Hk. cbn zeta. rewrite NTH by exact Hk. assert (Hk' : (tr i j k < length (b_div b))%nat) by (apply tr_lt; assumption). pose proof (rows_nth _ _ _ Wd Hk') as Ld. split.
    + apply (swap_row_tl (1 + nvar b)). intros F; rewrite F in Ld; cbn in Ld; lia.
    + intros c. apply nth_swap_row; rewrite Ld; unfold total; lia.
Qed.

(** the number of ranks below a bound *)
Fixpoint cnt (t : nat) (R : list nat) : nat := match R with [] => O | x :: R' => ((if Nat.ltb x t then 1 else 0) + cnt t R')%nat end.
Lemma cnt_le t R : (cnt t R <= length R)%nat.
Proof. induction R as [|x R IH]; cbn [cnt length In]; [lia|]. destruct (Nat.ltb x t); lia. Qed.
Lemma cnt_lt t R : In t R -> (cnt t R < length R)%nat.
Proof. induction R as [|x R IH]; cbn [cnt length In]; [intros []|]. intros [->|H]. - rewrite Nat.ltb_irrefl. pose proof (cnt_le t R). lia. - specialize (IH H). destruct (Nat.ltb x t); lia. Qed.
Lemma cnt_mono s t R : (s <= t)%nat -> (cnt s R <= cnt t R)%nat.
Proof. intros L. induction R as [|x R IH]; cbn [cnt length In]; [lia|]. destruct (Nat.ltb_spec x s), (Nat.ltb_spec x t); lia. Qed.
Lemma cnt_strict s t R : (s < t)%nat -> In s R -> (cnt s R < cnt t R)%nat.
Proof.
  intros L. induction R as [|x R IH]; cbn [cnt length In]; [intros []|]. pose proof (cnt_mono s t R ltac:(lia)). intros [->|H'].
  - rewrite Nat.ltb_irrefl. destruct (Nat.ltb_spec s t); lia.
  - specialize (IH H'). destruct (Nat.ltb_spec x s), (Nat.ltb_spec x t); lia.
Qed.

Definition ranked (b : bmap) (rank : nat -> nat) : Prop :=
  forall k j, (k < ndiv b)%nat -> (j < ndiv b)%nat -> hd 0 (nth k (b_div b) []) <> 0 ->
    nth (2 + nvar b + j) (nth k (b_div b) []) 0 <> 0 -> (rank j < rank k)%nat.
Definition ordered_upto (b : bmap) (i : nat) : Prop :=
  forall k j, (k < i)%nat -> (k <= j)%nat -> hd 0 (nth k (b_div b) []) <> 0 -> nth (2 + nvar b + j) (nth k (b_div b) []) 0 = 0.

Lemma order_divs_loop_ok R : forall fuel b i rank, wf b -> ranked b rank -> (forall k, (k < ndiv b)%nat -> In (rank k) R) -> length R = ndiv b ->
  (i <= ndiv b)%nat -> ordered_upto b i ->
  ((if Nat.ltb i (ndiv b) then (ndiv b - i - 1) * S (ndiv b) + cnt (rank i) R + 1 else 0) < fuel)%nat ->
  exists b', order_divs_loop fuel b i = Ok b' /\ renames b b' /\ ordered b' /\ (denoms (b_div b) -> denoms (b_div b')) /\ length (b_eq b') = length (b_eq b) /\ length (b_ineq b') = length (b_ineq b).
Proof.
  induction fuel as [|fuel IH]; intros b i rank W RK IR LR Hi O F; [lia|]. cbn [order_divs_loop]. destruct (Nat.leb_spec (ndiv b) i) as [D|D].
  { exists b. split; [reflexivity|]. split; [apply renames_refl; exact W|]. split; [intros k j Hk; apply O; lia|]. auto. }
  destruct (Nat.ltb_spec i (ndiv b)); [|lia]. set (d := nth i (b_div b) []) in *. assert (Ld : length d = (2 + total b)%nat) by (apply rows_nth; [apply W|exact D]).
  assert (NEXT : (forall j, (i <= j)%nat -> hd 0 d <> 0 -> nth (2 + nvar b + j) d 0 = 0) -> 
     exists b', order_divs_loop fuel b (S i) = Ok b' /\ renames b b' /\ ordered b' /\ (denoms (b_div b) -> denoms (b_div b')) /\ length (b_eq b') = length (b_eq b) /\ length (b_ineq b') = length (b_ineq b)).
  { intros Z0. apply (IH b (S i) rank W RK IR LR); [lia| |].
    - intros k j Hk Hkj Hh. destruct (Nat.eq_dec k i) as [->|]; [apply Z0; assumption|]. apply O; auto; lia.
    - destruct (Nat.ltb_spec (S i) (ndiv b)); [|lia]. pose proof (cnt_lt (rank (S i)) R (IR (S i) ltac:(lia))). 
      assert (E : (ndiv b - i - 1 = S (ndiv b - S i - 1))%nat) by lia. rewrite E in F. cbn [Nat.mul] in F. lia. }
  destruct (Z.eqb_spec (hd 0 d) 0) as [E|E]; [apply NEXT; intros; contradiction|].
  pose proof (first_non_zero_ok (skipn (2 + nvar b + i) d)) as FN. destruct (seq_first_non_zero (skipn (2 + nvar b + i) d)) as [pos|].
  2:{ apply NEXT. intros j Hj _. specialize (FN (j - i)%nat). rewrite nth_skipn in FN. replace (2 + nvar b + j)%nat with (2 + nvar b + i + (j - i))%nat by lia. exact FN. }
  destruct FN as (Lp & Np & _). rewrite skipn_length in Lp. rewrite nth_skipn in Np. set (j := (i + pos)%nat). assert (Hj : (j < ndiv b)%nat) by (unfold j, total in *; lia).
  assert (RJ : (rank j < rank i)%nat). { apply (RK i j D Hj E). replace (2 + nvar b + j)%nat with (2 + nvar b + i + pos)%nat by (unfold j; lia). exact Np. }
  destruct pos as [|pos]; [unfold j in RJ; rewrite Nat.add_0_r in RJ; lia|]. fold j.
  destruct (swap_div_ok b i j W D Hj) as (RN & DN & SD). pose proof RN as (SH & W' & _). assert (ND : ndiv (swap_div b i j) = ndiv b) by apply SH. pose proof (proj1 (shape_nvar _ _ SH)) as NV.
  destruct (IH (swap_div b i j) i (fun k => rank (tr i j k)) W') as (b' & E' & R' & O' & D' & Q1 & Q2).
  - intros k l Hk Hl Hh Hn. rewrite ND, NV in *. destruct (SD k Hk) as [S1 S2]. rewrite S1 in Hh. rewrite S2 in Hn. apply RK; auto; apply tr_lt; assumption.
  - intros k Hk. rewrite ND in Hk. apply IR. apply tr_lt; assumption.
  - rewrite ND. exact LR.
  - rewrite ND. exact Hi.
  - intros k l Hk Hl Hh. rewrite NV. destruct (SD k ltac:(lia)) as [S1 S2]. rewrite S1 in Hh. rewrite S2.
    assert (TK : tr i j k = k) by (unfold tr; destruct (Nat.eqb_spec k i); [lia|]; destruct (Nat.eqb_spec k j); [unfold j in *; lia|reflexivity]). rewrite TK in *. apply O; [exact Hk| |exact Hh].
    unfold tr. destruct (Nat.eqb_spec l i); [unfold j; lia|]. destruct (Nat.eqb_spec l j); lia.
  - rewrite ND. destruct (Nat.ltb_spec i (ndiv b)); [|lia]. unfold tr. rewrite Nat.eqb_refl. pose proof (cnt_strict (rank j) (rank i) R RJ (IR j Hj)). lia.
  - exists b'. split; [exact E'|]. split; [eapply renames_trans; eassumption|]. split; [exact O'|]. split; [auto|]. rewrite Q1, Q2. unfold swap_div. cbn. rewrite !map_length. auto.
Qed.

Lemma order_divs_ok b : wf b -> acyclic b ->
  exists b', order_divs b = Ok b' /\ renames b b' /\ ordered b' /\ (denoms (b_div b) -> denoms (b_div b')) /\ length (b_eq b') = length (b_eq b) /\ length (b_ineq b') = length (b_ineq b).
Proof.
  intros W (rank & RK). unfold order_divs. apply (order_divs_loop_ok (map rank (seq 0 (ndiv b))) _ b 0 rank W RK).
  - intros k Hk. apply in_map. apply in_seq. lia.
  - rewrite map_length, seq_length. reflexivity.
  - lia.
  - intros k j Hk. lia.
  - destruct (Nat.ltb_spec 0 (ndiv b)) as [L|L]; [|lia]. pose proof (cnt_le (rank 0%nat) (map rank (seq 0 (ndiv b)))) as C. rewrite map_length, seq_length in C.
    destruct (ndiv b) as [|n]; [lia|]. replace (S n - 0 - 1)%nat with n by lia. cbn [Nat.mul]. pose proof (cnt_lt (rank 0%nat) (map rank (seq 0 (S n))) ltac:(apply in_map, in_seq; lia)). rewrite map_length, seq_length in H. lia.
Qed.

Lemma renames_points b b' : renames b b' -> forall p, length p = (1 + nvar b)%nat -> (points b p <-> points b' p).
Proof.
  intros (SH & _ & f & g & I & H) p Lp. unfold points, member, described. assert (ND : ndiv b' = ndiv b) by apply SH. assert (EM : b_empty b' = b_empty b) by apply SH. rewrite ND, EM. apply and_iff_compat_l. split; intros (e & Le & Se).
  - destruct (I e Le) as (_ & Lg & FG). exists (g e). split; [exact Lg|]. apply (H p (g e) Lp Lg). rewrite FG. exact Se.
  - destruct (I e Le) as (Lf & _). exists (f e). split; [exact Lf|]. apply (H p e Lp Le). exact Se.
Qed.
Lemma split_point n (v : list Z) m : length v = (n + m)%nat -> exists p e, v = p ++ e /\ length p = n /\ length e = m.
Proof. intros L. exists (firstn n v), (skipn n v). split; [symmetry; apply firstn_skipn|]. rewrite firstn_length, skipn_length. lia. Qed.
Lemma renames_implied b b' : renames b b' -> implied b -> implied b'.
Proof.
  intros (SH & _ & f & g & I & H) IM v Lv Hv Sv. destruct (shape_nvar _ _ SH) as [NV NT]. rewrite NV, NT in *.
  destruct (split_point (1 + nvar b) v (ndiv b)) as (p & e & -> & Lp & Le); [unfold total in Lv; lia|].
  destruct (H p e Lp Le) as [H1 H2]. apply H2. destruct (I e Le) as (Lf & _). apply IM; [rewrite app_length; unfold total; lia| |apply H1; exact Sv]. destruct p; [cbn in Lp; lia|exact Hv].
Qed.
Lemma steps_points b b' : steps b b' -> forall p, points b p <-> points b' p.
Proof.
  intros (SH & _ & _ & _ & SY & _) p. unfold points, member, described. assert (ND : ndiv b' = ndiv b) by apply SH. assert (EM : b_empty b' = b_empty b) by apply SH. rewrite ND, EM. apply and_iff_compat_l. split; intros (e & Le & Se); exists e; (split; [exact Le|]); apply SY; exact Se.
Qed.
Lemma steps_implied b b' : steps b b' -> implied b -> implied b'.
Proof.
  intros (SH & _ & _ & _ & SY & DV) IM v Lv Hv Sv. destruct (shape_nvar _ _ SH) as [NV NT]. rewrite NV, NT in *. apply DV; auto; [apply SY; exact Sv|]. apply IM; auto. apply SY. exact Sv.
Qed.

Lemma gauss_ok b : wf b -> acyclic b ->
  exists b' p, gauss b = Ok (b', p) /\ same_space b b' /\ wf b' /\ ordered b' /\ (denoms (b_div b) -> denoms (b_div b')) /\
   (forall q, length q = (1 + nvar b)%nat -> 0 < hd 0 q -> (points b q <-> points b' q)) /\
   (b_empty b = false -> b_empty b' = false -> exists ps, echelon (b_eq b') ps) /\
   (b_empty b' = false -> ndiv b' = ndiv b /\ (implied b -> implied b')).
Proof.
  intros W A. unfold gauss. destruct (order_divs_ok b W A) as (b1 & -> & RN & O1 & D1 & _). pose proof RN as (SH & W1 & _).
  destruct (gauss_ordered_ok b1 W1 O1) as (b' & p & E & [[ST EC]|(EM & P1 & P2 & P3 & P4 & W' & O' & D' & NS)]).
  - exists b', p. split; [exact E|]. pose proof ST as (SH' & W' & O' & D' & _). destruct SH as (A1 & A2 & A3 & A4 & A5 & A6). pose proof SH' as (B1 & B2 & B3 & B4 & B5 & B6).
    split; [repeat split; congruence|]. split; [exact W'|]. split; [exact O'|]. split; [auto|]. split; [|split].
    + intros q Lq Hq. rewrite (renames_points _ _ RN q Lq). apply steps_points. exact ST.
    + intros _ _. exact EC.
    + intros _. split; [congruence|]. intros I. apply (steps_implied _ _ ST). apply (renames_implied _ _ RN). exact I.
  - exists b', p. split; [exact E|]. destruct SH as (A1 & A2 & A3 & A4 & A5 & A6). split; [repeat split; congruence|]. split; [exact W'|]. split; [exact O'|]. split; [auto|]. split; [|split; intros; congruence].
    intros q Lq Hq. rewrite (renames_points _ _ RN q Lq). unfold points, member. rewrite EM. split; [|intros [F _]; discriminate]. intros (_ & e & _ & Se). exfalso. apply (NS (q ++ e)); [|exact Se]. destruct q; [cbn in Lq; lia|exact Hq].
Qed.
Lemma gauss_empty b b' p : wf b -> acyclic b -> gauss b = Ok (b', p) -> b_empty b' = true ->
  forall q, length q = (1 + nvar b)%nat -> 0 < hd 0 q -> ~ points b q.
Proof.
  intros W A E EM q Lq Hq H. destruct (gauss_ok b W A) as (c & r & E' & _ & _ & _ & _ & Q & _). apply (Q q Lq Hq) in H. destruct H as [H _]. congruence.
Qed.
Lemma order_divs_points b : wf b -> acyclic b -> exists b', order_divs b = Ok b' /\ ordered b' /\
  (forall q, length q = (1 + nvar b)%nat -> (points b q <-> points b' q)) /\ (implied b -> implied b').
Proof.
  intros W A. destruct (order_divs_ok b W A) as (c & E & R & Or & _). exists c. split; [exact E|]. split; [exact Or|]. split; [apply renames_points; exact R|apply renames_implied; exact R].
Qed.
