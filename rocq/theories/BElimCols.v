(** A column of zero coefficients remains zero during simplification. *)
From Coq Require Import ZArith List Bool Lia Arith Permutation.
From Verif Require Import SeqModel SeqSpec SeqProofs MatModel BMapModel BMapSpec BMapSem BMapLists BMapNorm BMapGauss BMapGauss2 BMapOrder BDupModel BDupProofs BElimModel BElimSort.
Import ListNotations.
Open Scope Z_scope.

Definition zrow (c : nat) (r : list Z) : Prop := nth (1 + c) r 0 = 0.
Definition zcol (c : nat) (b : bmap) : Prop := Forall (zrow c) (b_eq b) /\ Forall (zrow c) (b_ineq b).

Lemma nth_map2_0 f l : forall m i, f 0 0 = 0 -> nth i l 0 = 0 -> nth i m 0 = 0 -> nth i (map2 f l m) 0 = 0.
Proof. induction l as [|x l IH]; intros [|y m] [|i] F H1 H2; cbn in *; try reflexivity; [congruence|apply IH; assumption]. Qed.
Lemma nth_map_0 f (l : list Z) i : f 0 = 0 -> nth i l 0 = 0 -> nth i (map f l) 0 = 0.
Proof. intros F H. rewrite <- F at 1. rewrite (map_nth f). congruence. Qed.
Lemma combine_0 al m1 l m2 m i : nth i l 0 = 0 -> nth i m 0 = 0 -> nth i (seq_combine al m1 l m2 m) 0 = 0.
Proof. intros H1 H2. unfold seq_combine. destruct (al && (m1 =? 1)); [destruct (m2 =? 0); [exact H1|]|]; apply nth_map2_0; auto; ring. Qed.
Lemma seq_elim_0 l m p k i : nth i l 0 = 0 -> nth i m 0 = 0 -> nth i (fst (seq_elim l m p k)) 0 = 0.
Proof. intros H1 H2. unfold seq_elim. destruct (_ =? 0); [exact H1|]. apply combine_0; assumption. Qed.
Lemma scale_down_0 l g i : nth i l 0 = 0 -> nth i (seq_scale_down l g) 0 = 0.
Proof. intros H. unfold seq_scale_down. apply nth_map_0; [|exact H]. unfold divexact. apply Zdiv_0_l. Qed.
Lemma normalize_0 l i : nth i l 0 = 0 -> nth i (seq_normalize l) 0 = 0.
Proof. intros H. unfold seq_normalize. destruct l; [exact H|]. destruct (_ && _); [apply scale_down_0|]; exact H. Qed.
Lemma elim_row_z c eq pos r : zrow c eq -> zrow c r -> zrow c (elim_row eq pos r).
Proof. intros H1 H2. unfold elim_row. destruct (_ =? 0); [exact H2|]. apply normalize_0. apply seq_elim_0; assumption. Qed.
Lemma neg_z c r : zrow c r -> zrow c (seq_neg r).
Proof. unfold zrow. rewrite nth_seq_neg. lia. Qed.
Lemma nil_z c : zrow c []. Proof. reflexivity. Qed.

Lemma nth_z c l i : Forall (zrow c) l -> zrow c (nth i l []).
Proof. intros H. destruct (Nat.lt_ge_cases i (length l)) as [L|L]; [apply (proj1 (Forall_nth_iff _ _ []) H); exact L|]. rewrite nth_overflow by exact L. apply nil_z. Qed.
Lemma lset_z c l : forall i a, Forall (zrow c) l -> zrow c a -> Forall (zrow c) (lset l i a).
Proof. induction l as [|x l IH]; intros [|i] a H Ha; cbn; auto; inversion H; subst; constructor; auto. Qed.
Lemma lswap_z c l i j : Forall (zrow c) l -> Forall (zrow c) (lswap l i j).
Proof. intros H. unfold lswap. apply lset_z; [apply lset_z|]; auto; apply nth_z; exact H. Qed.
Lemma firstn_z c (l : list (list Z)) n : Forall (zrow c) l -> Forall (zrow c) (firstn n l).
Proof. rewrite !Forall_forall. intros H x Hx. apply H. rewrite <- (firstn_skipn n l). apply in_or_app. auto. Qed.
Lemma skipn_z c (l : list (list Z)) n : Forall (zrow c) l -> Forall (zrow c) (skipn n l).
Proof. rewrite !Forall_forall. intros H x Hx. apply H. rewrite <- (firstn_skipn n l). apply in_or_app. auto. Qed.
Lemma ldrop_z c (l : list (list Z)) i : Forall (zrow c) l -> Forall (zrow c) (ldrop l i).
Proof. intros H. unfold ldrop. apply Forall_app. split; [apply firstn_z|apply skipn_z]; exact H. Qed.
Lemma removelast_z c (l : list (list Z)) : Forall (zrow c) l -> Forall (zrow c) (removelast l).
Proof. induction l as [|x [|y l] IH]; intros H; [constructor|constructor|]. inversion H; subst. constructor; auto. Qed.
Lemma drop_swap_z c l i : Forall (zrow c) l -> Forall (zrow c) (drop_swap l i).
Proof. intros H. unfold drop_swap. apply removelast_z. apply lset_z; [exact H|]. rewrite last_nth. apply nth_z. exact H. Qed.
Lemma elim_eqs_z c eq pos skip : zrow c eq -> forall l i, Forall (zrow c) l -> Forall (zrow c) (elim_eqs eq pos skip i l).
Proof. intros He. induction l as [|r l IH]; intros i H; cbn; [constructor|]. inversion H; subst. constructor; [|apply IH; assumption]. destruct (match skip with Some k => Nat.eqb k i | None => false end); [|apply elim_row_z]; assumption. Qed.
Lemma eliminate_z c b pos eq skip kd : zrow c eq -> zcol c b -> zcol c (eliminate_var_using_equality b pos eq skip kd).
Proof. intros He [H1 H2]. split; cbn; [apply elim_eqs_z; assumption|]. rewrite Forall_map. revert H2. apply Forall_impl. intros r. apply elim_row_z. exact He. Qed.
Lemma set_div_z c b l : zcol c b -> zcol c (set_div b l). Proof. exact (fun H => H). Qed.
Lemma set_to_empty_z c b : zcol c b -> zcol c (set_to_empty b).
Proof. intros H. unfold set_to_empty. destruct (_ && _); [exact H|]. split; cbn; [|constructor]. constructor; [|constructor]. unfold zrow. cbn [nth]. change (1 + c)%nat with (S c). cbn [nth]. apply nth_repeat. Qed.

Lemma gauss_step_z c b done k v : zcol c b -> zcol c (fst (gauss_step b done k v)).
Proof.
  intros H. unfold gauss_step. set (b1 := if Nat.eqb k done then b else set_eq b (lswap (b_eq b) k done)).
  assert (Z1 : zcol c b1) by (unfold b1; destruct (Nat.eqb k done); [exact H|]; split; [apply lswap_z|]; apply H).
  cbn zeta. set (b2 := if _ <? 0 then _ else b1). assert (Z2 : zcol c b2) by (unfold b2; destruct (_ <? 0); [|exact Z1]; split; [apply lset_z; [apply Z1|apply neg_z, nth_z, Z1]|apply Z1]).
  set (b3 := eliminate_var_using_equality b2 v _ _ _). assert (Z3 : zcol c b3) by (apply eliminate_z; [apply nth_z, Z2|exact Z2]). clearbody b3.
  destruct (Nat.leb (nvar b3) v); [|exact Z3]. unfold set_div_from_eq. destruct (negb _); [exact Z3|]. destruct (eq_involves_unknown_divs _ _ _); exact Z3.
Qed.
Lemma gauss_loop_z c : forall fuel b p done lv b' p' n, gauss_loop fuel b p done lv = Ok (b', p', n) -> zcol c b -> zcol c b'.
Proof.
  induction fuel as [|fuel IH]; intros b p done lv b' p' n; cbn [gauss_loop]; [discriminate|]. destruct (Nat.leb _ _); [intros [= <- <- <-]; auto|]. destruct lv as [|v]; [intros [= <- <- <-]; auto|].
  destruct (find_eq b done (1 + v)); [|apply IH]. pose proof (gauss_step_z c b done n0 v) as G. destruct (gauss_step b done n0 v) as [b1 p1]. cbn [fst] in G. intros E H. apply (IH _ _ _ _ _ _ _ E). apply G. exact H.
Qed.
Lemma gauss_ordered_z c b b' p : gauss_ordered b = Ok (b', p) -> zcol c b -> zcol c b'.
Proof.
  unfold gauss_ordered. destruct (gauss_loop _ _ _ _ _) as [[[b1 p1] n]| | |] eqn:E; try discriminate. intros G H. pose proof (gauss_loop_z c _ _ _ _ _ _ _ _ E H) as Z1.
  destruct (Nat.eqb _ _); [injection G as <- <-; exact Z1|]. destruct (existsb _ _); injection G as <- <-; [apply set_to_empty_z; exact Z1|]. split; [apply firstn_z|]; apply Z1.
Qed.

(** ordering the integer divisions does not touch the ones in [X], provided
    they are unknown and not referred to *)
Definition aloof (X : nat -> Prop) (b : bmap) : Prop :=
  forall k, (k < ndiv b)%nat -> hd 0 (nth k (b_div b) []) <> 0 ->
    ~ X (nvar b + k)%nat /\ forall c, X c -> nth (2 + c) (nth k (b_div b) []) 0 = 0.
Lemma Forall_impl_in {A} (P Q : A -> Prop) l : (forall x, In x l -> P x -> Q x) -> Forall P l -> Forall Q l.
Proof. rewrite !Forall_forall. auto. Qed.
Lemma swap_row_z o i j c r : (1 + o + i < length r)%nat -> (1 + o + j < length r)%nat -> c <> (o + i)%nat -> c <> (o + j)%nat -> zrow c r -> zrow c (swap_row (1 + o) i j r).
Proof.
  intros Hi Hj Ni Nj. unfold zrow. destruct (Nat.lt_ge_cases c o) as [L|G]; [rewrite nth_swap_row_lt by lia; auto|].
  replace (1 + c)%nat with (1 + o + (c - o))%nat by lia. rewrite nth_swap_row by lia. unfold tr. destruct (Nat.eqb_spec (c - o) i); [lia|]. destruct (Nat.eqb_spec (c - o) j); [lia|]. auto.
Qed.
Lemma order_divs_z X : forall fuel b i b', order_divs_loop fuel b i = Ok b' -> wf b -> aloof X b -> (i <= ndiv b)%nat -> forall c, X c -> zcol c b -> zcol c b'.
Proof.
  induction fuel as [|fuel IH]; intros b i b'; cbn [order_divs_loop]; [discriminate|]. intros E W A Hi c Xc Zc. destruct (Nat.leb_spec (ndiv b) i) as [D|D]; [injection E as <-; exact Zc|].
  set (d := nth i (b_div b) []) in *. assert (Ld : length d = (2 + total b)%nat) by (apply rows_nth; [apply W|exact D]).
  destruct (Z.eqb_spec (hd 0 d) 0) as [|Nd]; [apply (IH _ _ _ E); auto|].
  pose proof (first_non_zero_ok (skipn (2 + nvar b + i) d)) as FN. destruct (seq_first_non_zero (skipn (2 + nvar b + i) d)) as [[|pos]|]; [discriminate| |apply (IH _ _ _ E); auto].
  destruct FN as (Lp & Np & _). rewrite skipn_length in Lp. rewrite nth_skipn in Np. set (j := (i + S pos)%nat) in *. assert (Hj : (j < ndiv b)%nat) by (unfold j, total in *; lia).
  destruct (A i D Nd) as [Ai Ar]. assert (Nj : ~ X (nvar b + j)%nat). { intros Xj. apply Np. replace (2 + nvar b + i + S pos)%nat with (2 + (nvar b + j))%nat by (unfold j; lia). apply Ar. exact Xj. }
  destruct (swap_div_ok b i j W D Hj) as (RN & _ & SD). pose proof RN as (SH & W' & _). assert (ND : ndiv (swap_div b i j) = ndiv b) by apply SH. pose proof (proj1 (shape_nvar _ _ SH)) as NV.
  apply (IH _ _ _ E W'); [|lia|exact Xc|].
  - intros k Hk. rewrite ND in Hk. rewrite NV. destruct (SD k Hk) as [S1 S2]. rewrite S1. intros Nz. assert (TK : (tr i j k < ndiv b)%nat) by (apply tr_lt; assumption).
    destruct (A _ TK Nz) as [B1 B2]. split.
    + intros Xk. assert (TE : tr i j k = k). { unfold tr. destruct (Nat.eqb_spec k i) as [->|]; [contradiction|]. destruct (Nat.eqb_spec k j) as [->|]; [contradiction|reflexivity]. } rewrite TE in B1. contradiction.
    + intros x Xx. destruct (Nat.lt_ge_cases x (nvar b)) as [L|G].
      * unfold swap_div. cbn [b_div set_div]. rewrite (nth_indep _ [] (swap_row (2 + nvar b) i j [])) by (rewrite map_length, lswap_length; exact Hk). rewrite (map_nth (swap_row (2 + nvar b) i j)). rewrite nth_swap_row_lt by lia.
        rewrite nth_lswap by assumption. specialize (B2 x Xx). unfold tr in B2. destruct (Nat.eqb k i), (Nat.eqb k j); try assumption. exact (Ar x Xx).
      * replace (2 + x)%nat with (2 + nvar b + (x - nvar b))%nat by lia. rewrite S2. 
        assert (TE : tr i j (x - nvar b) = (x - nvar b)%nat). { unfold tr. destruct (Nat.eqb_spec (x - nvar b) i) as [e|]; [exfalso; apply Ai; replace (nvar b + i)%nat with x by lia; exact Xx|]. destruct (Nat.eqb_spec (x - nvar b) j) as [e|]; [exfalso; apply Nj; replace (nvar b + j)%nat with x by lia; exact Xx|reflexivity]. }
        rewrite TE. replace (2 + nvar b + (x - nvar b))%nat with (2 + x)%nat by lia. apply B2. exact Xx.
  - destruct Zc as [Z1 Z2]. assert (C1 : c <> (nvar b + i)%nat) by (intros ->; contradiction). assert (C2 : c <> (nvar b + j)%nat) by (intros ->; contradiction). destruct W as (W1 & W2 & _).
    split; unfold swap_div; cbn [b_eq b_ineq set_div set_ineq set_eq]; rewrite Forall_map; [revert Z1; apply Forall_impl_in|revert Z2; apply Forall_impl_in].
    + intros r Hr Zr. apply swap_row_z; auto; rewrite (proj1 (Forall_forall _ _) W1 r Hr); unfold total; lia.
    + intros r Hr Zr. apply swap_row_z; auto; rewrite (proj1 (Forall_forall _ _) W2 r Hr); unfold total; lia.
Qed.
Lemma order_divs_ordered : forall fuel b i b', order_divs_loop fuel b i = Ok b' -> wf b -> ordered b -> b' = b.
Proof.
  induction fuel as [|fuel IH]; intros b i b'; cbn [order_divs_loop]; [discriminate|]. intros E W O. destruct (Nat.leb_spec (ndiv b) i) as [D|D]; [congruence|].
  set (d := nth i (b_div b) []) in *. assert (Ld : length d = (2 + total b)%nat) by (apply rows_nth; [apply W|exact D]).
  destruct (Z.eqb_spec (hd 0 d) 0) as [|Nd]; [apply (IH _ _ _ E W O)|].
  pose proof (first_non_zero_ok (skipn (2 + nvar b + i) d)) as FN. destruct (seq_first_non_zero (skipn (2 + nvar b + i) d)) as [[|pos]|]; [discriminate| |apply (IH _ _ _ E W O)].
  destruct FN as (Lp & Np & _). rewrite nth_skipn in Np. exfalso. apply Np. replace (2 + nvar b + i + S pos)%nat with (2 + nvar b + (i + S pos))%nat by lia. apply O; [exact D|lia|exact Nd].
Qed.
(** the integer divisions are in one of two states *)
Definition tidy (X : nat -> Prop) (b : bmap) : Prop := acyclic b /\ aloof X b \/ ordered b.
Lemma ordered_acyclic b : ordered b -> acyclic b.
Proof. intros O. exists (fun k => k). intros k j Hk Hj Nd Nz. destruct (Nat.lt_ge_cases j k) as [|G]; [assumption|]. exfalso. apply Nz. apply O; assumption. Qed.
Lemma tidy_acyclic X b : tidy X b -> acyclic b.
Proof. intros [[A _]|O]; [exact A|apply ordered_acyclic; exact O]. Qed.
Lemma gauss_z X b b' p : gauss b = Ok (b', p) -> wf b -> tidy X b -> forall c, X c -> zcol c b -> zcol c b'.
Proof.
  unfold gauss. destruct (order_divs b) as [b1| | |] eqn:E; try discriminate. intros G W T c Xc Zc. apply (gauss_ordered_z c _ _ _ G). destruct T as [[_ A]|O].
  - apply (order_divs_z X _ _ _ _ E W A ltac:(lia) c Xc Zc).
  - rewrite (order_divs_ordered _ _ _ _ E W O). exact Zc.
Qed.

(** normalization *)
Lemma normalize_eqs_z rat c : forall i l l', normalize_eqs rat i l = Some l' -> Forall (zrow c) l -> Forall (zrow c) l'.
Proof.
  induction i as [|i IH]; intros l l'; cbn [normalize_eqs]; [intros [= <-]; auto|]. intros E H. pose proof (nth_z c l i H) as Hr. unfold normalize_eq in E.
  destruct (seq_gcd (tl (nth i l [])) =? 0); [destruct (negb _); [discriminate|]; apply (IH _ _ E); apply ldrop_z; exact H|]. cbn zeta in E. destruct (_ =? 1); [apply (IH _ _ E); apply lset_z; assumption|].
  destruct (negb _); [discriminate|]. apply (IH _ _ E). apply lset_z; [exact H|]. apply scale_down_0. exact Hr.
Qed.
Lemma normalize_ineqs_z rat c : forall i l l', normalize_ineqs rat i l = Some l' -> Forall (zrow c) l -> Forall (zrow c) l'.
Proof.
  induction i as [|i IH]; intros l l'; cbn [normalize_ineqs]; [intros [= <-]; auto|]. intros E H. pose proof (nth_z c l i H) as Hr. unfold normalize_ineq in E.
  destruct (seq_gcd (tl (nth i l [])) =? 0); [destruct (_ <? 0); [discriminate|]; apply (IH _ _ E); apply drop_swap_z; exact H|]. cbn zeta in E. destruct (_ =? 1); [apply (IH _ _ E); apply lset_z; assumption|].
  apply (IH _ _ E). apply lset_z; [exact H|]. unfold zrow. change (1 + c)%nat with (S c). cbn [nth]. apply scale_down_0. rewrite nth_tl. exact Hr.
Qed.
Lemma normalize_constraints_z c b : zcol c b -> zcol c (normalize_constraints b).
Proof.
  intros H. unfold normalize_constraints. destruct (normalize_eqs _ _ _) as [le|] eqn:E1; [|apply set_to_empty_z; exact H]. pose proof (normalize_eqs_z _ c _ _ _ E1 (proj1 H)) as Z1. cbn [b_ineq b_rat set_eq] in *.
  destruct (normalize_ineqs _ _ _) as [li|] eqn:E2; [|apply set_to_empty_z; split; [exact Z1|apply H]]. split; [exact Z1|]. apply (normalize_ineqs_z _ c _ _ _ E2). apply H.
Qed.

(** duplicate constraints *)
Lemma dup_loop_z hash c : forall fuel t l k p t' l' p', dup_loop hash fuel t l k p = Ok (t', l', p') -> Forall (zrow c) l -> Forall (zrow c) l'.
Proof.
  induction fuel as [|fuel IH]; intros t l k p t' l' p'; cbn [dup_loop]; [discriminate|]. destruct (Nat.leb _ _); [intros [= <- <- <-]; auto|]. destruct (hash_index _ _ _ _ _) as [h| | |]; try discriminate.
  destruct (nth h t None); [|apply IH]. intros E H. apply (IH _ _ _ _ _ _ _ E). apply drop_swap_z. destruct (_ <? _); [apply lswap_z|]; exact H.
Qed.
Lemma opp_loop_z hash c : forall fuel t b k p b' p', opp_loop hash fuel false t b k p = Ok (b', p') -> zcol c b -> zcol c b'.
Proof.
  induction fuel as [|fuel IH]; intros t b k p b' p'; cbn [opp_loop]; [discriminate|]. destruct (Nat.leb _ _); [intros [= <- <-]; auto|]. destruct (hash_index _ _ _ _ _) as [h| | |]; try discriminate.
  destruct (nth h t None); [|apply IH]. cbn zeta. destruct (_ <? _); [apply IH|]. destruct (_ =? 0); intros [= <- <-] H; [|apply set_to_empty_z; exact H].
  destruct H as [H1 H2]. unfold inequality_to_equality, drop_inequality. split; cbn [b_eq b_ineq set_nd set_eq set_ineq].
  - constructor; [|exact H1]. apply nth_z. apply drop_swap_z. exact H2.
  - apply drop_swap_z, drop_swap_z. exact H2.
Qed.
Lemma remove_dup_z hash c b b' p : remove_duplicate_constraints hash b false = Ok (b', p) -> zcol c b -> zcol c b'.
Proof.
  unfold remove_duplicate_constraints. destruct (Nat.leb _ _); [intros [= <- <-]; auto|]. cbn zeta. destruct (dup_loop _ _ _ _ _ _) as [[[t l] q]| | |] eqn:E; try discriminate. intros G [H1 H2].
  apply (opp_loop_z hash c _ _ _ _ _ _ _ G). split; [exact H1|]. apply (dup_loop_z hash c _ _ _ _ _ _ _ _ E H2).
Qed.
