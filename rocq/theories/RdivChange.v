(** The unimodular change of unknown local variables keeps the points. *)
From Coq Require Import ZArith List Bool Arith Lia.
From Verif Require Import MatTheory MatSpec HermiteProofs2 EqProofs3 EqProofs4.
From Verif Require MatProofs.
From Verif Require Import SeqModel SeqSpec SeqProofs MatModel BMapModel BMapSpec BMapSem BMapLists BMapNorm BMapGauss BMapGauss2 BMapOrder LocalModel SimpModel SimpSpec SimpBase SimpDrop SimpShift RdivModel RdivCoal.
Import ListNotations.
Open Scope Z_scope.

(** ** a matrix applied to a list *)
Definition ap (n : nat) (A : nat -> nat -> Z) (x : list Z) : list Z := map (fun i => mvec n A (fun k => nth k x 0) i) (seq 0 n).
Lemma ap_len n A x : length (ap n A x) = n.
Proof. unfold ap. rewrite map_length, seq_length. reflexivity. Qed.
Lemma ap_nth n A x i : (i < n)%nat -> nth i (ap n A x) 0 = mvec n A (fun k => nth k x 0) i.
Proof. intros H. unfold ap. apply nth_mapseq. exact H. Qed.
Lemma ap_inv n A B x : invp n A B 1 -> length x = n -> ap n A (ap n B x) = x.
Proof.
  intros [I _] L. apply (nth_ext _ _ 0 0); [rewrite ap_len; auto|]. intros i Hi. rewrite ap_len in Hi. rewrite ap_nth by exact Hi.
  rewrite (mvec_ext n A A _ (mvec n B (fun k => nth k x 0)) i); [|reflexivity|intros k Hk; apply ap_nth; exact Hk]. rewrite <- mvec_mmul. rewrite (mvec_ext n _ Id _ (fun k => nth k x 0) i); [|intros k Hk; rewrite I by assumption; lia|reflexivity]. apply mvec_Id. exact Hi.
Qed.
Lemma vec_mat_dot n T c y : length c = n -> length y = n -> dot (vec_mat_product n c T) y = dot c (ap n (get T) y).
Proof.
  intros Lc Ly. assert (LV : length (vec_mat_product n c T) = n) by (unfold vec_mat_product; rewrite map_length, seq_length; reflexivity).
  rewrite (MatProofs.dot_sumn _ y) by congruence. rewrite (MatProofs.dot_sumn c) by (rewrite ap_len; exact Lc). rewrite LV, Lc.
  rewrite (sumn_ext n (fun k => nth k c 0 * nth k (ap n (get T) y) 0) (fun k => nth k c 0 * mvec n (get T) (fun j => nth j y 0) k)) by (intros k Hk; rewrite ap_nth by exact Hk; reflexivity).
  rewrite (dot_sumn_swap n n (get T) (fun j => nth j y 0) (fun k => nth k c 0)). apply sumn_ext. intros j Hj. f_equal. unfold vec_mat_product. rewrite nth_mapseq by exact Hj. rewrite (MatProofs.fold_sum (fun k => nth k c 0 * get T k j)), Lc. reflexivity.
Qed.
Definition moved (n o : nat) (A : nat -> nat -> Z) (v : list Z) : list Z := firstn o v ++ ap n A (skipn o v).
Lemma dot_parts r v o : length r = length v -> dot r v = dot (firstn o r) (firstn o v) + dot (skipn o r) (skipn o v).
Proof. intros L. rewrite <- (firstn_skipn o r) at 1. rewrite <- (firstn_skipn o v) at 1. apply dot_app2. rewrite !firstn_length, L. reflexivity. Qed.
Lemma dot_none c y : (forall i, nth i c 0 = 0) -> dot c y = 0.
Proof. revert y. induction c as [|x c IH]; intros y H; [destruct y; reflexivity|]. destruct y as [|z y]; [reflexivity|]. change (dot (x :: c) (z :: y)) with (x * z + dot c y). rewrite (H 0%nat : x = 0), IH by (intros i; exact (H (S i))). lia. Qed.
Lemma moved_len n o A v : length v = (o + n)%nat -> length (moved n o A v) = (o + n)%nat.
Proof. intros L. unfold moved. rewrite app_length, firstn_length, ap_len. lia. Qed.
Lemma moved_first n o A v : length v = (o + n)%nat -> firstn o (moved n o A v) = firstn o v.
Proof. intros L. unfold moved. rewrite firstn_app, firstn_firstn, Nat.min_id, firstn_length. replace (o - Nat.min o (length v))%nat with 0%nat by lia. cbn [firstn]. apply app_nil_r. Qed.
Lemma moved_last n o A v : length v = (o + n)%nat -> skipn o (moved n o A v) = ap n A (skipn o v).
Proof. intros L. unfold moved. rewrite skipn_app, firstn_length. replace (o - Nat.min o (length v))%nat with 0%nat by lia. rewrite skipn_all2 by (rewrite firstn_length; lia). reflexivity. Qed.
Lemma moved_inv n o A B v : invp n A B 1 -> length v = (o + n)%nat -> moved n o A (moved n o B v) = v.
Proof. intros I L. unfold moved at 1. rewrite moved_first, moved_last by exact L. rewrite ap_inv; [apply firstn_skipn|exact I|rewrite skipn_length; lia]. Qed.
Lemma preimage_dot n T o r v : length r = (o + n)%nat -> length v = (o + n)%nat -> dot (preimage n T o r) v = dot r (moved n o (get T) v).
Proof.
  intros Lr Lv. unfold preimage. pose proof (first_non_zero_ok (skipn o r)) as F. rewrite (dot_parts r (moved n o (get T) v) o) by (rewrite moved_len; assumption). rewrite moved_first, moved_last by exact Lv. destruct (seq_first_non_zero (skipn o r)) as [k|].
  - rewrite <- vec_mat_dot by (rewrite skipn_length; lia). rewrite <- (firstn_skipn o v) at 1. rewrite dot_app2 by (rewrite !firstn_length; lia). reflexivity.
  - rewrite (dot_parts r v o) by lia. rewrite !(dot_none (skipn o r)) by exact F. reflexivity.
Qed.
Lemma preimage_len n T o r : length r = (o + n)%nat -> length (preimage n T o r) = (o + n)%nat.
Proof. intros L. unfold preimage. destruct (seq_first_non_zero (skipn o r)); [|exact L]. unfold vec_mat_product. rewrite app_length, map_length, seq_length, firstn_length. lia. Qed.

(** ** forgetting the definitions of several local variables *)
Lemma marks_pres : forall is b, good b -> ordered b -> (forall i, In i is -> (i < ndiv b)%nat) -> let b' := fold_left mark_div_unknown is b in
  pres b b' /\ ordered b' /\ ndiv b' = ndiv b /\ b_eq b' = b_eq b /\ (forall i, In i is \/ hd 0 (nth i (b_div b) []) = 0 -> hd 0 (nth i (b_div b') []) = 0) /\ b_empty b' = b_empty b.
Proof.
  induction is as [|i is IH]; intros b G O Hi; cbn [fold_left]; cbv zeta; [split; [apply pres_refl; exact G|]; repeat split; auto; intros i [[]|H]; exact H|].
  assert (Hd : (i < ndiv b)%nat) by (apply Hi; left; reflexivity). destruct (mark_div_pres b i G Hd) as [P O']. specialize (O' O). pose proof (marked_ndiv b i) as ND. destruct (IH (mark_div_unknown b i) (proj1 (proj2 P)) O' ltac:(intros k Hk; rewrite ND; apply Hi; right; exact Hk)) as (P2 & O2 & N2 & E2 & K2 & M2).
  split; [eapply pres_trans; eassumption|]. split; [exact O2|]. split; [congruence|]. split; [rewrite E2; reflexivity|]. split; [|exact M2]. intros k Hk. apply K2. rewrite marked_nth by exact Hd. destruct (Nat.eqb_spec k i) as [->|N]; [right; apply mark_hd|]. destruct Hk as [[H|H]|H]; [congruence|left; exact H|right; exact H].
Qed.

(** ** the change of variables *)
Lemma preimage_pres b l T V : good b -> ordered b -> (l < ndiv b)%nat -> (forall k, (l <= k < ndiv b)%nat -> hd 0 (nth k (b_div b) []) = 0) -> invp (ndiv b - l) V (get T) 1 ->
  pres b (preimage_vars b (nvar b + l) (ndiv b - l) T).
Proof.
  intros G O Hl U IV. set (n := (ndiv b - l)%nat) in *. set (o := (1 + (nvar b + l))%nat). assert (TT : total b = (nvar b + ndiv b)%nat) by reflexivity. assert (ON : (o + n = 1 + total b)%nat) by (unfold o, n; lia). destruct (good_int b l G Hl) as [RF EF]. pose proof G as ((We & Wi & Wd) & A & D & _).
  set (b' := preimage_vars b (nvar b + l) n T).
  assert (DV : b_div b' = b_div b).
  { cbn [b' preimage_vars set_div b_div]. rewrite <- (map_id (b_div b)) at 2. apply map_ext_in. intros d Hd. apply (In_nth _ _ []) in Hd as (k & Hk & <-). change (length (b_div b)) with (ndiv b) in Hk. destruct (Z.eqb_spec (hd 0 (nth k (b_div b) [])) 0) as [|Hh]; [reflexivity|].
    assert (Hkl : (k < l)%nat) by (destruct (Nat.lt_ge_cases k l); [assumption|]; exfalso; apply Hh, U; lia). unfold preimage. pose proof (first_non_zero_ok (skipn (2 + (nvar b + l)) (nth k (b_div b) []))) as F. destruct (seq_first_non_zero _) as [p|]; [|reflexivity]. destruct F as (_ & F & _). exfalso. apply F. rewrite nth_skipn. replace (2 + (nvar b + l) + p)%nat with (2 + nvar b + (l + p))%nat by lia. apply O; [lia|lia|exact Hh]. }
  assert (ND : ndiv b' = ndiv b) by (unfold ndiv; rewrite DV; reflexivity). assert (NV : nvar b' = nvar b) by reflexivity. assert (NT : total b' = total b) by (unfold total; congruence).
  assert (RW : forall ls, rows_of (1 + total b) ls -> rows_of (1 + total b) (map (preimage n T o) ls)) by (intros ls R; unfold rows_of in *; rewrite Forall_map; revert R; apply Forall_impl; intros r Lr; rewrite <- ON; apply preimage_len; lia).
  assert (SY : forall v, length v = (1 + total b)%nat -> (system (b_eq b') (b_ineq b') v <-> system (b_eq b) (b_ineq b) (moved n o (get T) v))).
  { intros v Lv. unfold system. change (b_eq b') with (map (preimage n T o) (b_eq b)). change (b_ineq b') with (map (preimage n T o) (b_ineq b)). rewrite !Forall_map.
    assert (Q : forall (P : Z -> Prop) ls, rows_of (1 + total b) ls -> (Forall (fun r => P (dot (preimage n T o r) v)) ls <-> Forall (fun r => P (dot r (moved n o (get T) v))) ls)).
    { intros P ls R. rewrite !Forall_forall. split; intros H r Hr; specialize (H r Hr); pose proof (proj1 (Forall_forall _ _) R r Hr) as Lr; cbn beta in Lr; (rewrite preimage_dot in * by lia); exact H. }
    pose proof (Q (fun z => z = 0) _ We). pose proof (Q (fun z => 0 <= z) _ Wi). unfold zero_on, nonneg_on. tauto. }
  assert (FN : forall A v, length v = (1 + total b)%nat -> firstn (1 + nvar b) (moved n o A v) = firstn (1 + nvar b) v). { intros A0 v Lv. pose proof (moved_first n o A0 v ltac:(lia)) as F. apply (f_equal (firstn (1 + nvar b))) in F. rewrite !firstn_firstn in F. replace (Nat.min (1 + nvar b) o) with (1 + nvar b)%nat in F by (unfold o; lia). exact F. }
  apply pres_map; auto.
  - repeat split. exact ND.
  - unfold wf. rewrite NT, DV. split; [apply RW; exact We|]. split; [apply RW; exact Wi|exact Wd].
  - destruct A as [rank A]. exists rank. rewrite DV, ND, NV. exact A.
  - rewrite DV. exact D.
  - intros v Lv _ Sv. exists (moved n o V v). split; [rewrite moved_len by lia; exact ON|]. split; [apply FN; exact Lv|]. apply SY; [rewrite moved_len by lia; exact ON|]. rewrite moved_inv; [exact Sv|apply invp_sym; exact IV|lia].
  - intros v Lv _ Sv. exists (moved n o (get T) v). split; [rewrite moved_len by lia; exact ON|]. split; [apply FN; exact Lv|]. split; [apply SY; assumption|]. intros _ DD. rewrite DV. intros k Hk. specialize (DD k Hk). change (length (b_div b)) with (ndiv b) in Hk.
    destruct (Z.eq_dec (hd 0 (nth k (b_div b) [])) 0) as [E|Hh]; [left; exact E|]. assert (Hkl : (k < l)%nat) by (destruct (Nat.lt_ge_cases k l); [assumption|]; exfalso; apply Hh, U; lia).
    assert (Ld : length (nth k (b_div b) []) = (2 + total b)%nat) by (apply rows_nth; [exact Wd|exact Hk]). set (d := nth k (b_div b) []) in *. assert (Lt : length (tl d) = (1 + total b)%nat) by (destruct d; cbn in *; lia).
    assert (E1 : nth (1 + nvar b + k) (moved n o (get T) v) 0 = nth (1 + nvar b + k) v 0). { unfold moved. rewrite app_nth1 by (rewrite firstn_length; unfold o; lia). apply GistFull.nth_firstn_lt. unfold o. lia. }
    assert (E2 : dot (tl d) (moved n o (get T) v) = dot (tl d) v). { assert (Z : forall i, nth i (skipn o (tl d)) 0 = 0). { intros i. rewrite nth_skipn. replace (nth (o + i) (tl d) 0) with (nth (S (o + i)) d 0) by (destruct d; [cbn in Ld; lia|reflexivity]). unfold o. replace (S (1 + (nvar b + l) + i))%nat with (2 + nvar b + (l + i))%nat by lia. apply O; [exact Hk|lia|exact Hh]. }
      rewrite (dot_parts (tl d) v o) by lia. rewrite (dot_parts (tl d) (moved n o (get T) v) o) by (rewrite moved_len by lia; lia). rewrite moved_first by lia. rewrite !(dot_none (skipn o (tl d))) by exact Z. reflexivity. }
    unfold division in *. rewrite E1, E2 in DD. exact DD.
  - intros X. congruence.
Qed.
Lemma tab_mat n f : is_mat n n (tab n n f).
Proof. unfold tab. split; [rewrite map_length, seq_length; reflexivity|]. intros r Hr. rewrite nth_mapseq by exact Hr. rewrite map_length, seq_length. reflexivity. Qed.
Lemma change_unknown_pres b r l b' : good b -> ordered b -> In r (b_eq b) -> (l < ndiv b)%nat -> change_unknown b r l = Ok b' -> pres b b'.
Proof.
  intros G O Hr Hl. unfold change_unknown. set (n := (ndiv b - l)%nat). assert (TT : total b = (nvar b + ndiv b)%nat) by reflexivity. assert (Lr : length r = (1 + total b)%nat) by (apply (proj1 (Forall_forall _ _) (proj1 (proj1 G))); exact Hr).
  set (M := seq_normalize (skipn (dpos b l) r) :: repeat (repeat 0 n) (n - 1)). assert (WM : is_mat n n M).
  { split; [cbn [M length]; rewrite repeat_length; lia|]. intros [|k] Hk; cbn [M nth].
    - destruct (normalize_ok (skipn (dpos b l) r)) as (g & _ & L & _). rewrite L, skipn_length. unfold dpos. lia.
    - rewrite (nth_indep _ [] (repeat 0 n)) by (rewrite repeat_length; lia). rewrite nth_repeat. apply repeat_length. }
  destruct (unimodular_complete n M 1) as [R| | |] eqn:ER; cbn [bind]; try discriminate. destruct (complete_ok n M 1 R WM ltac:(lia) ER) as (_ & V & IV).
  assert (WR : is_mat n n R). { unfold unimodular_complete in ER. destruct (left_hermite _ _ _ _); [|discriminate ER]. destruct (forallb _ _); [|discriminate ER]. injection ER as <-. apply tab_mat. }
  assert (IP : invp n V (get R) 1). { destruct IV as [I1 I2]. split; intros i j Hi Hj; rewrite Z.mul_1_l; [apply I1|apply I2]; assumption. }
  destruct (right_inverse_unimodular n R V WR ltac:(lia) IP) as (X & EX & IX). rewrite EX. cbn [bind]. intros [= <-].
  destruct (marks_pres (seq l n) b G O ltac:(intros i Hi; apply in_seq in Hi; lia)) as (P & O' & ND & _ & K & _). set (c := fold_left mark_div_unknown (seq l n) b) in *. eapply pres_trans; [exact P|]. unfold n in *. rewrite <- ND in *. apply (preimage_pres c l X (get R)); auto.
  - apply P.
  - intros k Hk. apply K. left. apply in_seq. lia.
  - apply invp_sym. exact IX.
Qed.
Lemma find_unknown_ok b first r l : find_unknown_eq b first = Some (r, l) -> wf b -> In r (b_eq b) /\ (l < ndiv b)%nat.
Proof.
  unfold find_unknown_eq. intros H W. apply find_map_some in H as (x & Hx & H). pose proof (first_non_zero_ok (skipn (dpos b first) x)) as F. destruct (seq_first_non_zero (skipn (dpos b first) x)) as [k|]; [|discriminate H]. destruct (seq_first_non_zero (skipn _ x)); [|discriminate H]. injection H as <- <-. split; [exact Hx|].
  destruct F as (F & _). rewrite skipn_length in F. pose proof (proj1 (Forall_forall _ _) (proj1 W) x Hx) as L. cbn beta in L. unfold dpos, total in *. lia.
Qed.
