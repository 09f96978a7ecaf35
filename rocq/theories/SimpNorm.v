(** normalize_divs: the integer divisions that are dropped. *)
From Coq Require Import ZArith List Bool Lia Arith Permutation.
From Verif Require Import SeqModel SeqSpec SeqProofs MatModel BMapModel BMapSpec BMapSem BMapLists BMapNorm BMapGauss BMapGauss2 BMapOrder BDupModel BDupProofs BElimModel BElimSpec BElimSort BElimCols BElimProofs BElimFM BElimVars SimpModel SimpSpec SimpBase SimpDrop SimpDivs SimpShift SimpDups SimpIneq SimpGauss.
Import ListNotations.
Open Scope Z_scope.

Definition coef (b : bmap) (i j : nat) : Z := nth (1 + nvar b + j) (nth i (b_eq b) []) 0.
(** the part of an equality that does not involve integer divisions *)
Definition vpart (b : bmap) (i : nat) (p : list Z) : Z := dot (firstn (1 + nvar b) (nth i (b_eq b) [])) p.
Definition droppable (n : nat) (b : bmap) : Prop :=
  wf b /\ (n <= ndiv b)%nat /\
  (forall i j, (i < length (b_eq b))%nat -> (j < n)%nat -> coef b i j <> 0 ->
     (forall k, (k < ndiv b)%nat -> k <> j -> coef b i k = 0) /\
     (forall i', (i' < length (b_eq b))%nat -> i' <> i -> coef b i' j = 0) /\ clear (nvar b + j) b) /\
  (forall i k, (i < length (b_eq b))%nat -> (n <= k < ndiv b)%nat -> coef b i k = 0).
Definition modc (n : nat) (b : bmap) (p : list Z) : Prop :=
  forall i j, (i < length (b_eq b))%nat -> (j < n)%nat -> coef b i j <> 0 -> (coef b i j | vpart b i p).

Lemma dot_tail r p e j : (length p <= length r)%nat -> length r = (length p + length e)%nat -> (j < length e)%nat -> (forall k, (k < length e)%nat -> k <> j -> nth (length p + k) r 0 = 0) ->
  dot r (p ++ e) = dot (firstn (length p) r) p + nth (length p + j) r 0 * nth j e 0.
Proof.
  intros L1 L2 Hj H. rewrite <- (firstn_skipn (length p) r) at 1. rewrite dot_app2 by (rewrite firstn_length; lia). f_equal.
  rewrite <- nth_skipn. rewrite dot_comm, Z.mul_comm. assert (LS : length (skipn (length p) r) = length e) by (rewrite skipn_length; lia). set (s := skipn (length p) r) in *.
  assert (HS : forall k, k <> j -> nth k s 0 = 0). { intros k Hk. destruct (Nat.lt_ge_cases k (length e)) as [J|J]; [unfold s; rewrite nth_skipn; apply H; assumption|apply nth_overflow; lia]. }
  clearbody s. clear -HS. revert e j HS. induction s as [|x s IH]; intros e j HS; [rewrite dot_nil_r; destruct j; cbn; ring|]. destruct e as [|y e]; [destruct j; reflexivity|]. cbn [dot]. destruct j as [|j].
  - cbn [nth]. rewrite (dot_comm e). rewrite (dot_nth0 s); [ring|]. intros i. apply (HS (S i)). lia.
  - cbn [nth]. rewrite (IH e j); [|intros k Hk; apply (HS (S k)); lia]. specialize (HS O ltac:(lia)). cbn [nth] in HS. rewrite HS. ring.
Qed.
Lemma dot_tail0 r p e : length r = (length p + length e)%nat -> (forall k, (k < length e)%nat -> nth (length p + k) r 0 = 0) -> dot r (p ++ e) = dot (firstn (length p) r) p.
Proof.
  intros L H. rewrite <- (firstn_skipn (length p) r) at 1. rewrite dot_app2 by (rewrite firstn_length; lia). rewrite (dot_nth0 (skipn (length p) r)); [ring|]. intros i. rewrite nth_skipn. destruct (Nat.lt_ge_cases i (length e)) as [J|J]; [apply H; exact J|]. apply nth_overflow. lia.
Qed.
Lemma firstn_ldrop {A} (l : list A) i n : (n <= i)%nat -> firstn n (ldrop l i) = firstn n l.
Proof.
  intros H. unfold ldrop. rewrite firstn_app, firstn_firstn. replace (Nat.min n i) with n by lia. rewrite firstn_length. destruct (Nat.le_gt_cases i (length l)) as [J|J].
  - replace (n - Nat.min i (length l))%nat with O by lia. cbn [firstn]. apply app_nil_r.
  - rewrite skipn_all2 by lia. rewrite firstn_nil. apply app_nil_r.
Qed.
Lemma clear_drop b d i c : wf b -> (d < ndiv b)%nat -> clear (nvar b + c) b -> (c < d)%nat -> clear (nvar b + c) (drop_div (drop_equality b i) d).
Proof.
  intros (We & Wi & Wd) Hd [Zi Zd] Hc. assert (TT : total b = (nvar b + ndiv b)%nat) by reflexivity. split; cbn [drop_div drop_equality set_eq b_ineq b_div]; change (nvar (drop_equality b i)) with (nvar b).
  - rewrite Forall_map. apply Forall_forall. intros r Hr. pose proof (proj1 (Forall_forall _ _) Wi r Hr) as L. cbn beta in L. unfold zrow. rewrite nth_ldrop_bump by lia. unfold bump. destruct (Nat.ltb_spec (1 + (nvar b + c)) (1 + nvar b + d)); [|lia]. apply (proj1 (Forall_forall _ _) Zi r Hr).
  - assert (F : Forall (divz (nvar b + c)) (map (fun r => ldrop r (1 + (1 + nvar b + d))) (b_div b))).
    { rewrite Forall_map. apply Forall_forall. intros r Hr. pose proof (proj1 (Forall_forall _ _) Wd r Hr) as L. cbn beta in L. unfold divz. cbn [Nat.add]. rewrite hd_ldrop. intros N. rewrite nth_ldrop_bump by lia. unfold bump. destruct (Nat.ltb_spec (S (S (nvar b + c))) (S (S (nvar b + d)))); [|lia]. apply (proj1 (Forall_forall _ _) Zd r Hr). exact N. }
    unfold ldrop at 1. rewrite Forall_app. rewrite <- (firstn_skipn d (map _ (b_div b))) in F. apply Forall_app in F. destruct F as [F1 F2]. split; [exact F1|]. destruct (skipn d (map _ (b_div b))) as [|x l] eqn:E.
    + replace (skipn (S d) _) with (@nil (list Z)); [constructor|]. symmetry. apply skipn_all2. assert (LE := f_equal (@length _) E). rewrite skipn_length in LE. cbn [length] in LE. lia.
    + replace (skipn (S d) _) with l; [inversion F2; assumption|]. clear -E. revert E. generalize (map (fun r => ldrop r (1 + (1 + nvar b + d))) (b_div b)) as m. clear. intros m. revert d. induction m as [|y m IH]; intros [|d] E; cbn in *; try discriminate; [injection E as _ <-; reflexivity|]. apply IH. exact E.
Qed.

Lemma coef_drop b d i0 i k : wf b -> (d < ndiv b)%nat -> (i0 < length (b_eq b))%nat -> (i < length (b_eq b) - 1)%nat -> coef (drop_div (drop_equality b i0) d) i k = coef b (bump i0 i) (bump d k).
Proof.
  intros (We & _) Hd H0 Hi. unfold coef. change (nvar (drop_div (drop_equality b i0) d)) with (nvar b). cbn [drop_div drop_equality set_eq b_eq]. change (nvar (drop_equality b i0)) with (nvar b). assert (TT : total b = (nvar b + ndiv b)%nat) by reflexivity.
  rewrite (nth_indep _ [] (ldrop [] (1 + nvar b + d))) by (rewrite map_length, ldrop_length by exact H0; exact Hi). rewrite (map_nth (fun r => ldrop r _)). rewrite (nth_ldrop_bump (b_eq b)) by exact H0.
  rewrite nth_ldrop_bump by (rewrite (rows_nth _ _ _ We) by (apply bump_lt; exact Hi); lia). rewrite bump_add. reflexivity.
Qed.
Lemma vpart_drop b d i0 i p : (i0 < length (b_eq b))%nat -> (i < length (b_eq b) - 1)%nat -> vpart (drop_div (drop_equality b i0) d) i p = vpart b (bump i0 i) p.
Proof.
  intros H0 Hi. unfold vpart. change (nvar (drop_div (drop_equality b i0) d)) with (nvar b). cbn [drop_div drop_equality set_eq b_eq]. change (nvar (drop_equality b i0)) with (nvar b).
  rewrite (nth_indep _ [] (ldrop [] (1 + nvar b + d))) by (rewrite map_length, ldrop_length by exact H0; exact Hi). rewrite (map_nth (fun r => ldrop r _)). rewrite (nth_ldrop_bump (b_eq b)) by exact H0. rewrite firstn_ldrop by lia. reflexivity.
Qed.
Lemma drop_eq_divs_ok : forall n b, droppable n b -> let b1 := drop_eq_divs n b in
  same_space b b1 /\ b_empty b1 = b_empty b /\ wf b1 /\ (ordered b -> ordered b1) /\ (denoms (b_div b) -> denoms (b_div b1)) /\
  (forall p e, length p = (1 + nvar b)%nat -> length e = ndiv b -> system (b_eq b) (b_ineq b) (p ++ e) -> modc n b p /\ exists e1, length e1 = ndiv b1 /\ system (b_eq b1) (b_ineq b1) (p ++ e1)) /\
  (forall p e1, length p = (1 + nvar b)%nat -> length e1 = ndiv b1 -> system (b_eq b1) (b_ineq b1) (p ++ e1) -> modc n b p ->
     exists e, length e = ndiv b /\ system (b_eq b) (b_ineq b) (p ++ e) /\ (divisions (b_div b) (1 + nvar b) (p ++ e) -> divisions (b_div b1) (1 + nvar b) (p ++ e1))) /\
  (forall p e1, length p = (1 + nvar b)%nat -> length e1 = ndiv b1 -> system (b_eq b1) (b_ineq b1) (p ++ e1) -> forall i, (i < length (b_eq b))%nat -> (forall j, (j < ndiv b)%nat -> coef b i j = 0) -> vpart b i p = 0).
Proof.
  induction n as [|j IH]; intros b D; cbn [drop_eq_divs]; cbn zeta.
  - split; [apply same_space_refl|]. split; [reflexivity|]. split; [apply D|]. split; [auto|]. split; [auto|]. split; [intros p e Lp Le S1; split; [intros i j Hi Hj; lia|exists e; auto]|]. split; [intros p e Lp Le S1 _; exists e; auto|].
    intros p e Lp Le [S1 _] i Hi Z0. destruct D as ((We & _) & _). unfold vpart. rewrite <- Lp. rewrite <- (dot_tail0 _ p e); [|rewrite (rows_nth _ _ _ We) by exact Hi; unfold total; lia|intros k Hk; rewrite Lp; apply Z0; lia]. apply (proj1 (Forall_forall _ _) S1). apply nth_In. exact Hi.
  - destruct D as (W & Hn & HD & HZ). pose proof (find_eq_ok b 0 (1 + nvar b + j)) as FE. change (find_eq b 0 (1 + nvar b + j)) with (find_eq_from (1 + nvar b + j) 0 (b_eq b)) in FE. destruct (find_eq_from (1 + nvar b + j) 0 (b_eq b)) as [i0|].
    2:{ assert (Z0 : forall i, (i < length (b_eq b))%nat -> coef b i j = 0) by (intros i Hi; apply FE; lia). destruct (IH b) as (I1 & I2 & I3 & I4 & I5 & I6 & I7 & I8).
        - split; [exact W|]. split; [lia|]. split; [intros i k Hi Hk; apply HD; lia|]. intros i k Hi Hk. destruct (Nat.eq_dec k j) as [->|]; [apply Z0; exact Hi|]. apply HZ; lia.
        - split; [exact I1|]. split; [exact I2|]. split; [exact I3|]. split; [exact I4|]. split; [exact I5|]. assert (ME : forall p, modc (S j) b p <-> modc j b p). { intros p. split; intros M i k Hi Hk Nk; [apply M; auto; lia|]. destruct (Nat.eq_dec k j) as [->|]; [exfalso; apply Nk, Z0; exact Hi|]. apply M; auto; lia. }
          split; [intros p e Lp Le S1; rewrite ME; apply (I6 p e); assumption|]. split; [intros p e Lp Le S1; rewrite ME; apply (I7 p e); assumption|exact I8]. }
    destruct FE as [[_ H0] N0]. change (coef b i0 j <> 0) in N0. destruct (HD i0 j H0 ltac:(lia) N0) as (PU & SI & CL). rewrite drop_eq_div_comm. set (b0 := drop_equality b i0). set (b' := drop_div b0 j).
    pose proof W as (We & Wi & Wd). assert (TT : total b = (nvar b + ndiv b)%nat) by reflexivity.
    assert (AT := Forall_at (fun r => length r = (1 + total b)%nat) _ [] i0 H0). assert (W0 : wf b0) by (split; [apply AT; exact We|split; assumption]).
    assert (Zc : zcol (nvar b + j) b0).
    { split; [|apply CL]. cbn [b0 drop_equality set_eq b_eq]. apply Forall_nth_iff with (d := []). intros i Hi. rewrite ldrop_length in Hi by exact H0. rewrite nth_ldrop_bump by exact H0. unfold zrow. replace (1 + (nvar b + j))%nat with (1 + nvar b + j)%nat by lia. apply SI; [apply bump_lt; exact Hi|apply bump_ne]. }
    assert (U0 : unused b0 j). { intros k Hk Nk Kn. change (nvar b0) with (nvar b). destruct CL as [_ CD]. rewrite <- Nat.add_assoc. apply (proj1 (Forall_nth_iff _ _ []) CD k Hk). exact Kn. }
    destruct (drop_div_ok b0 j W0 ltac:(exact Hn) Zc U0) as (D1 & D2 & D3 & D4 & D5 & D6 & D7 & D8 & D9 & D10 & D11 & D12). fold b' in D1, D2, D3, D4, D5, D6, D7, D8, D9, D10, D11, D12. change (nvar b0) with (nvar b) in *. change (ndiv b0) with (ndiv b) in *. change (total b0) with (total b) in *. change (b_div b0) with (b_div b) in *.
    assert (LE' : length (b_eq b') = (length (b_eq b) - 1)%nat) by (cbn [b' b0 drop_div drop_equality set_eq b_eq]; rewrite map_length, ldrop_length by exact H0; reflexivity).
    assert (CF : forall i k, (i < length (b_eq b) - 1)%nat -> coef b' i k = coef b (bump i0 i) (bump j k)) by (intros i k Hi; apply coef_drop; auto).
    assert (VP : forall i p, (i < length (b_eq b) - 1)%nat -> vpart b' i p = vpart b (bump i0 i) p) by (intros i p Hi; apply vpart_drop; auto).
    assert (BJ : forall k, (k < j)%nat -> bump j k = k) by (intros k Hk; unfold bump; destruct (Nat.ltb_spec k j); lia).
    assert (DR : droppable j b').
    { split; [exact D3|]. split; [lia|]. rewrite LE'. split.
      - intros i k Hi Hk. rewrite CF by exact Hi. rewrite (BJ k Hk). intros Nk. destruct (HD (bump i0 i) k ltac:(apply bump_lt; exact Hi) ltac:(lia) Nk) as (A1 & A2 & A3). split; [|split].
        + intros l Hl Nl. rewrite CF by exact Hi. apply A1; [rewrite D4 in Hl; apply bump_lt; exact Hl|]. unfold bump. destruct (Nat.ltb_spec l j); lia.
        + intros i' Hi' Ni. rewrite CF by exact Hi'. rewrite (BJ k Hk). apply A2; [apply bump_lt; exact Hi'|]. unfold bump. destruct (Nat.ltb_spec i' i0), (Nat.ltb_spec i i0); lia.
        + rewrite D5. apply clear_drop; auto.
      - intros i k Hi Hk. rewrite CF by exact Hi. apply HZ; [apply bump_lt; exact Hi|]. rewrite D4 in Hk. unfold bump. destruct (Nat.ltb_spec k j); lia. }
    destruct (IH b' DR) as (I1 & I2 & I3 & I4 & I5 & I6 & I7 & I8). set (b1 := drop_eq_divs j b') in *. rewrite D5, D4 in *.
    assert (SP : forall v, system (b_eq b) (b_ineq b) v <-> dot (nth i0 (b_eq b) []) v = 0 /\ system (b_eq b0) (b_ineq b0) v).
    { intros v. unfold system. cbn [b0 drop_equality set_eq b_eq b_ineq]. rewrite (Forall_at (zero_on v) _ [] i0 H0). unfold zero_on at 1. tauto. }
    assert (R0 : forall p e, length p = (1 + nvar b)%nat -> length e = ndiv b -> dot (nth i0 (b_eq b) []) (p ++ e) = vpart b i0 p + coef b i0 j * nth j e 0).
    { intros p e Lp Le. assert (L0 : length (nth i0 (b_eq b) []) = (1 + total b)%nat) by (apply rows_nth; assumption). rewrite (dot_tail _ p e j); [unfold vpart, coef; rewrite Lp; reflexivity|lia|lia|lia|]. intros k Hk Nk. rewrite Lp. apply PU; lia. }
    assert (MC : forall p, modc (S j) b p <-> (coef b i0 j | vpart b i0 p) /\ modc j b' p).
    { intros p. split.
      - intros M. split; [apply M; auto|]. intros i k Hi Hk. rewrite LE' in Hi. rewrite CF, VP, BJ by assumption. intros Nk. apply M; [apply bump_lt; exact Hi|lia|exact Nk].
      - intros [M0 M] i k Hi Hk Nk. destruct (Nat.eq_dec i i0) as [->|Ni].
        + destruct (Nat.eq_dec k j) as [->|Nkj]; [exact M0|]. exfalso. apply Nk. apply PU; [lia|exact Nkj].
        + destruct (bump_surj i0 (length (b_eq b)) i Hi Ni H0) as (i' & Hi' & <-). destruct (Nat.eq_dec k j) as [->|Nkj]; [exfalso; apply Nk; apply SI; [apply bump_lt; exact Hi'|exact Ni]|]. specialize (M i' k ltac:(lia) ltac:(lia)). rewrite CF, VP, BJ in M by lia. apply M. exact Nk. }
    split; [eapply same_space_trans; [|exact I1]; exact D1|]. split; [rewrite I2; exact D2|]. split; [exact I3|]. split; [auto|]. split; [auto|]. split; [|split].
    + intros p e Lp Le S1. rewrite MC. apply SP in S1. destruct S1 as [S0 S1]. rewrite R0 in S0 by assumption. apply D6 in S1. rewrite <- Lp, ldrop_app in S1. destruct (I6 p (ldrop e j)) as [M E]; [exact Lp|rewrite ldrop_length; lia|exact S1|]. split; [|exact E]. split; [|exact M]. exists (- nth j e 0). lia.
    + intros p e1 Lp Le S1. rewrite MC. intros [[t Ht] M]. destruct (I7 p e1 Lp Le S1 M) as (e' & Le' & S' & DV). set (e := linsert e' j (- t)). assert (Le2 : length e = ndiv b) by (unfold e; rewrite linsert_length; lia). exists e. split; [exact Le2|].
      assert (LD : ldrop (p ++ e) (1 + nvar b + j) = p ++ e') by (rewrite <- Lp, ldrop_app; unfold e; rewrite ldrop_linsert by lia; reflexivity). split.
      * apply SP. split; [|apply D6; rewrite LD; exact S']. rewrite R0 by assumption. unfold e. rewrite nth_linsert by lia. rewrite Nat.eqb_refl. rewrite Ht. ring.
      * intros DI. apply DV. rewrite <- LD. apply D7; [rewrite app_length; lia|]. intros k Hk _. apply DI. exact Hk.
    + intros p e1 Lp Le S1 i Hi Z0. destruct (Nat.eq_dec i i0) as [->|Ni]; [exfalso; apply N0, Z0; exact Hn|]. destruct (bump_surj i0 (length (b_eq b)) i Hi Ni H0) as (i' & Hi' & <-). rewrite <- VP by exact Hi'. apply (I8 p e1); auto; [lia|]. intros k Hk. rewrite CF by exact Hi'. apply Z0. apply bump_lt. exact Hk.
Qed.
