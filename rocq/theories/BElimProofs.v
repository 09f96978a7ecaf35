(** Proofs for redundancy removal and Fourier-Motzkin elimination. *)
From Coq Require Import ZArith List Bool Lia Arith Permutation.
From Verif Require Import SeqModel SeqSpec SeqProofs MatModel BMapModel BMapSpec BMapSem BMapLists BMapNorm BMapGauss BMapGauss2 BMapOrder BDupModel BDupProofs BElimModel BElimSpec BElimSort BElimCols.
Import ListNotations.
Open Scope Z_scope.

(** ** isl_basic_map_update_from_tab *)
Lemma drop_swap_split (a c : list (list Z)) x : drop_swap (a ++ x :: c) (length a) = match c with [] => a | _ => a ++ last c [] :: removelast c end.
Proof.
  unfold drop_swap. assert (E : forall y, lset (a ++ x :: c) (length a) y = a ++ y :: c) by (intros y; induction a as [|z a IH]; cbn; [reflexivity|f_equal; apply IH]).
  rewrite E. rewrite removelast_app by discriminate. destruct c as [|z c].
  - cbn. apply app_nil_r.
  - assert (EL : last (a ++ x :: z :: c) [] = last (z :: c) []) by (clear; induction a as [|w a IH]; [reflexivity|]; cbn [app]; rewrite <- IH; destruct a; reflexivity).
    rewrite EL. reflexivity.
Qed.
Lemma drop_swap_firstn (l : list (list Z)) i : (i < length l)%nat -> firstn i (drop_swap l i) = firstn i l /\ Permutation (skipn i (drop_swap l i)) (skipn (S i) l).
Proof.
  intros H. destruct (split_at l [] i H) as (a & c & La & E & _ & _). set (x := nth i l []) in *. clearbody x. rewrite E. rewrite <- La. clear E. rewrite drop_swap_split.
  rewrite firstn_app, Nat.sub_diag, firstn_all, app_nil_r. replace (skipn (S (length a)) (a ++ x :: c)) with c.
  2:{ rewrite skipn_app. replace (S (length a) - length a)%nat with 1%nat by lia. rewrite skipn_all2 by lia. reflexivity. }
  destruct c as [|z c].
  - split; [apply firstn_all|]. rewrite skipn_all. reflexivity.
  - rewrite firstn_app, Nat.sub_diag, firstn_all, app_nil_r. split; [reflexivity|]. rewrite skipn_app, Nat.sub_diag, skipn_all. cbn [app skipn].
    rewrite (app_removelast_last (l := z :: c) []) at 3 by discriminate. apply Permutation_cons_append.
Qed.
Lemma skipn_nth_cons {A} (l : list A) d : forall i, (i < length l)%nat -> skipn i l = nth i l d :: skipn (S i) l.
Proof. induction l as [|x l IH]; intros [|i] H; cbn in H; try lia; [reflexivity|]. cbn [skipn nth]. apply IH. lia. Qed.
Lemma nth_firstn_eq {A} (l l' : list A) d i n : firstn n l = firstn n l' -> (i < n)%nat -> nth i l d = nth i l' d.
Proof. revert l l' i. induction n as [|n IH]; intros [|x l] [|y l'] [|i]; cbn; intros E H; try lia; try discriminate; try reflexivity; injection E as -> E; auto. apply IH; [exact E|lia]. Qed.

Lemma update_loop_ok ks : forall i b, (i <= length (b_ineq b))%nat -> wf b ->
  let b' := update_loop i ks b in
  shape b b' /\ wf b' /\ b_div b' = b_div b /\ (forall c, zcol c b -> zcol c b') /\
  forall v, system (b_eq b') (b_ineq b') v <-> Forall (zero_on v) (b_eq b) /\ Forall (nonneg_on v) (skipn i (b_ineq b)) /\ obeys ks (firstn i (b_ineq b)) v.
Proof.
  induction i as [|i IH]; intros b Hi W; cbn [update_loop].
  - split; [apply shape_refl|]. split; [exact W|]. split; [reflexivity|]. split; [auto|]. intros v. cbn [skipn firstn]. unfold system, obeys. cbn. split; [intros [A B]; repeat split; auto; intros; lia|tauto].
  - destruct W as (W1 & W2 & W3). set (r := nth i (b_ineq b) []). assert (Lr : length r = (1 + total b)%nat) by (apply rows_nth; [exact W2|lia]). pose proof (drop_swap_firstn (b_ineq b) i ltac:(lia)) as [FE SP].
    pose proof (drop_swap_perm (b_ineq b) i ltac:(lia)) as DP. pose proof (skipn_nth_cons (b_ineq b) [] i ltac:(lia)) as SK. fold r in SK, DP.
    assert (W2' : rows_of (1 + total b) (drop_swap (b_ineq b) i)). { unfold rows_of in *. apply (Forall_perm _ _ _ (Permutation_sym DP)) in W2. inversion W2; assumption. }
    set (b1 := match nth i ks Other with Equality => inequality_to_equality b i | Redundant => drop_inequality b i | Other => b end).
    assert (LF : length (firstn i (b_ineq b)) = i) by (rewrite firstn_length; lia). assert (LF' : length (firstn (S i) (b_ineq b)) = S i) by (rewrite firstn_length; lia).
    assert (OB : forall v, obeys ks (firstn (S i) (b_ineq b)) v <-> obeys ks (firstn i (b_ineq b)) v /\ match nth i ks Other with Equality => zero_on v r | Redundant => True | Other => nonneg_on v r end).
    { intros v. unfold obeys. rewrite LF, LF'. assert (NI : nth i (firstn (S i) (b_ineq b)) [] = r) by (apply (nth_firstn_eq _ _ _ _ (S i)); [rewrite firstn_firstn, Nat.min_id; reflexivity|lia]).
      assert (NJ : forall j, (j < i)%nat -> nth j (firstn (S i) (b_ineq b)) [] = nth j (firstn i (b_ineq b)) []).
      { intros j Hj. apply (nth_firstn_eq _ _ _ _ i); [|exact Hj]. rewrite !firstn_firstn. f_equal. lia. }
      split.
      - intros H. split; [intros j Hj; rewrite <- NJ by exact Hj; apply H; lia|]. rewrite <- NI. apply H. lia.
      - intros [H1 H2] j Hj. destruct (Nat.eq_dec j i) as [->|]; [rewrite NI; exact H2|]. rewrite NJ by lia. apply H1. lia. }
    assert (B1 : shape b b1 /\ wf b1 /\ b_div b1 = b_div b /\ (i <= length (b_ineq b1))%nat /\ firstn i (b_ineq b1) = firstn i (b_ineq b) /\ (forall c, zcol c b -> zcol c b1) /\
      forall v, (Forall (zero_on v) (b_eq b1) /\ Forall (nonneg_on v) (skipn i (b_ineq b1))) <-> (Forall (zero_on v) (b_eq b) /\ Forall (nonneg_on v) (skipn (S i) (b_ineq b)) /\ match nth i ks Other with Equality => zero_on v r | Redundant => True | Other => nonneg_on v r end)).
    { unfold b1. destruct (nth i ks Other).
      - split; [repeat split|]. split; [split; [constructor; assumption|split; [exact W2'|exact W3]]|]. split; [reflexivity|]. split; [cbn; rewrite drop_swap_length; lia|]. split; [exact FE|]. split.
        + intros c [Z1 Z2]. split; cbn; [constructor; [apply nth_z; exact Z2|exact Z1]|apply drop_swap_z; exact Z2].
        + intros v. cbn. fold r. rewrite Forall_cons_iff, (Forall_perm _ _ _ SP). tauto.
      - split; [repeat split|]. split; [split; [exact W1|split; [exact W2'|exact W3]]|]. split; [reflexivity|]. split; [cbn; rewrite drop_swap_length; lia|]. split; [exact FE|]. split.
        + intros c [Z1 Z2]. split; cbn; [exact Z1|apply drop_swap_z; exact Z2].
        + intros v. cbn. rewrite (Forall_perm _ _ _ SP). tauto.
      - split; [apply shape_refl|]. split; [repeat split; assumption|]. split; [reflexivity|]. split; [lia|]. split; [reflexivity|]. split; [auto|]. intros v. rewrite SK, Forall_cons_iff. tauto. }
    destruct B1 as (S1 & W1' & D1 & L1 & F1 & Z1 & Q1). clearbody b1. destruct (IH b1 L1 W1') as (S2 & W2'' & D2 & Z2 & Q2). split; [eapply shape_trans; eassumption|]. split; [exact W2''|]. split; [congruence|]. split; [auto|].
    intros v. rewrite Q2, F1, OB. rewrite <- and_assoc, Q1. tauto.
Qed.

(** ** isl_basic_map_remove_redundancies *)
(** a simplification: the columns in [X] that are zero remain zero *)
Definition simplified (X : nat -> Prop) (b b' : bmap) : Prop :=
  same_space b b' /\ wf b' /\ tidy X b' /\ (ordered b -> ordered b') /\ (forall q, length q = (1 + nvar b)%nat -> admissible (b_rat b) q -> (points b q <-> points b' q)) /\
  (forall c, X c -> zcol c b -> zcol c b') /\ (b_empty b' = false -> ndiv b' = ndiv b /\ b_empty b = false).
Lemma same_space_nvar b b' : same_space b b' -> nvar b' = nvar b /\ b_rat b' = b_rat b.
Proof. intros (A & B & C & D). unfold nvar. rewrite A, B, C. auto. Qed.
Lemma same_space_trans a b c : same_space a b -> same_space b c -> same_space a c.
Proof. intros (A1 & A2 & A3 & A4) (B1 & B2 & B3 & B4). repeat split; congruence. Qed.
Lemma simplified_refl X b : wf b -> tidy X b -> simplified X b b.
Proof. intros W T. split; [repeat split|]. split; [exact W|]. split; [exact T|]. split; [auto|]. split; [intros; reflexivity|]. split; auto. Qed.
Lemma simplified_trans X a b c : simplified X a b -> simplified X b c -> simplified X a c.
Proof.
  intros (A1 & A2 & A3 & A4 & A5 & A6 & A7) (B1 & B2 & B3 & B4 & B5 & B6 & B7). split; [eapply same_space_trans; eassumption|]. split; [exact B2|]. split; [exact B3|]. split; [auto|].
  destruct (same_space_nvar _ _ A1) as [N R]. rewrite N, R in B5. split; [intros q Lq Hq; rewrite (A5 q Lq Hq); apply B5; assumption|]. split; [auto|].
  intros E. destruct (B7 E) as [C1 C2]. destruct (A7 C2) as [C3 C4]. split; [congruence|exact C4].
Qed.
Lemma admissible_pos rat v : admissible rat v -> 0 < hd 0 v. Proof. intros [H _]. exact H. Qed.

Lemma gauss_flag b b' p : wf b -> acyclic b -> gauss b = Ok (b', p) -> b_empty b = true -> b_empty b' = true.
Proof.
  intros W A. unfold gauss. destruct (order_divs_ok b W A) as (b1 & -> & RN & O1 & D1 & _). pose proof RN as (SH & W1 & _). intros G E.
  destruct (gauss_ordered_ok b1 W1 O1) as (b2 & p2 & E2 & [[ST _]|(EM & _)]); rewrite G in E2; injection E2 as <- <-; [|exact EM].
  destruct ST as ((_ & _ & _ & _ & _ & S1) & _). destruct SH as (_ & _ & _ & _ & _ & S2). congruence.
Qed.
Lemma gauss_simplified X b : wf b -> tidy X b -> exists b' p, gauss b = Ok (b', p) /\ simplified X b b' /\ ordered b'.
Proof.
  intros W T. pose proof (tidy_acyclic X b T) as A. destruct (gauss_ok b W A) as (b' & p & E & S1 & W' & O' & _ & P & _ & ND). exists b', p. split; [exact E|]. split; [|exact O'].
  split; [exact S1|]. split; [exact W'|]. split; [right; exact O'|]. split; [auto|]. split; [intros q Lq Hq; apply P; [exact Lq|apply (admissible_pos _ _ Hq)]|].
  split; [intros c Xc Zc; apply (gauss_z X b b' p E W T c Xc Zc)|]. intros Em. split; [apply ND; exact Em|]. destruct (b_empty b) eqn:EB; [|reflexivity]. rewrite (gauss_flag b b' p W A E EB) in Em. discriminate.
Qed.

(** replacing the constraints by equivalent ones *)
Lemma rows_simplified X b b' : shape b b' -> wf b' -> b_div b' = b_div b -> tidy X b ->
  (forall v, length v = (1 + total b)%nat -> admissible (b_rat b) v -> (system (b_eq b) (b_ineq b) v <-> system (b_eq b') (b_ineq b') v)) ->
  (forall c, X c -> zcol c b -> zcol c b') -> simplified X b b'.
Proof.
  intros (A1 & A2 & A3 & A4 & A5 & A6) W D T H Z1. split; [repeat split; assumption|]. split; [exact W|]. assert (NV : nvar b' = nvar b) by (unfold nvar; congruence).
  assert (OO : ordered b -> ordered b') by (intros O; unfold ordered, ndiv in *; rewrite D, NV; exact O).
  split. { destruct T as [[AC AL]|O]; [left|right; auto]. split; [apply (acyclic_ext b); assumption|]. unfold aloof, ndiv in *. rewrite D, NV. exact AL. }
  split; [exact OO|]. split; [|split; [exact Z1|intros; split; congruence]].
  intros q Lq Hq. unfold points, member, described. rewrite A6, A4. apply and_iff_compat_l.
  assert (X1 : forall e, length e = ndiv b -> length (q ++ e) = (1 + total b)%nat) by (intros; rewrite app_length; unfold total; lia).
  assert (X2 : forall e, admissible (b_rat b) (q ++ e)) by (intros; destruct q; [cbn in Lq; lia|exact Hq]).
  split; intros (e & Le & Se); exists e; (split; [exact Le|]); (apply (H (q ++ e)); [apply X1; exact Le|apply X2|exact Se]).
Qed.
(** a basic map without points *)
Lemma empty_simplified X b : wf b -> tidy X b -> (forall v, length v = (1 + total b)%nat -> admissible (b_rat b) v -> ~ system (b_eq b) (b_ineq b) v) -> simplified X b (set_to_empty b).
Proof.
  intros W T N. assert (GE : same_space b (set_to_empty b)) by (unfold set_to_empty; destruct (_ && _); repeat split). split; [exact GE|]. split; [apply set_to_empty_wf; exact W|].
  assert (OO : ordered b -> ordered (set_to_empty b)). { intros O. unfold set_to_empty. destruct (_ && _); [exact O|]. intros k j Hk. unfold ndiv in Hk. cbn in Hk. lia. }
  split. { unfold set_to_empty. destruct (_ && _); [exact T|]. right. intros k j Hk. unfold ndiv in Hk. cbn in Hk. lia. }
  split; [exact OO|]. split; [|split; [intros c _; apply set_to_empty_z|intros E; rewrite set_to_empty_flag in E; discriminate]].
  intros q Lq Hq. unfold points, member. rewrite set_to_empty_flag. split; [|intros [F _]; discriminate]. intros (_ & e & Le & Se). exfalso. apply (N (q ++ e)); [rewrite app_length; unfold total; lia| |exact Se].
  destruct q; [cbn in Lq; lia|exact Hq].
Qed.

Section Tab.
Variable no_redundant : bmap -> bool.
Variable tab : bmap -> bool * list kind.
Hypothesis Tab : sound_tab tab.
Variable X : nat -> Prop.

Lemma update_from_tab_ok b e ks : wf b -> b_empty b = false -> tidy X b -> classified b e ks -> exists b', update_from_tab b e ks = Ok b' /\ simplified X b b'.
Proof.
  intros W Em T C. unfold update_from_tab. set (b1 := if e then set_to_empty b else update_loop (length (b_ineq b)) ks b).
  assert (S1 : simplified X b b1).
  { unfold b1, classified in *. destruct e; [apply empty_simplified; assumption|]. destruct (update_loop_ok ks (length (b_ineq b)) b ltac:(lia) W) as (S1 & W1 & D1 & Z1 & Q1).
    apply rows_simplified; auto. intros v Lv Hv. rewrite (Q1 v). rewrite skipn_all, firstn_all. rewrite (C v Lv Hv). split; [intros [? ?]; repeat split; auto|tauto]. }
  cbn zeta. destruct (negb _); [|exists b1; split; [reflexivity|exact S1]].
  destruct (gauss_simplified X b1) as (b' & p & -> & S2 & _); [apply S1|apply S1|]. exists b'. split; [reflexivity|]. eapply simplified_trans; eassumption.
Qed.
Lemma remove_redundancies_ok b : wf b -> tidy X b -> exists b', remove_redundancies no_redundant tab b = Ok b' /\ simplified X b b' /\ ordered b'.
Proof.
  intros W T. unfold remove_redundancies. destruct (gauss_simplified X b W T) as (b1 & p & -> & S1 & O1). destruct (b_empty b1) eqn:E1; [exists b1; auto|]. destruct (no_redundant b1); [exists b1; auto|]. destruct (Nat.leb _ 1); [exists b1; auto|].
  pose proof S1 as (_ & W1 & T1 & _). destruct (sort_constraints_ok b1) as (l & -> & P & _). set (b2 := set_ineq b1 l).
  assert (S2 : simplified X b1 b2).
  { destruct W1 as (W1 & W2 & W3). apply rows_simplified; auto; [repeat split|split; [exact W1|split; [|exact W3]]| |].
    - unfold rows_of, b2. cbn. apply (proj1 (Forall_perm _ _ _ P)). exact W2.
    - intros v _ _. unfold system, b2. cbn. rewrite (Forall_perm _ _ _ P). reflexivity.
    - intros c _ [Z1 Z2]. split; [exact Z1|]. unfold b2. cbn. apply (proj1 (Forall_perm _ _ _ P)). exact Z2. }
  pose proof S2 as (_ & W2 & T2 & O2 & _). specialize (Tab b2 W2 E1). destruct (tab b2) as [e ks]. cbn [fst snd] in Tab.
  destruct (update_from_tab_ok b2 e ks W2 E1 T2 Tab) as (b' & E & S3). exists b'. split; [exact E|]. split; [eapply simplified_trans; [exact S1|eapply simplified_trans; eassumption]|]. apply S3. apply O2. exact O1.
Qed.
End Tab.
