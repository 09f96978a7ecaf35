(** Proofs of further consequences, see PropsTight2.v. *)
From Coq Require Import ZArith List Bool Arith Lia.
From Verif Require Import SeqModel SeqProofs MatModel StreamModel BMapModel BDupModel BElimModel AstModel CtxModel CtxProofs.
Import ListNotations.
Open Scope Z_scope.

(** ** contexts *)
Lemma abort_ok c : ctx_aborted (ctx_abort (Some c)) = 1 /\ ctx_aborted (ctx_resume (ctx_abort (Some c))) = 0 /\
  (c_abort c = false -> ctx_resume (ctx_abort (Some c)) = Some c) /\
  exists c', next_operation (ctx_abort (Some c)) = CtxModel.Ret (Some c') (-1) /\ last_error (Some c') = Eabort /\ c_ops c' = c_ops c.
Proof.
  split; [reflexivity|]. split; [reflexivity|]. split; [intros H; destruct c; cbn in *; now rewrite H|]. eexists. split; [reflexivity|]. split; reflexivity.
Qed.
Lemma max_ok c m : get_max_operations (set_max_operations (Some c) m) = m /\ get_max_operations None = 0.
Proof. split; reflexivity. Qed.
Lemma ref_ok c : 0 <= c_ref c < 2 ^ 31 - 1 ->
  exists c', ctx_ref c = CtxModel.Ret (Some c') tt /\ c_ref c' = c_ref c + 1 /\ ctx_deref c' = CtxModel.Ret (Some c) tt.
Proof.
  intros H. unfold ctx_ref. rewrite (proj2 (Z.ltb_lt _ _)) by lia. eexists. split; [reflexivity|]. split; [reflexivity|].
  unfold ctx_deref. cbn [c_ref with_ref]. rewrite (proj2 (Z.ltb_lt _ _)) by lia. replace (c_ref c + 1 - 1) with (c_ref c) by lia. destruct c; reflexivity.
Qed.
Lemma ref_overflow c : c_ref c = 2 ^ 31 - 1 -> ctx_ref c = CtxModel.UB.
Proof. intros H. unfold ctx_ref. rewrite H. reflexivity. Qed.
Lemma free_ok c : live c -> (exists o, c_opt c = Some o /\ o_on_error o <> OAbort) ->
  (c_ref c = 0 -> ctx_free (Some c) = CtxModel.Ret None true) /\
  (c_ref c <> 0 -> exists c', ctx_free (Some c) = CtxModel.Ret (Some c') false /\ c_error c' = Einvalid /\ c_ref c' = c_ref c).
Proof.
  intros _ (o & E & N). split; intros H; unfold ctx_free.
  - rewrite H, E. reflexivity.
  - rewrite (proj2 (Z.eqb_neq _ _)) by exact H. cbn [negb]. unfold die. rewrite E. destruct (o_on_error o); try contradiction; (eexists; split; [reflexivity|split; reflexivity]).
Qed.

(** ** operators *)
Lemma op_eqb_iff a b : op_eqb a b = true <-> a = b.
Proof. split; [|intros ->; destruct b; reflexivity]. destruct a; destruct b; intros H; try reflexivity; discriminate. Qed.
Lemma is_and_iff o : is_and o = true <-> o = op_and \/ o = op_and_then.
Proof. unfold is_and. rewrite orb_true_iff, !op_eqb_iff. reflexivity. Qed.
Lemma is_or_iff o : is_or o = true <-> o = op_or \/ o = op_or_else.
Proof. unfold is_or. rewrite orb_true_iff, !op_eqb_iff. reflexivity. Qed.
(** parentheses around a conjunction or disjunction inside another one *)
Lemma logic_parens o o' l left : is_and o || is_or o = true -> is_and o' || is_or o' = true ->
  sub_expr_need_parens o (EOp o' l) left = true <-> is_and o && is_or o' || is_or o && is_and o' || negb left = true.
Proof. destruct o; intros H; try discriminate H; destruct o'; intros H'; try discriminate H'; destruct left; vm_compute; tauto. Qed.

(** ** integer divisions from pairs of inequalities *)
Lemma nth_firstn_lt (l : list Z) k j : (j < k)%nat -> nth j (firstn k l) 0 = nth j l 0.
Proof. revert k j. induction l as [|x l IH]; intros [|k] [|j] H; cbn; try lia; auto. apply IH. lia. Qed.
Lemma nth_firstn_ge (l : list Z) k j : (k <= j)%nat -> nth j (firstn k l) 0 = 0.
Proof. intros H. apply nth_overflow. rewrite firstn_length. lia. Qed.
(** a constraint is only used for an integer division with a known definition if
    it does not involve later integer divisions and if the other variables that
    it involves come before some variable in the current definition *)
Lemma better_ok b div ineq : let d := nth div (b_div b) [] in let r := nth ineq (b_ineq b) [] in let o := (1 + nvar b + div)%nat in
  better_div_constraint b div ineq = true <->
  hd 0 d = 0 \/ (forall k, (o < k)%nat -> nth k r 0 = 0) /\ exists k, nth k (tl d) 0 <> 0 /\ forall j, (k <= j < o)%nat -> nth j r 0 = 0.
Proof.
  intros d r o. unfold better_div_constraint. fold d r o. destruct (Z.eqb_spec (hd 0 d) 0) as [E|E]; [tauto|].
  pose proof (last_non_zero_ok (skipn (o + 1) r)) as H1. destruct (seq_last_non_zero (skipn (o + 1) r)) as [i|].
  - destruct H1 as (_ & N & _). split; [discriminate|]. intros [X|[X _]]; [contradiction|]. exfalso. apply N. rewrite nth_skipn. apply X. lia.
  - assert (A : forall k, (o < k)%nat -> nth k r 0 = 0). { intros k Hk. specialize (H1 (k - (o + 1))%nat). rewrite nth_skipn in H1. replace k with (o + 1 + (k - (o + 1)))%nat by lia. exact H1. }
    pose proof (last_non_zero_ok (firstn o r)) as H2. pose proof (last_non_zero_ok (tl d)) as H3.
    destruct (seq_last_non_zero (firstn o r)) as [i|]; destruct (seq_last_non_zero (tl d)) as [j|]; cbn [opt_lt].
    + destruct H2 as (L2 & N2 & Z2). destruct H3 as (L3 & N3 & Z3). rewrite firstn_length in L2. split.
      * intros H. apply Nat.ltb_lt in H. right. split; [exact A|]. exists j. split; [exact N3|]. intros k Hk. rewrite <- (nth_firstn_lt r o) by lia. apply Z2. lia.
      * intros [X|(_ & k & N & Zk)]; [contradiction|]. apply Nat.ltb_lt. assert (k <= j)%nat by (destruct (Nat.le_gt_cases k j) as [Y|Y]; [exact Y|exfalso; apply N; now apply Z3]).
        destruct (Nat.le_gt_cases k i) as [Y|Y]; [|lia]. exfalso. apply N2. rewrite nth_firstn_lt by lia. apply Zk. lia.
    + split; [discriminate|]. intros [X|(_ & k & N & _)]; [contradiction|]. exfalso. apply N. apply H3.
    + destruct H3 as (L3 & N3 & Z3). split; [intros _|reflexivity]. right. split; [exact A|]. exists j. split; [exact N3|]. intros k Hk. rewrite <- (nth_firstn_lt r o) by lia. apply H2.
    + split; [discriminate|]. intros [X|(_ & k & N & _)]; [contradiction|]. exfalso. apply N. apply H3.
Qed.
Lemma ok_to_set_ok b div ineq : ok_to_set_div_from_bound b div ineq = true <->
  forall j, (j < ndiv b)%nat -> j <> div ->
    (nth (1 + nvar b + j) (nth ineq (b_ineq b) []) 0 = 0 \/ hd 0 (nth j (b_div b) []) <> 0) /\
    (hd 0 (nth j (b_div b) []) = 0 \/ nth (2 + nvar b + div) (nth j (b_div b) []) 0 = 0).
Proof.
  unfold ok_to_set_div_from_bound. rewrite andb_true_iff, !forallb_forall. split.
  - intros [H1 H2] j Hj Hd. specialize (H1 j ltac:(apply in_seq; lia)). specialize (H2 j ltac:(apply in_seq; lia)).
    rewrite !orb_true_iff, negb_true_iff, Nat.eqb_eq, Z.eqb_eq, Z.eqb_neq in H1. rewrite !orb_true_iff, Nat.eqb_eq, !Z.eqb_eq in H2. intuition congruence.
  - intros H. split; intros j I; apply in_seq in I; destruct (Nat.eq_dec div j) as [E|E]; try (rewrite (proj2 (Nat.eqb_eq _ _) E); reflexivity);
      destruct (H j ltac:(lia) ltac:(congruence)) as [H1 H2]; rewrite !orb_true_iff, ?negb_true_iff, ?Nat.eqb_eq, ?Z.eqb_eq, ?Z.eqb_neq; tauto.
Qed.
