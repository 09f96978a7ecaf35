(** The steps of isl_basic_map_simplify that change the local variables keep
    the integer points. *)
From Coq Require Import ZArith List Bool Lia Arith Permutation.
From Verif Require Import SeqModel SeqSpec SeqProofs MatModel BMapModel BMapSpec BMapSem BMapLists BMapNorm BMapGauss BMapGauss2 BMapOrder BDupModel BDupProofs BElimModel BElimSpec BElimCols BElimProofs BElimFM BElimVars SimpModel SimpSpec SimpBase SimpDrop.
Import ListNotations.
Open Scope Z_scope.

(** ** eliminate_divs_eq *)
Lemma find_unit_eq_ok b d : forall l i k, find_unit_eq b d i l = Some k ->
  (i <= k < i + length l)%nat /\ (nth (1 + nvar b + d) (nth (k - i) l []) 0 = 1 \/ nth (1 + nvar b + d) (nth (k - i) l []) 0 = -1).
Proof.
  induction l as [|r l IH]; intros i k; cbn [find_unit_eq]; [discriminate|]. destruct (_ && _) eqn:E.
  - intros [= <-]. cbn [length]. rewrite Nat.sub_diag. cbn [nth]. apply andb_true_iff in E. destruct E as [E _]. apply orb_true_iff in E. split; [lia|]. destruct E as [E|E]; apply Z.eqb_eq in E; auto.
  - intros H. destruct (IH (S i) k H) as [H1 H2]. cbn [length]. split; [lia|]. replace (k - i)%nat with (S (k - S i)) by lia. exact H2.
Qed.
Lemma elim_divs_eq_loop_ok : forall n b m, good b -> ordered b -> (n <= ndiv b)%nat -> let b' := fst (elim_divs_eq_loop b n m) in pres b b' /\ ordered b'.
Proof.
  induction n as [|d IH]; intros b m G O Hn; cbn [elim_divs_eq_loop]; [split; [apply pres_refl; exact G|exact O]|]. destruct (find_unit_eq b d 0 (b_eq b)) as [i|] eqn:EF; [|apply IH; [exact G|exact O|lia]].
  apply find_unit_eq_ok in EF. rewrite Nat.sub_0_r in EF. destruct EF as [Hi HN]. cbn zeta.
  destruct (eliminate_div_ok b d (nth i (b_eq b) []) (Some i) G O ltac:(lia)) as (P1 & O1 & N1 & _).
  - apply rows_nth; [apply G|lia].
  - exact HN.
  - split; [lia|reflexivity].
  - intros v _ _ [S1 _]. rewrite Forall_forall in S1. apply S1. apply nth_In. lia.
  - cbn [drop_used] in *. set (b1 := drop_equality _ i) in *. destruct (IH b1 true ltac:(apply P1) O1 ltac:(lia)) as (P2 & O2). split; [eapply pres_trans; eassumption|exact O2].
Qed.
Lemma eliminate_divs_eq_rec_pres : forall fuel b p b' p', good b -> eliminate_divs_eq_rec fuel b p = Ok (b', p') -> pres b b' /\ ordered b'.
Proof.
  induction fuel as [|fuel IH]; intros b p b' p' G; cbn [eliminate_divs_eq_rec]; [discriminate|]. destruct (order_divs b) as [b1| | |] eqn:EO; try discriminate. destruct (order_divs_pres b b1 G EO) as (P1 & O1 & _).
  pose proof (elim_divs_eq_loop_ok (ndiv b1) b1 false ltac:(apply P1) O1 (Nat.le_refl _)) as H. destruct (elim_divs_eq_loop b1 (ndiv b1) false) as [b2 m]. cbn [fst] in H. destruct H as [P2 O2].
  assert (P12 : pres b b2) by (eapply pres_trans; eassumption). destruct m; [|intros [= <- <-]; auto]. intros H. destruct (IH _ _ _ _ ltac:(apply P12) H) as [P3 O3]. split; [eapply pres_trans; eassumption|exact O3].
Qed.
Lemma eliminate_divs_eq_pres b p b' p' : good b -> eliminate_divs_eq b p = Ok (b', p') -> pres b b' /\ ordered b'.
Proof. apply eliminate_divs_eq_rec_pres. Qed.

(** ** normalize_div_expressions *)
Lemma map_nth_nil {A B} (f : list A -> list B) l i : (i < length l)%nat -> nth i (map f l) [] = f (nth i l []).
Proof. intros H. rewrite (nth_indep _ [] (f [])) by (rewrite map_length; exact H). apply map_nth. Qed.
Lemma normalize_div_expressions_pres b : good b -> pres b (normalize_div_expressions b) /\ (ordered b -> ordered (normalize_div_expressions b)).
Proof.
  intros G. pose proof G as (W & A & D & I & R & B). pose proof W as (We & Wi & Wd). unfold normalize_div_expressions. set (b' := set_div b _).
  assert (ND : ndiv b' = ndiv b) by apply map_length. assert (TT : total b' = total b) by (unfold total; rewrite ND; reflexivity).
  assert (K : forall k, (k < ndiv b)%nat -> nth k (b_div b') [] = normalize_div_row (nth k (b_div b) []) /\ (2 <= length (nth k (b_div b) []))%nat).
  { intros k Hk. split; [apply (map_nth_nil normalize_div_row); exact Hk|]. rewrite (rows_nth _ _ _ Wd Hk). lia. }
  split.
  - apply pres_same; auto.
    + repeat split. exact ND.
    + split; [rewrite TT; exact We|]. split; [rewrite TT; exact Wi|]. rewrite TT. cbn [b_div b' set_div]. unfold rows_of. rewrite Forall_map. revert Wd. apply Forall_impl. intros r Lr. rewrite (proj1 (normalize_div_row_ok r ltac:(lia))). exact Lr.
    + destruct A as (rank & A). exists rank. intros k j Hk Hj. rewrite ND in Hk, Hj. destruct (K k Hk) as [-> L]. destruct (normalize_div_row_ok _ L) as (_ & H1 & _ & H2 & _). intros H3 H4. apply A; auto; [tauto|]. intros E. apply H4. apply H2; [lia|exact E].
    + unfold denoms in *. cbn [b_div b' set_div]. rewrite Forall_map. apply Forall_forall. intros r Hr. rewrite Forall_forall in D. specialize (D r Hr). assert (Lr : length r = (2 + total b)%nat) by (apply (proj1 (Forall_forall _ _) Wd); exact Hr). apply normalize_div_row_ok; [lia|exact D].
    + intros v _ _. reflexivity.
    + intros _ v Lv Hv _ DV k Hk. change (length (b_div b')) with (ndiv b') in Hk. rewrite ND in Hk. destruct (K k Hk) as [-> L]. destruct (normalize_div_row_ok _ L) as (_ & _ & _ & _ & Q). apply Q; [exact Hv|]. apply DV. exact Hk.
  - intros O k j Hk Hj. rewrite ND in Hk. destruct (K k Hk) as [-> L]. destruct (normalize_div_row_ok _ L) as (_ & H1 & _ & H2 & _). intros H3. apply H2; [lia|]. apply O; auto. tauto.
Qed.
