(** The steps of isl_basic_map_drop_redundant_divs that end with a
    simplification. *)
From Coq Require Import ZArith List Bool Arith Lia Permutation.
From Verif Require Import SeqModel SeqSpec SeqProofs MatModel BMapModel BMapSpec BMapSem BMapLists BMapNorm BMapGauss BMapGauss2 BMapOrder BDupModel BDupProofs BElimModel BElimSpec BElimSort BElimCols
  BElimProofs BElimFM BElimVars LocalModel SimpModel SimpSpec SimpBase SimpDrop SimpDivs SimpShift SimpDups SimpNorm SimpNorm2 SimpNorm3 SimpGauss SimpIneq SimpFinal SetBase SetLift RdivModel RdivSpec RdivStep RdivElim RdivMore.
Import ListNotations.
Open Scope Z_scope.

Lemma bare_ordered b : good b -> b_empty b = true -> ordered b.
Proof. intros (_ & _ & _ & _ & _ & B) E i k Hi. destruct (B E) as (X & _). unfold ndiv in Hi. rewrite X in Hi. cbn in Hi. lia. Qed.
Lemma nodiv_ordered b : ndiv b = O -> ordered b.
Proof. intros E i k Hi. lia. Qed.

Section Simp.
Variable hash : list Z -> nat.
Variable no_redundant : bmap -> bool.
Variable tab : bmap -> bool * list kind.
Variable sfuel : nat.
Hypothesis TAB : sound_tab tab.
Lemma simplify_step_ordered b b' : good b -> b_empty b = false -> simplify_step hash no_redundant tab b = Ok (b', false) -> ordered b'.
Proof.
  intros G EF. unfold simplify_step. pose proof (normalize_constraints_pres b G EF) as P1. set (b1 := normalize_constraints b) in *.
  destruct (reduce_div_coefficients_pres b1 (proj1 (proj2 P1))) as [P2 _]. set (b2 := reduce_div_coefficients b1) in *.
  destruct (normalize_div_expressions_pres b2 (proj1 (proj2 P2))) as [P3 _]. set (b3 := normalize_div_expressions b2) in *.
  clearbody b3. 
  destruct (remove_duplicate_divs hash b3 false) as [[b4 p4]| | |] eqn:E4; try discriminate. destruct (remove_duplicate_divs_pres hash _ _ _ _ (proj1 (proj2 P3)) E4) as [P4 _].
  destruct (eliminate_unit_divs b4 p4) as [[b5 p5]| | |] eqn:E5; try discriminate. pose proof (eliminate_unit_divs_pres _ _ _ _ (proj1 (proj2 P4)) E5) as P5.
  destruct (eliminate_divs_eq b5 p5) as [[b6 p6]| | |] eqn:E6; try discriminate. destruct (eliminate_divs_eq_pres _ _ _ _ (proj1 (proj2 P5)) E6) as [P6 O6].
  destruct (eliminate_divs_ineq hash no_redundant tab b6 p6) as [[b7 p7]| | |] eqn:E7; try discriminate. destruct (eliminate_divs_ineq_pres hash no_redundant tab TAB _ _ _ _ (proj1 (proj2 P6)) O6 E7) as [P7 O7].
  destruct (gauss b7) as [[b8 p8]| | |] eqn:E8; try discriminate. destruct (gauss_pres _ _ _ (proj1 (proj2 P7)) E8) as (P8 & O8 & _).
  destruct (normalize_divs b8 (p7 || p8)) as [[b9 p9]| | |] eqn:E9; try discriminate. destruct (normalize_divs_pres b8 (p7 || p8) b9 p9 (proj1 (proj2 P8)) O8) as [P9 O9]; [intros EE; apply (gauss_clear b7 b8 p8 (proj1 (proj2 P7)) E8 EE)|exact E9|].
  destruct (remove_duplicate_constraints hash b9 true) as [[b10 p10]| | |] eqn:E10; try discriminate. intros [= <- E].
  destruct (orb_false_elim _ _ E) as [_ ->]. pose proof (proj1 (proj2 P9)) as G9. destruct (b_empty b9) eqn:EM.
  - unfold remove_duplicate_constraints in E10. destruct G9 as (_ & _ & _ & _ & _ & B). destruct (B EM) as (_ & B2 & _). rewrite B2 in E10. cbn in E10. injection E10 as <-. exact O9.
  - destruct (remove_duplicates_ok hash b9 true (proj1 G9) EM) as (c & q & EQ & _ & X & _). rewrite E10 in EQ. injection EQ as <- <-. destruct X as [(_ & _ & _ & (_ & N) & _)|(_ & X)]; [apply nodiv_ordered; exact N|]. destruct (X eq_refl) as [-> _]. exact O9.
Qed.
Lemma simplify_ordered : forall fuel b b', good b -> simplify hash no_redundant tab fuel b = Ok b' -> pres b b' /\ ordered b'.
Proof.
  induction fuel as [|fuel IH]; intros b b' G; cbn [simplify]; [discriminate|]. destruct (b_empty b) eqn:EF; [intros [= <-]; split; [apply pres_refl; exact G|apply bare_ordered; assumption]|].
  destruct (simplify_step hash no_redundant tab b) as [[b1 p]| | |] eqn:E; try discriminate. pose proof (simplify_step_pres hash no_redundant tab TAB b b1 p G EF E) as P. destruct p; [|intros [= <-]; split; [exact P|apply (simplify_step_ordered b b1 G EF E)]].
  intros H. destruct (IH b1 b' (proj1 (proj2 P)) H) as [P2 O]. split; [eapply pres_trans; [exact P|exact P2]|exact O].
Qed.

(** ** fixing a local variable *)
Lemma fix_row_dot n pos value v : length v = n -> (1 <= pos < n)%nat -> hd 0 v = 1 -> dot (zupd (zupd (repeat 0 n) pos (-1)) 0 value) v = value - nth pos v 0.
Proof.
  intros L H Hv. destruct v as [|x v]; [discriminate Hv|]. cbn [hd] in Hv. subst x. destruct n as [|n]; [cbn in L; lia|]. destruct pos as [|p]; [lia|]. cbn [length] in L. injection L as L. cbn [repeat zupd nth].
  change (dot (value :: zupd (repeat 0 n) p (-1)) (1 :: v)) with (value * 1 + dot (zupd (repeat 0 n) p (-1)) v).
  assert (K : forall n p v, length v = n -> (p < n)%nat -> dot (zupd (repeat 0 n) p (-1)) v = - nth p v 0).
  { clear. induction n as [|n IH]; intros p v L H; [lia|]. destruct v as [|x v]; [discriminate L|]. injection L as L. destruct p as [|p]; cbn [repeat zupd nth].
    - change (dot (-1 :: repeat 0 n) (x :: v)) with (-1 * x + dot (repeat 0 n) v). rewrite dot_repeat0. lia.
    - change (dot (0 :: zupd (repeat 0 n) p (-1)) (x :: v)) with (0 * x + dot (zupd (repeat 0 n) p (-1)) v). rewrite IH by lia. lia. }
  rewrite K by lia. lia.
Qed.
Lemma fix_div_ok b d i lo b' : good b -> (d < ndiv b)%nat -> free_of b d -> (i < length (b_ineq b))%nat -> 0 < icoef b d i -> length (filter (fun r => 0 <? nth (dpos b d) r 0) (b_ineq b)) = 1%nat ->
  lower_bound_is_cst b d i = Some lo -> fix_div hash no_redundant tab sfuel b d (lower_bound_from_parallel b i lo (dpos b d)) = Ok b' -> pres b b' /\ ordered b'.
Proof.
  intros G Hd Fr Hi Ci Np Lo. unfold fix_div. set (value := lower_bound_from_parallel b i lo (dpos b d)). set (r := zupd _ 0 value). destruct (good_int b d G Hd) as [RF EF]. assert (TT : total b = (nvar b + ndiv b)%nat) by reflexivity.
  assert (Lr : length r = (1 + total b)%nat) by (unfold r; rewrite !zupd_length, repeat_length; reflexivity). assert (Dr : forall v, length v = (1 + total b)%nat -> hd 0 v = 1 -> dot r v = value - nth (dpos b d) v 0) by (intros v Lv Hv; apply fix_row_dot; [exact Lv|unfold dpos; lia|exact Hv]).
  assert (P : pres b (set_eq b (b_eq b ++ [r]))).
  { pose proof G as ((We & Wi & _) & _). change (set_eq b (b_eq b ++ [r])) with (set_ineq (set_eq b (b_eq b ++ [r])) (b_ineq b)). apply restrict_pres; auto.
    - apply Forall_app. split; [exact We|]. constructor; [exact Lr|constructor].
    - intros v Hv [S1 S2]. apply Forall_app in S1 as [S1 _]. split; assumption.
    - intros v Lv Hv S. pose proof (fix_value b d i lo v G Hd Fr Hi Ci Np Lo Lv Hv S) as F. cbv zeta in F. fold value in F. exists (zupd v (dpos b d) value). split; [rewrite zupd_length; exact Lv|]. split; [apply SimpShift.firstn_zupd; unfold dpos; lia|].
      destruct F as [F1 F2]. split; [|exact F2]. apply Forall_app. split; [exact F1|]. constructor; [|constructor]. unfold zero_on. rewrite Dr; [|rewrite zupd_length; exact Lv|destruct v; [discriminate Hv|exact Hv]]. rewrite BMapGauss2.nth_zupd, Nat.eqb_refl. destruct (Nat.ltb_spec (dpos b d) (length v)) as [|X]; [cbn [andb]; lia|unfold dpos in X; lia]. }
  destruct (simplify hash no_redundant tab sfuel (set_eq b (b_eq b ++ [r]))) as [b1| | |] eqn:E; cbn [bind]; try discriminate. intros [= <-]. destruct (simplify_ordered _ _ _ (proj1 (proj2 P)) E) as [P1 O1]. destruct (finalize_pres b1 (proj1 (proj2 P1))) as [P2 O2].
  split; [|apply O2; exact O1]. eapply pres_trans; [exact P|]. eapply pres_trans; eassumption.
Qed.

(** ** defining a local variable by a lower bound *)
Lemma set_div_pres b d i j : good b -> (d < ndiv b)%nat -> (i < length (b_ineq b))%nat -> (j < length (b_ineq b))%nat -> 0 < icoef b d i -> is_opposite b i j = true ->
  hd 0 (nth i (b_ineq b) []) + hd 0 (nth j (b_ineq b) []) < icoef b d i -> ok_to_set_div_from_bound b d i = true -> pres b (set_div_from_lower_bound b d i).
Proof.
  intros G Hd Hi Hj Ci Op Sm Ok. destruct (good_int b d G Hd) as [RF EF]. apply kept_pres; [exact G|exact EF|]. apply (set_div_ok b d i j); try assumption; [apply G| |apply (ok_to_set_ok b d i Ok)].
  intros v. rewrite (is_opposite_ok b i j (proj1 G) Hi Hj Op), dot_seq_neg. lia.
Qed.

(** ** eliminating a local variable *)
Lemma remove_div_ok b d b' : good b -> ordered b -> (d < ndiv b)%nat -> free_of b d -> exactly b (nvar b + d) -> remove_div hash no_redundant tab sfuel b d = Ok b' -> pres b b' /\ ordered b'.
Proof.
  intros G O Hd Fr Ex. unfold remove_div. destruct (eliminate_vars hash no_redundant tab b (nvar b + d) 1) as [b1| | |] eqn:E; cbn [bind]; try discriminate.
  destruct (elim_exact hash no_redundant tab TAB b d b1 G O Hd Fr Ex E) as (P1 & O1 & X). destruct (b_empty b1) eqn:EM; [intros [= <-]; auto|]. destruct (X eq_refl) as [ND F]. destruct (same_space_nvar _ _ (proj1 P1)) as [NV _]. rewrite <- NV in F.
  destruct (drop_fresh_pres b1 d (proj1 (proj2 P1)) O1 ltac:(lia) F) as (P2 & O2 & _). destruct (simplify hash no_redundant tab sfuel (drop_div b1 d)) as [b2| | |] eqn:E2; cbn [bind]; try discriminate. intros [= <-].
  destruct (simplify_ordered _ _ _ (proj1 (proj2 P2)) E2) as [P3 O3]. destruct (finalize_pres b2 (proj1 (proj2 P3))) as [P4 O4]. split; [|apply O4; exact O3]. eapply pres_trans; [exact P1|]. eapply pres_trans; [exact P2|]. eapply pres_trans; eassumption.
Qed.
End Simp.
