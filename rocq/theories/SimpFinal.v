(** isl_basic_map_finalize and isl_basic_map_simplify keep the points. *)
From Coq Require Import ZArith List Bool Lia Arith Permutation.
From Verif Require Import SeqModel SeqSpec SeqProofs MatModel BMapModel BMapSpec BMapSem BMapLists BMapNorm BMapGauss BMapGauss2 BMapOrder BDupModel BDupProofs BElimModel BElimSpec BElimSort BElimCols BElimProofs BElimFM BElimVars SimpModel SimpSpec SimpBase SimpDrop SimpDivs SimpShift SimpDups SimpIneq SimpGauss SimpNorm SimpNew SimpNorm2 SimpNorm3.
Import ListNotations.
Open Scope Z_scope.

(** ** isl_basic_map_drop_constraints_involving *)
Lemma drop_involving_eq_ok c : forall i l, (i <= length l)%nat -> (forall k, (i <= k < length l)%nat -> nth c (nth k l []) 0 = 0) ->
  Forall (fun r => nth c r 0 = 0) (drop_involving_eq c i l) /\ (forall P : list Z -> Prop, Forall P l -> Forall P (drop_involving_eq c i l)) /\
  (forall r, List.In r l -> nth c r 0 = 0 -> List.In r (drop_involving_eq c i l)).
Proof.
  induction i as [|i IH]; intros l Hi HZ; cbn [drop_involving_eq].
  - split; [|split; auto]. apply (Forall_nth_iff _ _ []). intros k Hk. apply HZ. lia.
  - destruct (Z.eqb_spec (nth c (nth i l []) 0) 0) as [E|E].
    + apply IH; [lia|]. intros k Hk. destruct (Nat.eq_dec k i) as [->|]; [exact E|apply HZ; lia].
    + pose proof (ldrop_perm l [] i ltac:(lia)) as PM. assert (LL : length (ldrop l i) = (length l - 1)%nat) by (pose proof (Permutation_length PM) as X; cbn [length] in X; lia).
      destruct (IH (ldrop l i)) as (A & B & C); [lia| |].
      * intros k Hk. rewrite nth_ldrop by lia. destruct (Nat.ltb_spec k i); [lia|]. apply HZ. lia.
      * split; [exact A|]. split.
        -- intros P F. apply B. apply (proj2 (Forall_perm _ _ _ PM)) in F. inversion F; assumption.
        -- intros r Hr Zr. apply C; [|exact Zr]. apply (Permutation_in _ (Permutation_sym PM)) in Hr. destruct Hr as [<-|Hr]; [contradiction|exact Hr].
Qed.
Lemma drop_involving_ineq_ok c : forall i l, (i <= length l)%nat -> (forall k, (i <= k < length l)%nat -> nth c (nth k l []) 0 = 0) ->
  Forall (fun r => nth c r 0 = 0) (drop_involving_ineq c i l) /\ (forall P : list Z -> Prop, Forall P l -> Forall P (drop_involving_ineq c i l)) /\
  (forall r, List.In r l -> nth c r 0 = 0 -> List.In r (drop_involving_ineq c i l)).
Proof.
  induction i as [|i IH]; intros l Hi HZ; cbn [drop_involving_ineq].
  - split; [|split; auto]. apply (Forall_nth_iff _ _ []). intros k Hk. apply HZ. lia.
  - destruct (Z.eqb_spec (nth c (nth i l []) 0) 0) as [E|E].
    + apply IH; [lia|]. intros k Hk. destruct (Nat.eq_dec k i) as [->|]; [exact E|apply HZ; lia].
    + pose proof (drop_swap_perm l i ltac:(lia)) as PM. pose proof (drop_swap_length l i) as LL.
      destruct (IH (drop_swap l i)) as (A & B & C); [lia| |].
      * intros k Hk. rewrite nth_drop_swap by lia. destruct (Nat.eqb_spec k i); apply HZ; lia.
      * split; [exact A|]. split.
        -- intros P F. apply B. apply (proj2 (Forall_perm _ _ _ PM)) in F. inversion F; assumption.
        -- intros r Hr Zr. apply C; [|exact Zr]. apply (Permutation_in _ (Permutation_sym PM)) in Hr. destruct Hr as [<-|Hr]; [contradiction|exact Hr].
Qed.

(** ** isl_basic_map_is_div_constraint *)
Lemma dot_prefix r v c : length r = length v -> (c < length r)%nat -> (forall k, (c < k)%nat -> nth k r 0 = 0) -> dot r v = dot (firstn c r) (firstn c v) + nth c r 0 * nth c v 0.
Proof.
  intros L Hc HZ. rewrite <- (firstn_skipn c v) at 1. pose proof (dot_tail r (firstn c v) (skipn c v) 0) as D.
  assert (FL : length (firstn c v) = c) by (rewrite firstn_length; lia). rewrite FL, skipn_length in D. rewrite D; [|lia|lia|lia|intros k Hk Nk; apply HZ; lia].
  f_equal. rewrite Nat.add_0_r, nth_skipn, Nat.add_0_r. reflexivity.
Qed.
Lemma firstn_zupd (l : list Z) t : forall c, firstn c (zupd l c t) = firstn c l.
Proof. induction l as [|x l IH]; intros [|c]; cbn; try reflexivity. f_equal. apply IH. Qed.
Definition fpart (b : bmap) (d : nat) (v : list Z) : Z := dot (firstn (1 + nvar b + d) (tl (nth d (b_div b) []))) (firstn (1 + nvar b + d) v).
Lemma is_div_constraint_ok b r d t v : wf b -> denoms (b_div b) -> (d < ndiv b)%nat -> length r = (1 + total b)%nat -> length v = (1 + total b)%nat -> hd 0 v = 1 -> nth (1 + nvar b + d) r 0 <> 0 ->
  is_div_constraint b r d = true -> hd 0 (nth d (b_div b) []) * t <= fpart b d v < hd 0 (nth d (b_div b) []) * t + hd 0 (nth d (b_div b) []) -> 0 <= dot r (zupd v (1 + nvar b + d) t).
Proof.
  intros (_ & _ & Wd) D Hd Lr Lv Hv NZ. unfold is_div_constraint. cbn zeta. set (c := (1 + nvar b + d)%nat) in *. set (dv := nth d (b_div b) []) in *.
  assert (LD : length dv = (2 + total b)%nat) by (apply (rows_nth _ _ _ Wd); exact Hd). assert (TT : total b = (nvar b + ndiv b)%nat) by reflexivity. assert (Hc : (c < 1 + total b)%nat) by (unfold c; lia).
  assert (LT : length (tl dv) = (1 + total b)%nat) by (apply tl_length; exact LD).
  assert (M0 : 0 <= hd 0 dv) by (apply (proj1 (Forall_nth_iff _ _ []) D d Hd)).
  assert (RS : (match seq_first_non_zero (skipn (c + 1) r) with None => true | Some _ => false end) = true -> forall k, (c < k)%nat -> nth k r 0 = 0).
  { pose proof (first_non_zero_ok (skipn (c + 1) r)) as F. destruct (seq_first_non_zero _); [discriminate|]. intros _ k Hk. destruct (Nat.lt_ge_cases k (length r)) as [J|J]; [|apply nth_overflow; exact J]. specialize (F (k - (c + 1))%nat). rewrite nth_skipn in F. replace (c + 1 + (k - (c + 1)))%nat with k in F by lia. apply F. }
  set (w := zupd v c t). assert (Lw : length w = length r) by (unfold w; rewrite zupd_length; lia).
  assert (FW : firstn c w = firstn c v) by (unfold w; apply firstn_zupd).
  assert (NW : nth c w 0 = t). { unfold w. rewrite nth_zupd, Nat.eqb_refl. destruct (Nat.ltb_spec c (length v)); [reflexivity|lia]. }
  intros H BD. unfold fpart in BD. fold dv c in BD.
  destruct (Z.eqb_spec (nth c r 0) (hd 0 dv)) as [E|E].
  - apply andb_prop in H. destruct H as [H1 H2]. rewrite (dot_prefix r w c) by (auto; try lia; apply RS; exact H2). apply seq_eq_ok in H1; [|unfold seq_neg; rewrite map_length, !firstn_length, zupd_length; lia]. rewrite H1, dot_seq_neg, FW, NW, E.
    assert (ZF : dot (firstn c (zupd (tl dv) 0 (nth 1 dv 0 - hd 0 dv + 1))) (firstn c v) = dot (firstn c (tl dv)) (firstn c v) - hd 0 dv + 1).
    { destruct dv as [|m f]; [discriminate LD|]. cbn [tl hd]. destruct f as [|f0 f]; [discriminate LT|]. destruct v as [|v0 v']; [discriminate Lv|]. cbn [hd] in Hv. subst v0. unfold c. cbn [Nat.add zupd firstn dot nth]. ring. }
    rewrite ZF. lia.
  - destruct (Z.eqb_spec (Z.abs (nth c r 0)) (Z.abs (hd 0 dv))) as [E2|E2]; [|discriminate]. apply andb_prop in H. destruct H as [H1 H2]. rewrite (dot_prefix r w c) by (auto; try lia; apply RS; exact H2). apply seq_eq_ok in H1; [|rewrite !firstn_length; lia]. rewrite H1, FW, NW. replace (nth c r 0) with (- hd 0 dv) by lia. lia.
Qed.
Lemma redundant_div_pres b d : good b -> (d < ndiv b)%nat -> div_is_redundant b d = true ->
  let b' := drop_div (drop_constraints_involving b (nvar b + d)) d in pres b b' /\ (ordered b -> ordered b') /\ ndiv b' = (ndiv b - 1)%nat.
Proof.
  intros G Hd H. pose proof G as (W & A & D & I & R & BB). destruct (good_int b d G Hd) as [RF EF]. pose proof W as (We & Wi & Wd). unfold div_is_redundant in H. cbn zeta in H. set (c := (1 + nvar b + d)%nat) in *.
  apply andb_prop in H. destruct H as [H H3]. apply andb_prop in H. destruct H as [H1 H2]. rewrite forallb_forall in H1, H2, H3.
  destruct (drop_involving_eq_ok (1 + (nvar b + d)) (length (b_eq b)) (b_eq b) (le_n _)) as (EA & EB & EC); [intros; lia|].
  destruct (drop_involving_ineq_ok (1 + (nvar b + d)) (length (b_ineq b)) (b_ineq b) (le_n _)) as (IA & IB & IC); [intros; lia|].
  set (b2 := drop_constraints_involving b (nvar b + d)) in *.
  assert (W2 : wf b2) by (split; [apply EB; exact We|]; split; [apply IB; exact Wi|exact Wd]).
  assert (Z2 : zcol (nvar b + d) b2) by (split; assumption).
  assert (U2 : unused b2 d). { intros k Hk Nk Hh. change (nvar b2) with (nvar b). change (b_div b2) with (b_div b) in *. specialize (H3 (nth k (b_div b) []) ltac:(apply nth_In; exact Hk)). cbn [Nat.add] in H3 |- *. apply orb_prop in H3. destruct H3 as [X|X]; apply Z.eqb_eq in X; [contradiction|]. exact X. }
  cbn zeta. destruct (drop_div_ok b2 d W2 Hd Z2 U2) as (_ & _ & _ & ND & _ & _ & _ & _ & O2 & _). split; [|split; [exact O2|exact ND]].
  apply drop_div_pres; auto; try reflexivity.
  - split; [reflexivity|]; repeat split.
  - intros v Lv Hv [S1 S2]. split; [apply EB; exact S1|apply IB; exact S2].
  - intros v Lv Hv [S1 S2]. exists (fpart b d v / hd 0 (nth d (b_div b) [])). cbn zeta. fold c. set (t := fpart b d v / hd 0 (nth d (b_div b) [])). split; [|intros DV k Hk _; apply DV; exact Hk].
    assert (ZR : forall r, nth c r 0 = 0 -> dot r (zupd v c t) = dot r v). { intros r Hr. rewrite dot_upd; [rewrite Hr; ring|]. unfold c, total in *. lia. }
    split; apply Forall_forall; intros r Hr.
    + specialize (H1 r Hr). apply Z.eqb_eq in H1. unfold zero_on. rewrite ZR by exact H1. apply (proj1 (Forall_forall _ _) S1). apply EC; assumption.
    + unfold nonneg_on. destruct (Z.eqb_spec (nth c r 0) 0) as [E|E].
      * rewrite ZR by exact E. apply (proj1 (Forall_forall _ _) S2). apply IC; assumption.
      * specialize (H2 r Hr). destruct (Z.eqb_spec (nth c r 0) 0); [contradiction|]. cbn [orb] in H2.
        apply (is_div_constraint_ok b r d t v W D Hd); auto; [apply (proj1 (Forall_forall _ _) Wi); exact Hr|].
        assert (M0 : 0 <= hd 0 (nth d (b_div b) [])) by (apply (proj1 (Forall_nth_iff _ _ []) D d Hd)). assert (M1 : hd 0 (nth d (b_div b) []) <> 0).
        { intros X. unfold is_div_constraint in H2. cbn zeta in H2. rewrite X in H2. fold c in H2. destruct (Z.eqb_spec (nth c r 0) 0); [contradiction|]. destruct (Z.eqb_spec (Z.abs (nth c r 0)) (Z.abs 0)); [lia|discriminate]. }
        unfold t. pose proof (Z.div_mod (fpart b d v) (hd 0 (nth d (b_div b) [])) M1). pose proof (Z.mod_pos_bound (fpart b d v) (hd 0 (nth d (b_div b) [])) ltac:(lia)). lia.
Qed.
Lemma remove_redundant_divs_pres : forall n b, good b -> (n <= ndiv b)%nat -> pres b (remove_redundant_divs n b) /\ (ordered b -> ordered (remove_redundant_divs n b)).
Proof.
  induction n as [|n IH]; intros b G Hn; cbn [remove_redundant_divs]; [split; [apply pres_refl; exact G|auto]|]. destruct (div_is_redundant b n) eqn:E.
  - destruct (redundant_div_pres b n G ltac:(lia) E) as (P & O1 & N1). cbn zeta in *. destruct (IH _ (proj1 (proj2 P)) ltac:(lia)) as [P2 O2]. split; [eapply pres_trans; eassumption|auto].
  - apply IH; [exact G|lia].
Qed.
Theorem finalize_pres b : good b -> pres b (finalize b) /\ (ordered b -> ordered (finalize b)).
Proof. intros G. apply remove_redundant_divs_pres; [exact G|lia]. Qed.

(** ** isl_basic_map_simplify *)
Section Simplify.
Variable hash : list Z -> nat.
Variable no_redundant : bmap -> bool.
Variable tab : bmap -> bool * list kind.
Hypothesis TAB : sound_tab tab.
Lemma simplify_step_pres b b' p : good b -> b_empty b = false -> simplify_step hash no_redundant tab b = Ok (b', p) -> pres b b'.
Proof.
  intros G EF. unfold simplify_step. pose proof (normalize_constraints_pres b G EF) as P1. set (b1 := normalize_constraints b) in *.
  destruct (reduce_div_coefficients_pres b1 (proj1 (proj2 P1))) as [P2 _]. set (b2 := reduce_div_coefficients b1) in *.
  destruct (normalize_div_expressions_pres b2 (proj1 (proj2 P2))) as [P3 _]. set (b3 := normalize_div_expressions b2) in *.
  assert (P : pres b b3) by (eapply pres_trans; [exact P1|]; eapply pres_trans; eassumption). clearbody b3. clear b2 b1 P1 P2 P3.
  destruct (remove_duplicate_divs hash b3 false) as [[b4 p4]| | |] eqn:E4; try discriminate. destruct (remove_duplicate_divs_pres hash _ _ _ _ (proj1 (proj2 P)) E4) as [P4 _].
  destruct (eliminate_unit_divs b4 p4) as [[b5 p5]| | |] eqn:E5; try discriminate. pose proof (eliminate_unit_divs_pres _ _ _ _ (proj1 (proj2 P4)) E5) as P5.
  destruct (eliminate_divs_eq b5 p5) as [[b6 p6]| | |] eqn:E6; try discriminate. destruct (eliminate_divs_eq_pres _ _ _ _ (proj1 (proj2 P5)) E6) as [P6 O6].
  destruct (eliminate_divs_ineq hash no_redundant tab b6 p6) as [[b7 p7]| | |] eqn:E7; try discriminate. destruct (eliminate_divs_ineq_pres hash no_redundant tab TAB _ _ _ _ (proj1 (proj2 P6)) O6 E7) as [P7 O7].
  destruct (gauss b7) as [[b8 p8]| | |] eqn:E8; try discriminate. destruct (gauss_pres _ _ _ (proj1 (proj2 P7)) E8) as (P8 & O8 & _).
  destruct (normalize_divs b8 (p7 || p8)) as [[b9 p9]| | |] eqn:E9; try discriminate. destruct (normalize_divs_pres b8 (p7 || p8) b9 p9 (proj1 (proj2 P8)) O8) as [P9 O9]; [intros EE; apply (gauss_clear b7 b8 p8 (proj1 (proj2 P7)) E8 EE)|exact E9|].
  destruct (remove_duplicate_constraints hash b9 true) as [[b10 p10]| | |] eqn:E10; try discriminate. pose proof (remove_dup_pres hash _ _ _ _ (proj1 (proj2 P9)) E10) as P10. intros [= <- <-].
  eapply pres_trans; [exact P|]. eapply pres_trans; [exact P4|]. eapply pres_trans; [exact P5|]. eapply pres_trans; [exact P6|]. eapply pres_trans; [exact P7|]. eapply pres_trans; [exact P8|]. eapply pres_trans; [exact P9|]. exact P10.
Qed.
Theorem simplify_pres : forall fuel b b', good b -> simplify hash no_redundant tab fuel b = Ok b' -> pres b b'.
Proof.
  induction fuel as [|fuel IH]; intros b b' G; cbn [simplify]; [discriminate|]. destruct (b_empty b) eqn:EF; [intros [= <-]; apply pres_refl; exact G|].
  destruct (simplify_step hash no_redundant tab b) as [[b1 p]| | |] eqn:E; try discriminate. pose proof (simplify_step_pres b b1 p G EF E) as P. destruct p; [|intros [= <-]; exact P]. intros H. eapply pres_trans; [exact P|]. apply (IH b1 b' (proj1 (proj2 P)) H).
Qed.
End Simplify.
