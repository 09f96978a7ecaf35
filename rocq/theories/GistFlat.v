From Coq Require Import ZArith List Bool Arith Lia Permutation.
From Verif Require Import SeqModel SeqSpec SeqProofs MatModel SortModel BMapModel BMapSpec BMapSem BMapLists BMapGauss2 BDupModel BDupProofs LocalModel BElimModel BElimSpec BElimCols BElimSort BElimProofs SimpModel SimpSpec SimpBase SimpFinal SetModel SetSpec SetBase SetLift SetOps SetOps3 SetMaps SubModel GistModel GistSpec.
Import ListNotations.
Open Scope Z_scope.

(** ** sets without local variables *)
Lemma flat_intro n b : wf b -> sized 0 0 n b -> b_div b = [] -> b_rat b = false -> honest b -> flat n b.
Proof.
  intros W S D R Hn. split; [|split; assumption]. split; [exact W|]. split; [exists (fun k => k); intros k j Hk; unfold ndiv in Hk; rewrite D in Hk; cbn in Hk; lia|].
  split; [unfold denoms; rewrite D; constructor|]. split; [|split; assumption]. intros v Lv Hv _. unfold divisions. rewrite D. intros k Hk. cbn in Hk. lia.
Qed.
Lemma flat_nvar n b : flat n b -> nvar b = n /\ ndiv b = 0%nat /\ total b = n.
Proof. intros (_ & (A & B & C) & D). unfold total, ndiv, nvar. rewrite A, B, C, D. cbn. lia. Qed.
Lemma flat_points n b v : flat n b -> at_point n v -> (points b v <-> sat b v).
Proof.
  intros F [L H]. destruct (flat_nvar n b F) as (N & ND & T). destruct F as (P & _). rewrite (points_described b v P); [|lia|exact H]. unfold described, sat. rewrite ND. split.
  - intros (e & Le & S). destruct e; [|discriminate Le]. rewrite app_nil_r in S. exact S.
  - intros S. exists []. split; [reflexivity|]. rewrite app_nil_r. exact S.
Qed.
Lemma flat_nonempty n b v : flat n b -> at_point n v -> sat b v -> b_empty b = false.
Proof. intros F A S. apply (flat_points n b v F A) in S. exact (proj1 S). Qed.
Lemma same_flat n b b' : flat n b -> same b b' -> b_div b' = [] -> flat n b' /\ forall v, at_point n v -> (sat b v <-> sat b' v).
Proof.
  intros F ((A1 & A2 & A3 & _) & P & Q) D. assert (F' : flat n b').
  { split; [exact P|]. split; [|exact D]. destruct F as (_ & (S1 & S2 & S3) & _). unfold sized. rewrite A1, A2, A3. auto. }
  split; [exact F'|]. intros v Av. rewrite <- (flat_points n b v F Av), <- (flat_points n b' v F' Av). apply Q; [|apply Av]. destruct (flat_nvar n b F) as (N & _). rewrite N. apply Av.
Qed.
Lemma flat_wf n b : flat n b -> rows_of (1 + n) (b_eq b) /\ rows_of (1 + n) (b_ineq b).
Proof. intros F. destruct (flat_nvar n b F) as (_ & _ & T). destruct F as ((W & _) & _). destruct W as (A & B & _). rewrite T in A, B. auto. Qed.
Lemma flat_finalize n b : flat n b -> finalize b = b.
Proof. intros F. unfold finalize. destruct (flat_nvar n b F) as (_ & -> & _). reflexivity. Qed.
Lemma nodiv_finalize b : b_div b = [] -> finalize b = b.
Proof. intros D. unfold finalize, ndiv. rewrite D. reflexivity. Qed.

(** ** operations that do not introduce local variables *)
Lemma set_to_empty_nodiv b : b_div b = [] -> b_div (set_to_empty b) = [].
Proof. intros D. unfold set_to_empty. destruct (_ && _); [exact D|reflexivity]. Qed.
Lemma order_nodiv b : b_div b = [] -> order_divs b = Ok b.
Proof. intros D. unfold order_divs, ndiv. rewrite D. cbn [length Nat.mul order_divs_loop]. unfold ndiv. rewrite D. reflexivity. Qed.
Lemma elim_var_nodiv b p e k kd : b_div b = [] -> b_div (eliminate_var_using_equality b p e k kd) = [].
Proof.
  intros D. unfold eliminate_var_using_equality. cbn. rewrite D. reflexivity.
Qed.
Lemma lset_nil {A} (l : list A) i a : l = [] -> lset l i a = []. Proof. intros ->. destruct i; reflexivity. Qed.
Lemma set_div_from_eq_nodiv b d k : b_div b = [] -> b_div (fst (set_div_from_eq b d k)) = [].
Proof.
  intros D. unfold set_div_from_eq. destruct (negb _); [exact D|]. destruct (eq_involves_unknown_divs _ _ _); [exact D|]. cbn [fst set_div b_div]. apply lset_nil. exact D.
Qed.
Lemma gauss_step_nodiv b d k v : b_div b = [] -> b_div (fst (gauss_step b d k v)) = [].
Proof.
  intros D. unfold gauss_step.
  set (b1 := if Nat.eqb k d then b else set_eq b (lswap (b_eq b) k d)). assert (D1 : b_div b1 = []) by (unfold b1; destruct (Nat.eqb k d); exact D). clearbody b1.
  set (b2 := if nth (1 + v) (nth d (b_eq b1) []) 0 <? 0 then set_eq b1 (lset (b_eq b1) d (seq_neg (nth d (b_eq b1) []))) else b1). assert (D2 : b_div b2 = []) by (unfold b2; destruct (_ <? 0); exact D1). clearbody b2.
  pose proof (elim_var_nodiv b2 v (nth d (b_eq b2) []) (Some d) true D2) as D3. set (b3 := eliminate_var_using_equality _ _ _ _ _) in *. clearbody b3.
  cbv zeta. destruct (Nat.leb (nvar b3) v); [|exact D3]. pose proof (set_div_from_eq_nodiv b3 (v - nvar b3) d D3) as D4. destruct (set_div_from_eq b3 (v - nvar b3) d) as [b4 p4]. exact D4.
Qed.
Lemma gauss_loop_nodiv : forall f b p d lv b' p' n, gauss_loop f b p d lv = Ok (b', p', n) -> b_div b = [] -> b_div b' = [].
Proof.
  induction f as [|f IH]; intros b p d lv b' p' n E D; cbn [gauss_loop] in E; [discriminate E|]. destruct (Nat.leb _ _); [injection E as <- _ _; exact D|]. destruct lv as [|v]; [injection E as <- _ _; exact D|].
  destruct (find_eq b d (1 + v)) as [k|]; [|exact (IH _ _ _ _ _ _ _ E D)]. pose proof (gauss_step_nodiv b d k v D) as D1. destruct (gauss_step b d k v) as [b1 p1]. exact (IH _ _ _ _ _ _ _ E D1).
Qed.
Lemma gauss_nodiv b b' p : b_div b = [] -> gauss b = Ok (b', p) -> b_div b' = [].
Proof.
  intros D. unfold gauss. rewrite (order_nodiv b D). unfold gauss_ordered. destruct (gauss_loop _ b false 0 (total b)) as [[[b1 p1] n1]| | |] eqn:E; try discriminate. pose proof (gauss_loop_nodiv _ _ _ _ _ _ _ _ E D) as D1.
  destruct (Nat.eqb _ _); [intros [= <- _]; exact D1|]. destruct (existsb _ _); intros [= <- _]; [apply set_to_empty_nodiv; exact D1|exact D1].
Qed.
Section Hash.
Variable hash : row -> nat.
Lemma opp_loop_nodiv : forall f dt t b k p b' p', opp_loop hash f dt t b k p = Ok (b', p') -> b_div b = [] -> b_div b' = [].
Proof.
  induction f as [|f IH]; intros dt t b k p b' p' E D; cbn [opp_loop] in E; [discriminate E|]. destruct (Nat.leb _ _); [injection E as <- _; exact D|]. destruct (hash_index _ _ _ _ _) as [h| | |]; try discriminate E.
  destruct (nth h t None) as [l|]; [|exact (IH _ _ _ _ _ _ _ E D)]. cbv zeta in E. destruct (0 <? _).
  - destruct dt; [|exact (IH _ _ _ _ _ _ _ E D)]. unfold check_for_div_constraints, ndiv in E. rewrite D in E. cbn [length check_div_loop] in E. exact (IH _ _ _ _ _ _ _ E D).
  - destruct (_ =? 0); injection E as <- _; [exact D|apply set_to_empty_nodiv; exact D].
Qed.
Lemma remove_dup_nodiv b dt b' p : b_div b = [] -> remove_duplicate_constraints hash b dt = Ok (b', p) -> b_div b' = [].
Proof.
  intros D. unfold remove_duplicate_constraints. destruct (Nat.leb _ _); [intros [= <- _]; exact D|]. destruct (dup_loop _ _ _ _ _ _) as [[[t l] p1]| | |]; try discriminate. intros E. exact (opp_loop_nodiv _ _ _ _ _ _ _ _ E D).
Qed.
Lemma fold_nodiv (f : bmap -> nat -> bmap) : forall l b, l = [] -> fold_left f l b = b. Proof. intros l b ->. reflexivity. Qed.
Variables (no_redundant : bmap -> bool) (tab : bmap -> bool * list kind).
Lemma step_nodiv b b' p : b_div b = [] -> simplify_step hash no_redundant tab b = Ok (b', p) -> b_div b' = [].
Proof.
  intros D. unfold simplify_step.
  assert (D1 : b_div (normalize_constraints b) = []).
  { unfold normalize_constraints. destruct (normalize_eqs _ _ _); [|apply set_to_empty_nodiv; exact D]. destruct (normalize_ineqs _ _ _); [exact D|apply set_to_empty_nodiv; exact D]. }
  set (b1 := normalize_constraints b) in *. clearbody b1. cbv zeta.
  assert (D2 : b_div (reduce_div_coefficients b1) = []). { unfold reduce_div_coefficients, ndiv. rewrite D1. cbn. exact D1. }
  set (b2 := reduce_div_coefficients b1) in *. clearbody b2.
  assert (D3 : b_div (normalize_div_expressions b2) = []). { unfold normalize_div_expressions. cbn. rewrite D2. reflexivity. }
  set (b3 := normalize_div_expressions b2) in *. clearbody b3. assert (N3 : ndiv b3 = 0%nat) by (unfold ndiv; rewrite D3; reflexivity).
  assert (U1 : remove_duplicate_divs hash b3 false = Ok (b3, false)) by (unfold remove_duplicate_divs; rewrite (order_nodiv b3 D3), N3; reflexivity).
  assert (U2 : eliminate_unit_divs b3 false = Ok (b3, false)) by (unfold eliminate_unit_divs; rewrite N3; reflexivity).
  assert (U3 : eliminate_divs_eq b3 false = Ok (b3, false)) by (unfold eliminate_divs_eq; rewrite N3; cbn [eliminate_divs_eq_rec]; rewrite (order_nodiv b3 D3), N3; reflexivity).
  assert (U4 : eliminate_divs_ineq hash no_redundant tab b3 false = Ok (b3, false)) by (unfold eliminate_divs_ineq; rewrite N3; reflexivity).
  rewrite U1, U2, U3, U4.
  destruct (gauss b3) as [[b4 p4]| | |] eqn:EG; try discriminate. pose proof (gauss_nodiv _ _ _ D3 EG) as D4. unfold normalize_divs. unfold ndiv at 1. rewrite D4. cbn [length Nat.eqb].
  destruct (remove_duplicate_constraints hash b4 true) as [[b5 p5]| | |] eqn:ED; try discriminate. intros [= <- _]. exact (remove_dup_nodiv _ _ _ _ D4 ED).
Qed.
Lemma simplify_nodiv : forall f b b', b_div b = [] -> simplify hash no_redundant tab f b = Ok b' -> b_div b' = [].
Proof.
  induction f as [|f IH]; intros b b' D E; cbn [simplify] in E; [discriminate E|]. destruct (b_empty b); [injection E as <-; exact D|]. destruct (simplify_step hash no_redundant tab b) as [[b1 p]| | |] eqn:ES; try discriminate E.
  pose proof (step_nodiv _ _ _ D ES) as D1. destruct p; [exact (IH _ _ D1 E)|injection E as <-; exact D1].
Qed.
Variable fuel : nat.
Hypothesis TAB : sound_tab tab.
Lemma simp_fin_flat n b b' : flat n b -> simp_fin hash no_redundant tab fuel b = Ok b' -> flat n b' /\ forall v, at_point n v -> (sat b v <-> sat b' v).
Proof.
  intros F E. apply (same_flat n b b' F); [apply (simp_fin_same hash no_redundant tab fuel TAB b b' (proj1 F) E)|].
  unfold simp_fin in E. destruct (simplify hash no_redundant tab fuel b) as [b1| | |] eqn:ES; cbn [bind] in E; try discriminate E. injection E as <-. pose proof (simplify_nodiv _ _ _ (proj2 (proj2 F)) ES) as D1. rewrite (nodiv_finalize b1 D1). exact D1.
Qed.
End Hash.
Lemma gauss_flat n b b' p : flat n b -> gauss b = Ok (b', p) -> flat n b' /\ (forall v, at_point n v -> (sat b v <-> sat b' v)) /\ forall c, zcol c b -> zcol c b'.
Proof.
  intros F E. destruct (same_flat n b b' F (gauss_same b b' p (proj1 F) E) (gauss_nodiv b b' p (proj2 (proj2 F)) E)) as (F' & Q). split; [exact F'|]. split; [exact Q|]. intros c Zc.
  apply (gauss_z (fun _ => True) b b' p E (proj1 (proj1 F))); [|exact I|exact Zc]. right. intros k j Hk. destruct (flat_nvar n b F) as (_ & N & _). lia.
Qed.
Lemma set_to_empty_flat n b : flat n b -> flat n (set_to_empty b) /\ forall v, at_point n v -> ~ sat (set_to_empty b) v.
Proof.
  intros F. destruct (flat_nvar n b F) as (NV & ND & T). pose proof F as (P & S & D). unfold set_to_empty. destruct (b_empty b && Nat.eqb (length (b_eq b) + length (b_ineq b)) 0) eqn:E.
  - split; [exact F|]. apply andb_true_iff in E. destruct E as [E _]. intros v [Lv Hv] SV. assert (Hn : honest b) by apply P. apply (Hn E v); [lia|exact Hv|exact SV].
  - assert (N : forall v, at_point n v -> ~ sat (mkb (b_param b) (b_in b) (b_out b) [1 :: repeat 0 (nvar b)] [] [] (b_rat b) true (b_nd b)) v).
    { intros v [Lv Hv] [S1 _]. cbn [b_eq] in S1. apply Forall_cons_iff in S1. destruct S1 as [S1 _]. unfold zero_on in S1. destruct v as [|x v]; [discriminate Lv|]. cbn in Hv. subst x. cbn [dot] in S1. rewrite dot_repeat0 in S1. lia. }
    split; [|exact N]. apply flat_intro.
    + unfold wf, total, ndiv, nvar. cbn. split; [|split; constructor]. constructor; [|constructor]. cbn. rewrite repeat_length. unfold nvar. lia.
    + exact S.
    + reflexivity.
    + apply P.
    + intros _ v Lv Hv. apply N. split; [|exact Hv]. rewrite Lv. unfold total, ndiv, nvar in *. cbn. lia.
Qed.
Lemma sort_flat n b b' : flat n b -> sort_constraints b = Ok b' ->
  flat n b' /\ (forall v, at_point n v -> (sat b v <-> sat b' v)) /\ (forall c, zcol c b -> zcol c b') /\ b_eq b' = b_eq b.
Proof.
  intros F E. pose proof E as E0. destruct (sort_constraints_ok b) as (l & E' & PE & _). rewrite E' in E. injection E as <-.
  destruct (same_flat n b _ F (sort_same b _ (proj1 F) E0) (proj2 (proj2 F))) as (F' & Q). split; [exact F'|]. split; [exact Q|]. split; [|reflexivity]. intros c (Z1 & Z2). split; [exact Z1|]. cbn [set_ineq b_ineq].
  rewrite Forall_forall in *. intros r Hr. apply Z2, (Permutation_in r (Permutation_sym PE)), Hr.
Qed.
Lemma sort_constraints_flag b b' : sort_constraints b = Ok b' -> b_empty b' = b_empty b.
Proof. intros E. destruct (sort_constraints_ok b) as (l & E' & _ & _). rewrite E' in E. injection E as <-. reflexivity. Qed.
