(** Basic maps that are marked empty while they still have constraints. *)
From Coq Require Import ZArith List Bool Arith Lia.
From Verif Require Import BElimFM BElimSpec SeqSpec SeqModel MatModel SeqProofs BMapModel BMapSpec BMapSem ReorderModel LocalModel BElimModel BElimProofs BElimVars SimpModel SimpSpec SimpBase SimpFinal SetModel SetBase.
Import ListNotations.
Open Scope Z_scope.

Definition flagged (b : bmap) : bmap := mkb (b_param b) (b_in b) (b_out b) (b_eq b) (b_ineq b) (b_div b) (b_rat b) true (b_nd b).
Lemma flagged_unmark b : b_empty b = true -> b = flagged (unmark b).
Proof. destruct b. cbn. intros ->. reflexivity. Qed.

(** ** the operations do not look at the mark *)
Lemma order_flag : forall fuel b i, order_divs_loop fuel (flagged b) i = match order_divs_loop fuel b i with Ok b' => Ok (flagged b') | Null => Null | UB => UB | Div => Div end.
Proof.
  induction fuel as [|fuel IH]; intros b i; cbn [order_divs_loop]; [reflexivity|]. change (ndiv (flagged b)) with (ndiv b). change (b_div (flagged b)) with (b_div b). change (nvar (flagged b)) with (nvar b). destruct (Nat.leb _ _); [reflexivity|]. cbn zeta. destruct (_ =? 0); [apply IH|]. destruct (seq_first_non_zero _) as [[|pos]|]; [reflexivity| |apply IH]. exact (IH (swap_div b i (i + S pos)) i).
Qed.
Lemma gauss_step_flag b d k v : gauss_step (flagged b) d k v = (flagged (fst (gauss_step b d k v)), snd (gauss_step b d k v)).
Proof.
  unfold gauss_step. change (b_eq (flagged b)) with (b_eq b). cbn zeta.
  assert (E1 : (if Nat.eqb k d then flagged b else set_eq (flagged b) (lswap (b_eq b) k d)) = flagged (if Nat.eqb k d then b else set_eq b (lswap (b_eq b) k d))) by (destruct (Nat.eqb k d); reflexivity).
  rewrite E1. set (b1 := if Nat.eqb k d then b else _). clearbody b1. clear E1. change (b_eq (flagged b1)) with (b_eq b1). set (r := nth d (b_eq b1) []).
  assert (E2 : (if nth (1 + v) r 0 <? 0 then set_eq (flagged b1) (lset (b_eq b1) d (seq_neg r)) else flagged b1) = flagged (if nth (1 + v) r 0 <? 0 then set_eq b1 (lset (b_eq b1) d (seq_neg r)) else b1)) by (destruct (_ <? _); reflexivity).
  rewrite E2. set (b2 := if _ <? _ then _ else b1). clearbody b2. clear E2. change (elim_progress (flagged b2) v (Some d)) with (elim_progress b2 v (Some d)). set (p := elim_progress b2 v (Some d)).
  change (b_eq (flagged b2)) with (b_eq b2). change (eliminate_var_using_equality (flagged b2) v (nth d (b_eq b2) []) (Some d) true) with (flagged (eliminate_var_using_equality b2 v (nth d (b_eq b2) []) (Some d) true)). set (b3 := eliminate_var_using_equality b2 v _ _ _). clearbody b3.
  change (nvar (flagged b3)) with (nvar b3). destruct (Nat.leb _ _); [|reflexivity]. unfold set_div_from_eq. change (b_div (flagged b3)) with (b_div b3). change (b_eq (flagged b3)) with (b_eq b3). change (eq_involves_unknown_divs (flagged b3)) with (eq_involves_unknown_divs b3). cbn zeta. destruct (negb _); [reflexivity|]. destruct (eq_involves_unknown_divs b3 _ _); reflexivity.
Qed.
Lemma gauss_loop_flag : forall fuel b p d lv, gauss_loop fuel (flagged b) p d lv = match gauss_loop fuel b p d lv with Ok (b', p', d') => Ok (flagged b', p', d') | Null => Null | UB => UB | Div => Div end.
Proof.
  induction fuel as [|fuel IH]; intros b p d lv; cbn [gauss_loop]; [reflexivity|]. change (b_eq (flagged b)) with (b_eq b). destruct (Nat.leb _ _); [reflexivity|]. destruct lv as [|v]; [reflexivity|]. change (find_eq (flagged b)) with (find_eq b). destruct (find_eq b d (1 + v)) as [k|]; [|apply IH].
  rewrite gauss_step_flag. destruct (gauss_step b d k v) as [b1 p1]. apply IH.
Qed.
Lemma gauss_flagged b : gauss (flagged b) = match gauss b with Ok (b', p) => Ok (flagged b', p) | Null => Null | UB => UB | Div => Div end.
Proof.
  unfold gauss, order_divs. change (ndiv (flagged b)) with (ndiv b). rewrite order_flag. destruct (order_divs_loop _ b 0) as [b1| | |]; try reflexivity. unfold gauss_ordered. change (b_eq (flagged b1)) with (b_eq b1). change (total (flagged b1)) with (total b1). rewrite gauss_loop_flag. destruct (gauss_loop _ b1 _ _ _) as [[[b2 p] d]| | |]; try reflexivity.
  change (b_eq (flagged b2)) with (b_eq b2). destruct (Nat.eqb _ _); [reflexivity|]. destruct (existsb _ _) eqn:E; [|reflexivity]. f_equal. f_equal.
  unfold set_to_empty. change (b_eq (flagged b2)) with (b_eq b2). assert (N : (length (b_eq b2) + length (b_ineq b2))%nat <> 0%nat). { intros H. destruct (b_eq b2); [rewrite skipn_nil in E; discriminate|cbn in H; lia]. }
  change (b_ineq (flagged b2)) with (b_ineq b2). destruct (Nat.eqb_spec (length (b_eq b2) + length (b_ineq b2)) 0); [contradiction|]. rewrite !andb_false_r. reflexivity.
Qed.
Lemma finalize_flagged b : finalize (flagged b) = flagged (finalize b).
Proof.
  unfold finalize. change (ndiv (flagged b)) with (ndiv b). generalize (ndiv b) as n. intros n. revert b. induction n as [|n IH]; intros b; cbn [remove_redundant_divs]; [reflexivity|]. change (div_is_redundant (flagged b)) with (div_is_redundant b). destruct (div_is_redundant b n); [|apply IH]. exact (IH (drop_div (drop_constraints_involving b (nvar b + n)) n)).
Qed.

(** ** the same integer points *)
Definition same (b b' : bmap) : Prop :=
  same_space b b' /\ proper b' /\ forall q, length q = (1 + nvar b)%nat -> hd 0 q = 1 -> (points b q <-> points b' q).
Lemma same_refl b : proper b -> same b b.
Proof. intros P. split; [split; [reflexivity|]; repeat split|]. split; [exact P|]. tauto. Qed.
Lemma same_trans a b c : same a b -> same b c -> same a c.
Proof.
  intros (S1 & _ & Q1) (S2 & P2 & Q2). split; [|split; [exact P2|]]. - destruct S1 as (? & ? & ? & ?), S2 as (? & ? & ? & ?). repeat split; congruence.
  - intros q Lq Hq. rewrite Q1 by assumption. apply Q2; [|exact Hq]. destruct (same_space_nvar _ _ S1) as [N _]. rewrite N. exact Lq.
Qed.
Lemma pres_same_points b b' : b_rat b = false -> pres b b' -> same b b'.
Proof. intros R P. pose proof P as (SS & G & A). split; [exact SS|]. split; [apply (pres_proper b); assumption|]. intros q Lq Hq. apply A; [exact Lq|]. split; [lia|auto]. Qed.
Lemma honest_no_points b q : proper b -> b_empty b = true -> length q = (1 + nvar b)%nat -> hd 0 q = 1 -> ~ points b q.
Proof. intros _ E _ _ [F _]. congruence. Qed.
Lemma flagged_proper b : proper b -> (forall q, length q = (1 + nvar b)%nat -> hd 0 q = 1 -> ~ described (b_eq b) (b_ineq b) (ndiv b) q) -> proper (flagged b).
Proof.
  intros (W & A & D & I & R & _) N. repeat (split; [assumption|]). intros _ v Lv Hv S. change (total (flagged b)) with (total b) in Lv. unfold total in Lv. apply (N (firstn (1 + nvar b) v)).
  - rewrite firstn_length. lia.
  - destruct v; [discriminate Hv|exact Hv].
  - exists (skipn (1 + nvar b) v). split; [rewrite skipn_length; lia|]. rewrite firstn_skipn. exact S.
Qed.
Lemma flagged_same b b' : proper b -> b_empty b = true -> pres (unmark b) b' -> same b (flagged b').
Proof.
  intros P E PR. pose proof PR as (SS & G & A). pose proof P as (W & Ac & D & I & R & Hn). assert (P' : proper b') by (apply (pres_proper (unmark b)); [exact R|exact PR]). split; [exact SS|].
  assert (N : forall q, length q = (1 + nvar b')%nat -> hd 0 q = 1 -> ~ described (b_eq b') (b_ineq b') (ndiv b') q).
  { intros q Lq Hq H. destruct (same_space_nvar _ _ SS) as [NV _]. change (nvar (unmark b)) with (nvar b) in NV. apply (points_described b' q P' Lq Hq) in H. apply A in H; [|change (nvar (unmark b)) with (nvar b); lia|split; [lia|auto]]. destruct H as (_ & e & Le & Se). apply (Hn E (q ++ e)); [rewrite app_length; unfold total; change (ndiv (unmark b)) with (ndiv b) in Le; lia| |exact Se]. destruct q; [discriminate Hq|exact Hq]. }
  split; [apply flagged_proper; assumption|]. intros q Lq Hq. split; [intros [F _]; congruence|intros [F _]; discriminate F].
Qed.
Lemma gauss_same b b' p : proper b -> gauss b = Ok (b', p) -> same b b'.
Proof.
  intros P. destruct (b_empty b) eqn:E.
  - rewrite (flagged_unmark b E) at 1. rewrite gauss_flagged. destruct (gauss (unmark b)) as [[b1 p1]| | |] eqn:EG; try discriminate. intros [= <- <-]. apply flagged_same; [exact P|exact E|]. apply (gauss_pres _ _ _ (proper_unmark b P) EG).
  - intros EG. apply pres_same_points; [apply P|]. apply (gauss_pres _ _ _ (proper_good b P E) EG).
Qed.
Lemma finalize_same b : proper b -> same b (finalize b).
Proof.
  intros P. destruct (b_empty b) eqn:E.
  - rewrite (flagged_unmark b E) at 2. rewrite finalize_flagged. apply flagged_same; [exact P|exact E|]. apply finalize_pres. apply proper_unmark. exact P.
  - apply pres_same_points; [apply P|]. apply finalize_pres. apply proper_good; assumption.
Qed.
Lemma with_dims_nvar b np ni no : nvar (with_dims b np ni no) = (np + ni + no)%nat.
Proof. reflexivity. Qed.
Lemma with_dims_proper b np ni no : proper b -> (np + ni + no)%nat = nvar b -> proper (with_dims b np ni no).
Proof.
  intros (W & A & D & I & R & H) N. unfold proper, wf, acyclic, implied, honest, total in *. change (ndiv (with_dims b np ni no)) with (ndiv b). rewrite with_dims_nvar, N. cbn [with_dims b_eq b_ineq b_div b_rat b_empty]. split; [exact W|]. split; [exact A|]. split; [exact D|]. split; [exact I|]. split; [exact R|exact H].
Qed.
Lemma with_dims_points b np ni no p : points (with_dims b np ni no) p <-> points b p.
Proof. reflexivity. Qed.
Lemma reset_dims_ok sid b np ni no : proper b -> (np + ni + no)%nat = nvar b ->
  proper (reset_dims sid b np ni no) /\ b_param (reset_dims sid b np ni no) = np /\ b_in (reset_dims sid b np ni no) = ni /\ b_out (reset_dims sid b np ni no) = no /\
  forall q, length q = (1 + nvar b)%nat -> hd 0 q = 1 -> (points (reset_dims sid b np ni no) q <-> points b q).
Proof.
  intros P N. pose proof (with_dims_proper b np ni no P N) as P'. unfold reset_dims. destruct (sid b); [split; [exact P'|]; split; [reflexivity|]; split; [reflexivity|]; split; [reflexivity|]; intros; reflexivity|]. destruct (finalize_same _ P') as ((A1 & A2 & A3 & _) & PF & Q).
  split; [exact PF|]. split; [exact A1|]. split; [exact A2|]. split; [exact A3|]. intros q Lq Hq. rewrite <- Q; [reflexivity|rewrite with_dims_nvar, N; exact Lq|exact Hq].
Qed.
(** ** simplification *)
Section Simp.
Variables (hash : row -> nat) (no_redundant : bmap -> bool) (tab : bmap -> bool * list kind) (fuel : nat) (drd : bmap -> res bmap).
Hypothesis TAB : sound_tab tab.
Hypothesis DRD : forall b b', proper b -> drd b = Ok b' -> same b b'.
Lemma simp_fin_same b b' : proper b -> simp_fin hash no_redundant tab fuel b = Ok b' -> same b b'.
Proof.
  intros P. unfold simp_fin. destruct (b_empty b) eqn:E.
  - destruct fuel; cbn [simplify bind]; [discriminate|]. rewrite E. cbn [bind]. intros [= <-]. apply finalize_same. exact P.
  - destruct (simplify hash no_redundant tab fuel b) as [b1| | |] eqn:ES; cbn [bind]; try discriminate. intros [= <-]. pose proof (simplify_pres hash no_redundant tab TAB fuel b b1 (proper_good b P E) ES) as P1. eapply same_trans; [apply pres_same_points; [apply P|exact P1]|]. apply finalize_same. apply (pres_proper b); [apply P|exact P1].
Qed.
Lemma simplify_same b b' : proper b -> simplify hash no_redundant tab fuel b = Ok b' -> same b b'.
Proof.
  intros P. destruct (b_empty b) eqn:E.
  - destruct fuel; cbn [simplify]; [discriminate|]. rewrite E. intros [= <-]. apply same_refl. exact P.
  - intros ES. apply pres_same_points; [apply P|]. apply (simplify_pres hash no_redundant tab TAB fuel b b' (proper_good b P E) ES).
Qed.
Lemma simp_drop_fin_same b b' : proper b -> simp_drop_fin hash no_redundant tab fuel drd b = Ok b' -> same b b'.
Proof.
  intros P. unfold simp_drop_fin. destruct (simplify hash no_redundant tab fuel b) as [b1| | |] eqn:ES; cbn [bind]; try discriminate. pose proof (simplify_same b b1 P ES) as S1. destruct (drd b1) as [b2| | |] eqn:ED; cbn [bind]; try discriminate. intros [= <-]. pose proof (DRD b1 b2 (proj1 (proj2 S1)) ED) as S2.
  eapply same_trans; [exact S1|]. eapply same_trans; [exact S2|]. apply finalize_same. apply S2.
Qed.
End Simp.
