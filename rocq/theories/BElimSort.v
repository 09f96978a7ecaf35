(** Proofs for isl_basic_map_sort_constraints. *)
From Coq Require Import ZArith List Bool Lia Arith Permutation Sorted.
From Verif Require Import SeqModel SeqSpec MatModel SortModel SortSpec PropsSort BMapModel BMapSem BElimModel.
Import ListNotations.
Open Scope Z_scope.

Lemma int_cmp_spec x y : (x < y /\ int_cmp x y = -1) \/ (x = y /\ int_cmp x y = 0) \/ (y < x /\ int_cmp x y = 1).
Proof. unfold int_cmp. destruct (Z.ltb_spec x y), (Z.ltb_spec y x); lia. Qed.
Lemma seq_cmp_anti p : forall q, seq_cmp p q = - seq_cmp q p.
Proof.
  induction p as [|x p IH]; intros [|y q]; try reflexivity. cbn [seq_cmp]. rewrite (IH q). 
  destruct (int_cmp_spec x y) as [[? ->]|[[? ->]|[? ->]]], (int_cmp_spec y x) as [[? ->]|[[? ->]|[? ->]]]; cbn; lia.
Qed.
Lemma seq_cmp_trans n : forall p q r, length p = n -> length q = n -> length r = n -> seq_cmp p q <= 0 -> seq_cmp q r <= 0 -> seq_cmp p r <= 0.
Proof.
  induction n as [|n IH]; intros [|x p] [|y q] [|z r]; cbn [length]; try (intros; discriminate). intros [= Lp] [= Lq] [= Lr]. cbn [seq_cmp]. specialize (IH p q r Lp Lq Lr).
  destruct (int_cmp_spec x y) as [[? ->]|[[? ->]|[? ->]]], (int_cmp_spec y z) as [[? ->]|[[? ->]|[? ->]]], (int_cmp_spec x z) as [[? ->]|[[? ->]|[? ->]]]; cbn [negb Z.eqb]; intros; try lia; auto.
Qed.
Lemma elems_length n r : length (elems n r) = n.
Proof. unfold elems. rewrite map_length, seq_length. reflexivity. Qed.
Lemma elems_id n r : length r = n -> elems n r = r.
Proof.
  intros <-. unfold elems. apply (nth_ext _ _ 0 0); [rewrite map_length, seq_length; reflexivity|]. intros i Hi. rewrite map_length, seq_length in Hi.
  rewrite (nth_indep _ 0 (nth 0 r 0)) by (rewrite map_length, seq_length; exact Hi). rewrite (map_nth (fun i => nth i r 0)). rewrite seq_nth by exact Hi. reflexivity.
Qed.

(** the order as a relation on the last variable, its coefficient and all coefficients *)
Lemma cmp_le n x y : sort_constraint_cmp n x y <= 0 <->
  let l1 := last_pos (seq_last_non_zero (elems n (tl x))) in let l2 := last_pos (seq_last_non_zero (elems n (tl y))) in
  l1 < l2 \/ l1 = l2 /\ let x1 := nth (Z.to_nat (1 + l1)) x 0 in let y1 := nth (Z.to_nat (1 + l2)) y 0 in
   (Z.abs x1 < Z.abs y1 \/ Z.abs x1 = Z.abs y1 /\ (y1 < x1 \/ x1 = y1 /\ seq_cmp (elems n (tl x)) (elems n (tl y)) <= 0)).
Proof.
  unfold sort_constraint_cmp. cbn zeta. set (l1 := last_pos (seq_last_non_zero (elems n (tl x)))). set (l2 := last_pos (seq_last_non_zero (elems n (tl y)))).
  destruct (Z.eqb_spec l1 l2) as [<-|]; cbn [negb]; [|lia]. set (x1 := nth (Z.to_nat (1 + l1)) x 0). set (y1 := nth (Z.to_nat (1 + l1)) y 0).
  destruct (int_cmp_spec (Z.abs x1) (Z.abs y1)) as [[? ->]|[[? ->]|[? ->]]]; cbn [negb Z.eqb]; try lia.
  destruct (int_cmp_spec x1 y1) as [[? ->]|[[? ->]|[? ->]]]; cbn [negb Z.eqb]; lia.
Qed.
Lemma cmp_preorder n : total_preorder (sort_constraint_cmp n).
Proof.
  constructor.
  - intros x y. unfold sort_constraint_cmp. cbn zeta. set (l1 := last_pos (seq_last_non_zero (elems n (tl x)))). set (l2 := last_pos (seq_last_non_zero (elems n (tl y)))).
    destruct (Z.eqb_spec l1 l2) as [<-|N].
    2:{ replace (l2 =? l1) with false by (symmetry; apply Z.eqb_neq; lia). cbn [negb]. lia. }
    rewrite Z.eqb_refl. cbn [negb]. set (x1 := nth (Z.to_nat (1 + l1)) x 0). set (y1 := nth (Z.to_nat (1 + l1)) y 0). rewrite (seq_cmp_anti (elems n (tl x))).
    destruct (int_cmp_spec (Z.abs x1) (Z.abs y1)) as [[? ->]|[[? ->]|[? ->]]], (int_cmp_spec (Z.abs y1) (Z.abs x1)) as [[? ->]|[[? ->]|[? ->]]]; cbn [negb Z.eqb]; try lia.
    destruct (int_cmp_spec x1 y1) as [[? ->]|[[? ->]|[? ->]]], (int_cmp_spec y1 x1) as [[? ->]|[[? ->]|[? ->]]]; cbn [negb Z.eqb]; try lia.
  - intros x y z. rewrite !cmp_le. cbn zeta. intros A B. pose proof (seq_cmp_trans n (elems n (tl x)) (elems n (tl y)) (elems n (tl z)) (elems_length _ _) (elems_length _ _) (elems_length _ _)). lia.
Qed.

Lemma sort_constraints_ok b : exists l, sort_constraints b = Ok (set_ineq b l) /\ Permutation (b_ineq b) l /\ StronglySorted (fun x y => sort_constraint_cmp (total b) x y <= 0) l.
Proof.
  unfold sort_constraints. destruct (C13_sort_sorted_stable_permutation _ _ (cmp_preorder (total b)) true (b_ineq b)) as [(l & -> & [P S1] & _)|[F _]]; [|discriminate].
  exists l. auto.
Qed.
