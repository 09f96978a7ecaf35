(** Property C13 of isl_sort. *)
From Coq Require Import ZArith List Bool Lia.
From Verif Require Import SortModel SortSpec SortProofs.
Import ListNotations.

(** ** C13: for every comparison function that is a total preorder and every
    array, isl_sort stores a sorted stable rearrangement of the array; it fails
    (leaving the array alone) only if the buffer cannot be allocated, and it
    never reads outside of the array *)
Theorem C13_sort_sorted_stable_permutation :
  forall (A : Type) (cmp : A -> A -> Z), total_preorder cmp ->
  forall alloc a,
  (exists a', isl_sort cmp alloc a = SOk a' /\ sorted_rearrangement cmp a a' /\ stable cmp a a') \/
  (alloc = false /\ isl_sort cmp alloc a = SErr a).
Proof. intros A cmp H. exact (isl_sort_ok cmp H). Qed.
Print Assumptions C13_sort_sorted_stable_permutation.

(** comparison on the first component only, so that stability is visible *)
Definition ex_cmp (x y : Z * Z) : Z := (fst x - fst y)%Z.
Example C13_ex :
  total_preorder ex_cmp /\
  isl_sort ex_cmp true [(3, 0); (1, 1); (2, 2); (1, 3); (3, 4); (2, 5); (1, 6)]%Z =
    SOk [(1, 1); (1, 3); (1, 6); (2, 2); (2, 5); (3, 0); (3, 4)]%Z.
Proof.
  split; [|vm_compute; reflexivity]. unfold ex_cmp. split.
  - intros x y. rewrite <- Z.sgn_opp. f_equal. lia.
  - intros x y z. lia.
Qed.
