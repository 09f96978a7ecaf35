(** Facts about the list operations of the model of basic maps. *)
From Coq Require Import ZArith List Bool Lia Arith Permutation.
From Verif Require Import BMapModel.
Import ListNotations.

Lemma lset_length {A} (l : list A) : forall i a, length (lset l i a) = length l.
Proof. induction l as [|x l IH]; intros [|i] a; cbn; auto. Qed.
Lemma nth_lset {A} (l : list A) d : forall i a j, (i < length l)%nat -> nth j (lset l i a) d = if Nat.eqb j i then a else nth j l d.
Proof. induction l as [|x l IH]; intros [|i] a [|j] H; cbn in *; try lia; try reflexivity. apply IH. lia. Qed.
Lemma lset_out {A} (l : list A) : forall i a, (length l <= i)%nat -> lset l i a = l.
Proof. induction l as [|x l IH]; intros [|i] a H; cbn in *; try lia; try reflexivity. f_equal. apply IH. lia. Qed.
Lemma split_at {A} (l : list A) d : forall i, (i < length l)%nat ->
  exists l1 l2, length l1 = i /\ l = l1 ++ nth i l d :: l2 /\ (forall a, lset l i a = l1 ++ a :: l2) /\ ldrop l i = l1 ++ l2.
Proof.
  induction l as [|x l IH]; intros [|i] H; cbn in H; try lia.
  - exists [], l. repeat split.
  - destruct (IH i ltac:(lia)) as (l1 & l2 & L & E1 & E2 & E3). exists (x :: l1), l2. split; [cbn; lia|]. split; [cbn; f_equal; exact E1|].
    split; [intros a; cbn; f_equal; apply E2|]. unfold ldrop in *. cbn in *. f_equal. exact E3.
Qed.
Lemma ldrop_perm {A} (l : list A) d i : (i < length l)%nat -> Permutation (nth i l d :: ldrop l i) l.
Proof. intros H. destruct (split_at l d i H) as (l1 & l2 & _ & E1 & _ & E3). rewrite E3. rewrite E1 at 2. apply Permutation_middle. Qed.
Lemma lset_perm {A} (l : list A) i a : (i < length l)%nat -> Permutation (lset l i a) (a :: ldrop l i).
Proof. intros H. destruct (split_at l a i H) as (l1 & l2 & _ & E1 & E2 & E3). rewrite E3, E2. symmetry. apply Permutation_middle. Qed.
Lemma ldrop_length {A} (l : list A) i : (i < length l)%nat -> length (ldrop l i) = (length l - 1)%nat.
Proof. destruct l as [|x l]; [cbn; lia|]. intros H. pose proof (Permutation_length (ldrop_perm (x :: l) x i H)) as E. cbn [length] in *. lia. Qed.
Lemma nth_ldrop {A} (l : list A) d i j : (i < length l)%nat -> nth j (ldrop l i) d = if Nat.ltb j i then nth j l d else nth (S j) l d.
Proof.
  revert i j. induction l as [|x l IH]; intros [|i] [|j] H; cbn in H; try lia; try reflexivity.
  unfold ldrop in *. cbn [firstn skipn app nth]. specialize (IH i j ltac:(lia)). cbn [skipn] in IH. rewrite IH.
  destruct (Nat.ltb_spec j i), (Nat.ltb_spec (S j) (S i)); try lia; reflexivity.
Qed.

Lemma removelast_length {A} (l : list A) : length (removelast l) = (length l - 1)%nat.
Proof. induction l as [|x [|y l] IH]; cbn in *; lia. Qed.
Lemma nth_removelast {A} (l : list A) d : forall j, (j < length l - 1)%nat -> nth j (removelast l) d = nth j l d.
Proof. induction l as [|x [|y l] IH]; intros [|j] H; cbn in *; try lia; try reflexivity. apply IH. cbn. lia. Qed.
Lemma last_nth {A} (l : list A) d : last l d = nth (length l - 1) l d.
Proof. induction l as [|x [|y l] IH]; cbn in *; try reflexivity. rewrite IH. cbn. replace (length l - 0)%nat with (length l) by lia. reflexivity. Qed.
Lemma drop_swap_length (l : list (list Z)) i : length (drop_swap l i) = (length l - 1)%nat.
Proof. unfold drop_swap. rewrite removelast_length, lset_length. reflexivity. Qed.
Lemma nth_drop_swap (l : list (list Z)) i j : (i < length l)%nat -> (j < length l - 1)%nat ->
  nth j (drop_swap l i) [] = if Nat.eqb j i then nth (length l - 1) l [] else nth j l [].
Proof. intros Hi Hj. unfold drop_swap. rewrite nth_removelast by (rewrite lset_length; exact Hj). rewrite nth_lset by exact Hi. rewrite last_nth. reflexivity. Qed.
Lemma drop_swap_perm (l : list (list Z)) i : (i < length l)%nat -> Permutation (nth i l [] :: drop_swap l i) l.
Proof.
  intros Hi. unfold drop_swap. assert (NE : l <> []) by (destruct l; [cbn in Hi; lia|discriminate]).
  destruct (Nat.eq_dec i (length l - 1)) as [E|E].
  - assert (EL : lset l i (last l []) = l).
    { apply (nth_ext _ _ [] []); [apply lset_length|]. intros j Hj. rewrite nth_lset by exact Hi. destruct (Nat.eqb_spec j i) as [->|]; [|reflexivity]. rewrite last_nth, E. reflexivity. }
    rewrite EL. rewrite E, <- last_nth. rewrite (app_removelast_last [] NE) at 3. apply Permutation_cons_append.
  - set (l' := removelast l). assert (El : l = l' ++ [last l []]) by (apply app_removelast_last; exact NE).
    assert (L' : length l' = (length l - 1)%nat) by apply removelast_length.
    assert (ES : lset l i (last l []) = lset l' i (last l []) ++ [last l []]).
    { apply (nth_ext _ _ [] []); [rewrite app_length, !lset_length, L'; cbn; lia|]. intros j Hj. rewrite lset_length in Hj. rewrite nth_lset by exact Hi.
      destruct (Nat.lt_ge_cases j (length l')) as [J|J].
      - rewrite app_nth1 by (rewrite lset_length; exact J). rewrite nth_lset by lia. destruct (Nat.eqb_spec j i); [reflexivity|].
        rewrite El at 1. apply app_nth1. exact J.
      - rewrite app_nth2 by (rewrite lset_length; exact J). rewrite lset_length. replace (j - length l')%nat with O by lia. cbn. destruct (Nat.eqb_spec j i); [reflexivity|].
        rewrite last_nth. f_equal. lia. }
    rewrite ES. rewrite removelast_last. replace (nth i l []) with (nth i l' []) by (symmetry; rewrite El at 1; apply app_nth1; lia).
    rewrite (lset_perm l' i) by lia. rewrite perm_swap. rewrite (ldrop_perm l' [] i) by lia. rewrite El at 2. apply Permutation_cons_append.
Qed.
Lemma nth_lswap (l : list (list Z)) i j k : (i < length l)%nat -> (j < length l)%nat ->
  nth k (lswap l i j) [] = if Nat.eqb k j then nth i l [] else if Nat.eqb k i then nth j l [] else nth k l [].
Proof. intros Hi Hj. unfold lswap. rewrite nth_lset by (rewrite lset_length; exact Hj). destruct (Nat.eqb k j); [reflexivity|]. apply nth_lset. exact Hi. Qed.
Lemma lswap_length (l : list (list Z)) i j : length (lswap l i j) = length l.
Proof. unfold lswap. rewrite !lset_length. reflexivity. Qed.
Lemma lset_self {A} (l : list A) d i : lset l i (nth i l d) = l.
Proof. revert i. induction l as [|x l IH]; intros [|i]; cbn; try reflexivity. f_equal. apply IH. Qed.
Lemma lset_lset_perm (l : list (list Z)) i j a : (i < length l)%nat -> (j < length l)%nat -> i <> j ->
  Permutation (lset (lset l i a) j (nth i l [])) (a :: nth i l [] :: ldrop (ldrop l i) (if Nat.ltb j i then j else j - 1)).
Proof.
  revert i j. induction l as [|x l IH]; intros [|i] [|j] Hi Hj Hne; cbn [length] in *; try lia.
  - cbn [lset nth]. change (ldrop (x :: l) 0) with l. change (Nat.ltb (S j) 0) with false. cbv iota. replace (S j - 1)%nat with j by lia. constructor. apply lset_perm. lia.
  - cbn [lset nth]. replace (ldrop (x :: l) (S i)) with (x :: ldrop l i) by reflexivity. change (Nat.ltb 0 (S i)) with true. cbv iota. change (ldrop (x :: ldrop l i) 0) with (ldrop l i).
    etransitivity; [|apply perm_swap]. apply perm_skip. apply lset_perm. lia.
  - cbn [lset nth]. specialize (IH i j ltac:(lia) ltac:(lia) ltac:(lia)). rewrite IH. replace (ldrop (x :: l) (S i)) with (x :: ldrop l i) by reflexivity.
    replace (if Nat.ltb (S j) (S i) then S j else (S j - 1)%nat) with (S (if Nat.ltb j i then j else (j - 1)%nat)).
    + set (t := if Nat.ltb j i then _ else _). replace (ldrop (x :: ldrop l i) (S t)) with (x :: ldrop (ldrop l i) t) by reflexivity.
      etransitivity; [apply perm_swap|]. constructor. apply perm_swap.
    + destruct (Nat.ltb_spec j i), (Nat.ltb_spec (S j) (S i)); lia.
Qed.
Lemma lswap_perm (l : list (list Z)) i j : (i < length l)%nat -> (j < length l)%nat -> Permutation (lswap l i j) l.
Proof.
  intros Hi Hj. unfold lswap. destruct (Nat.eq_dec i j) as [->|Hne].
  - rewrite lset_self. rewrite lset_self. reflexivity.
  - rewrite lset_lset_perm by assumption. set (t := if Nat.ltb j i then j else (j - 1)%nat).
    assert (Ht : nth t (ldrop l i) [] = nth j l []).
    { rewrite nth_ldrop by exact Hi. unfold t. destruct (Nat.ltb_spec j i) as [L|L].
      - destruct (Nat.ltb_spec j i); [reflexivity|lia].
      - destruct (Nat.ltb_spec (j - 1) i); [lia|]. f_equal. lia. }
    rewrite <- Ht. rewrite perm_swap. rewrite (ldrop_perm (ldrop l i) [] t). 2:{ rewrite ldrop_length by exact Hi. unfold t. destruct (Nat.ltb_spec j i); lia. }
    apply ldrop_perm. exact Hi.
Qed.

Lemma Forall_perm {A} (P : A -> Prop) l l' : Permutation l l' -> (Forall P l <-> Forall P l').
Proof. intros H. split; apply Permutation_Forall; [exact H|symmetry; exact H]. Qed.
Lemma Forall_at {A} (P : A -> Prop) l d i : (i < length l)%nat -> (Forall P l <-> P (nth i l d) /\ Forall P (ldrop l i)).
Proof. intros H. rewrite <- (Forall_perm P _ _ (ldrop_perm l d i H)). split; [intros F; inversion F; auto|intros []; constructor; auto]. Qed.
Lemma Forall_lset {A} (P : A -> Prop) l i a : (i < length l)%nat -> (Forall P (lset l i a) <-> P a /\ Forall P (ldrop l i)).
Proof. intros H. rewrite (Forall_perm P _ _ (lset_perm l i a H)). split; [intros F; inversion F; auto|intros []; constructor; auto]. Qed.
Lemma Forall_drop_swap (P : list Z -> Prop) l i : (i < length l)%nat -> (Forall P (drop_swap l i) <-> Forall P (ldrop l i)).
Proof.
  intros H. apply Forall_perm. apply (Permutation_cons_inv (a := nth i l [])). rewrite drop_swap_perm, ldrop_perm by exact H. reflexivity.
Qed.
