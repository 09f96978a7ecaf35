(** The statements about subtraction and the tests on maps. *)
From Coq Require Import ZArith List Bool Arith Lia Permutation.
From Verif Require Import SeqSpec MatModel BMapModel BMapSpec BMapSem LocalModel LocalSpec BElimModel BElimSpec SimpModel SetModel SetBase SetSpec SetLift SetOps SetOps3 SetMaps SubModel SubSpec SubLoop SubDisj SubMaps.
Import ListNotations.
Open Scope Z_scope.

Lemma fresh_ok np ni no : okm np ni no [fresh_map np ni no].
Proof.
  constructor; [|constructor]. split; [|repeat split]. split; [split; [constructor|split; constructor]|]. split; [exists (fun k => k); intros k j H; cbn in H; lia|]. split; [constructor|]. split; [intros v _ _ _ k Hk; cbn in Hk; lia|]. split; [reflexivity|intros H; discriminate H].
Qed.
Lemma fresh_any np ni no P I O : relates_any [fresh_map np ni no] P I O.
Proof. exists (fresh_map np ni no). split; [left; reflexivity|]. split; [reflexivity|]. exists []. split; [reflexivity|split; constructor]. Qed.
Lemma all_points np ni no (R : list Z -> Prop) : (forall x, point np ni no x -> R x) <-> forall P I O, length P = np -> length I = ni -> length O = no -> R (1 :: P ++ I ++ O).
Proof.
  split; [intros H P I O LP LI LO; apply H; apply point_x; split; auto|]. intros H x Hx. destruct (split_x np ni no x Hx) as (P & I & O & (LP & LI & LO) & ->). apply H; assumption.
Qed.
Section Statements.
Variables (hash : row -> nat) (no_redundant : bmap -> bool) (tab : bmap -> bool * list kind) (fuel : nat) (no_sample : bmap -> bool).
Variables (emp : nat -> bmap -> bool) (red : nat -> bmap -> nat -> list bool) (kinds : nat -> bmap -> list kind).
Variables (qsort : list bmap -> list bmap) (explicit_divs : list bmap -> res (list bmap)) (marked_disjoint : list bmap -> bool) (same_ids : bmap -> bool).

Lemma subtract_ok steps l1 l2 r np ni no :
  sound_tab tab -> sound_emptiness emp -> sound_redundancy red -> sound_kinds kinds -> sound_sample no_sample -> (forall l, Permutation l (qsort l)) -> sound_explicit explicit_divs ->
  okm np ni no l1 -> okm np ni no l2 ->
  map_subtract hash no_redundant tab fuel no_sample emp red kinds qsort explicit_divs marked_disjoint steps l1 l2 = Ok r ->
  okm np ni no r /\ forall P I O, length P = np -> length I = ni -> length O = no -> (relates_any r P I O <-> relates_any l1 P I O /\ ~ relates_any l2 P I O).
Proof.
  intros TAB EMP RED KIN SAM QS EXP F1 F2 E. destruct (subtract_any hash no_redundant tab fuel no_sample emp red kinds TAB EMP RED KIN SAM np ni no qsort QS explicit_divs EXP marked_disjoint steps l1 l2 r F1 F2 E) as (F & Q). split; [exact F|]. apply (proj1 (all_points np ni no _) Q).
Qed.
Lemma complement_ok steps l r np ni no :
  sound_tab tab -> sound_emptiness emp -> sound_redundancy red -> sound_kinds kinds -> sound_sample no_sample -> (forall l, Permutation l (qsort l)) -> sound_explicit explicit_divs ->
  okm np ni no l ->
  map_complement hash no_redundant tab fuel no_sample emp red kinds qsort explicit_divs marked_disjoint steps np ni no l = Ok r ->
  okm np ni no r /\ forall P I O, length P = np -> length I = ni -> length O = no -> (relates_any r P I O <-> ~ relates_any l P I O).
Proof.
  intros TAB EMP RED KIN SAM QS EXP F E. destruct (subtract_ok steps _ l r np ni no TAB EMP RED KIN SAM QS EXP (fresh_ok np ni no) F E) as (G & Q). split; [exact G|]. intros P I O LP LI LO. rewrite (Q P I O LP LI LO). pose proof (fresh_any np ni no P I O). tauto.
Qed.
Lemma subtract_domain_ok steps l s r np ni no :
  sound_tab tab -> sound_emptiness emp -> sound_redundancy red -> sound_kinds kinds -> sound_sample no_sample -> (forall l, Permutation l (qsort l)) -> sound_explicit explicit_divs ->
  okm np ni no l -> okm np 0 ni s ->
  map_subtract_domain hash no_redundant tab fuel no_sample emp red kinds qsort explicit_divs marked_disjoint same_ids steps np ni no l s = Ok r ->
  okm np ni no r /\ forall P I O, length P = np -> length I = ni -> length O = no -> (relates_any r P I O <-> relates_any l P I O /\ ~ relates_any s P [] I).
Proof.
  intros TAB EMP RED KIN SAM QS EXP F G. unfold map_subtract_domain. destruct (map_intersect_domain _ _ _ _ _ _ s) as [e| | |] eqn:ED; cbn [bind]; try discriminate. intros E. destruct (map_intersect_domain_ok same_ids hash no_redundant tab fuel TAB np ni no _ s e (fresh_ok np ni no) G ED) as (FE & QE). destruct (subtract_ok steps l e r np ni no TAB EMP RED KIN SAM QS EXP F FE E) as (FR & Q). split; [exact FR|]. intros P I O LP LI LO. rewrite (Q P I O LP LI LO), (QE P I O LP LI LO). pose proof (fresh_any np ni no P I O). tauto.
Qed.
Lemma subtract_range_ok steps l s r np ni no :
  sound_tab tab -> sound_emptiness emp -> sound_redundancy red -> sound_kinds kinds -> sound_sample no_sample -> (forall l, Permutation l (qsort l)) -> sound_explicit explicit_divs ->
  okm np ni no l -> okm np 0 no s ->
  map_subtract_range hash no_redundant tab fuel no_sample emp red kinds qsort explicit_divs marked_disjoint steps np ni no l s = Ok r ->
  okm np ni no r /\ forall P I O, length P = np -> length I = ni -> length O = no -> (relates_any r P I O <-> relates_any l P I O /\ ~ relates_any s P [] O).
Proof.
  intros TAB EMP RED KIN SAM QS EXP F G. unfold map_subtract_range. destruct (map_intersect_range _ _ _ _ _ s) as [e| | |] eqn:ED; cbn [bind]; try discriminate. intros E. destruct (map_intersect_range_ok same_ids hash no_redundant tab fuel TAB np ni no _ s e (fresh_ok np ni no) G ED) as (FE & QE). destruct (subtract_ok steps l e r np ni no TAB EMP RED KIN SAM QS EXP F FE E) as (FR & Q). split; [exact FR|]. intros P I O LP LI LO. rewrite (Q P I O LP LI LO), (QE P I O LP LI LO). pose proof (fresh_any np ni no P I O). tauto.
Qed.
Lemma is_empty_decides l np ni no : sound_sample no_sample -> complete_sample no_sample -> okm np ni no l ->
  (map_is_empty no_sample l = true <-> forall P I O, length P = np -> length I = ni -> length O = no -> ~ relates_any l P I O).
Proof.
  intros SAM C F. destruct (map_empty_ok no_sample SAM np ni no l F) as (A & B). rewrite <- (all_points np ni no (fun x => ~ any l x)). split; [exact A|]. intros H. destruct (map_is_empty no_sample l); [reflexivity|]. destruct (B C eq_refl) as (x & Hx & Q). destruct (H x Hx Q).
Qed.
Lemma is_disjoint_decides l1 l2 d np ni no :
  sound_tab tab -> sound_sample no_sample -> complete_sample no_sample -> (forall l, Permutation l (qsort l)) -> okm np ni no l1 -> okm np ni no l2 ->
  map_is_disjoint hash no_redundant tab fuel no_sample qsort l1 l2 = Ok d ->
  (d = true <-> forall P I O, length P = np -> length I = ni -> length O = no -> ~ (relates_any l1 P I O /\ relates_any l2 P I O)).
Proof.
  intros TAB SAM C QS F1 F2 E. destruct (disjoint_ok hash no_redundant tab fuel no_sample TAB SAM np ni no qsort QS l1 l2 d F1 F2 E) as (A & B). rewrite <- (all_points np ni no (fun x => ~ (any l1 x /\ any l2 x))). split; [exact A|]. intros H. destruct d; [reflexivity|]. destruct (B C eq_refl) as (x & Hx & Q). destruct (H x Hx Q).
Qed.
Lemma basic_is_disjoint_decides b1 b2 d np ni no :
  sound_tab tab -> sound_sample no_sample -> complete_sample no_sample -> okb np ni no b1 -> okb np ni no b2 ->
  basic_disjoint hash no_redundant tab fuel no_sample b1 b2 = Ok d ->
  (d = true <-> forall P I O, length P = np -> length I = ni -> length O = no -> ~ (relates b1 P I O /\ relates b2 P I O)).
Proof.
  intros TAB SAM C F1 F2 E. destruct (basic_disjoint_ok hash no_redundant tab fuel no_sample TAB SAM np ni no b1 b2 d F1 F2 E) as (A & B). rewrite <- (all_points np ni no (fun x => ~ (points b1 x /\ points b2 x))). split; [exact A|]. intros H. destruct d; [reflexivity|]. destruct (B C eq_refl) as (x & Hx & Q). destruct (H x Hx Q).
Qed.
Lemma plain_is_disjoint_sound b1 b2 np ni no : okb np ni no b1 -> okb np ni no b2 -> plain_disjoint b1 b2 = true ->
  forall P I O, length P = np -> length I = ni -> length O = no -> ~ (relates b1 P I O /\ relates b2 P I O).
Proof.
  intros O1 O2 D. apply (proj1 (all_points np ni no (fun x => ~ (points b1 x /\ points b2 x)))). intros x [L H] [A B]. apply (plain_disjoint_ok np ni no b1 b2 x); assumption.
Qed.
Lemma is_subset_decides steps l1 l2 s np ni no :
  sound_tab tab -> sound_emptiness emp -> sound_redundancy red -> sound_kinds kinds -> sound_sample no_sample -> complete_sample no_sample -> sound_explicit explicit_divs ->
  okm np ni no l1 -> okm np ni no l2 -> Forall ordered l2 ->
  map_is_subset hash no_redundant tab fuel no_sample emp red kinds explicit_divs steps l1 l2 = Ok s ->
  (s = true <-> forall P I O, length P = np -> length I = ni -> length O = no -> relates_any l1 P I O -> relates_any l2 P I O).
Proof.
  intros TAB EMP RED KIN SAM C EXP F1 F2 O2 E. rewrite (is_subset_any hash no_redundant tab fuel no_sample emp red kinds TAB EMP RED KIN SAM np ni no explicit_divs EXP marked_disjoint steps l1 l2 s F1 F2 O2 C E). apply (all_points np ni no (fun x => any l1 x -> any l2 x)).
Qed.
Lemma is_equal_decides steps l1 l2 s np ni no :
  sound_tab tab -> sound_emptiness emp -> sound_redundancy red -> sound_kinds kinds -> sound_sample no_sample -> complete_sample no_sample -> (forall l, Permutation l (qsort l)) -> sound_explicit explicit_divs ->
  okm np ni no l1 -> okm np ni no l2 -> Forall ordered l1 -> Forall ordered l2 ->
  map_is_equal hash no_redundant tab fuel no_sample emp red kinds qsort explicit_divs steps l1 l2 = Ok s ->
  (s = true <-> forall P I O, length P = np -> length I = ni -> length O = no -> (relates_any l1 P I O <-> relates_any l2 P I O)).
Proof.
  intros TAB EMP RED KIN SAM C QS EXP F1 F2 O1 O2. unfold map_is_equal. destruct (map_plain_equal no_redundant tab qsort l1 l2) as [e| | |] eqn:EE; cbn [bind]; try discriminate. destruct e.
  - intros [= <-]. split; [|reflexivity]. intros _. apply (map_plain_equal_ok no_redundant hash no_redundant tab qsort TAB QS np ni no l1 l2 F1 F2 EE).
  - destruct (map_is_subset _ _ _ _ _ _ _ _ _ steps l1 l2) as [s1| | |] eqn:E1; cbn [bind]; try discriminate. pose proof (is_subset_decides steps l1 l2 s1 np ni no TAB EMP RED KIN SAM C EXP F1 F2 O2 E1) as Q1. destruct s1.
    + intros E2. pose proof (is_subset_decides steps l2 l1 s np ni no TAB EMP RED KIN SAM C EXP F2 F1 O1 E2) as Q2. rewrite Q2. pose proof (proj1 Q1 eq_refl) as A. split; [intros H P I O LP LI LO; split; [apply A|apply H]; assumption|]. intros H P I O LP LI LO. apply (H P I O LP LI LO).
    + intros [= <-]. split; [discriminate|]. intros H. apply Q1. intros P I O LP LI LO. apply (H P I O LP LI LO).
Qed.
Lemma is_strict_subset_decides steps l1 l2 s np ni no :
  sound_tab tab -> sound_emptiness emp -> sound_redundancy red -> sound_kinds kinds -> sound_sample no_sample -> complete_sample no_sample -> sound_explicit explicit_divs ->
  okm np ni no l1 -> okm np ni no l2 -> Forall ordered l1 -> Forall ordered l2 ->
  map_is_strict_subset hash no_redundant tab fuel no_sample emp red kinds explicit_divs steps l1 l2 = Ok s ->
  (s = true <-> (forall P I O, length P = np -> length I = ni -> length O = no -> relates_any l1 P I O -> relates_any l2 P I O) /\
    ~ (forall P I O, length P = np -> length I = ni -> length O = no -> relates_any l2 P I O -> relates_any l1 P I O)).
Proof.
  intros TAB EMP RED KIN SAM C EXP F1 F2 O1 O2. unfold map_is_strict_subset. destruct (map_is_subset _ _ _ _ _ _ _ _ _ steps l1 l2) as [s1| | |] eqn:E1; cbn [bind]; try discriminate. pose proof (is_subset_decides steps l1 l2 s1 np ni no TAB EMP RED KIN SAM C EXP F1 F2 O2 E1) as Q1. rewrite <- Q1. destruct s1.
  - destruct (map_is_subset _ _ _ _ _ _ _ _ _ steps l2 l1) as [s2| | |] eqn:E2; cbn [bind]; try discriminate. pose proof (is_subset_decides steps l2 l1 s2 np ni no TAB EMP RED KIN SAM C EXP F2 F1 O1 E2) as Q2. rewrite <- Q2. intros [= <-]. destruct s2; cbn; intuition congruence.
  - intros [= <-]. intuition congruence.
Qed.
Lemma single_ok np ni no b : okb np ni no b -> okm np ni no (add_basic_map [] b).
Proof. intros O. apply add_Q; [constructor|exact O]. Qed.
Lemma single_ordered b : ordered b -> Forall ordered (add_basic_map [] b).
Proof. intros O. apply add_Q; [constructor|exact O]. Qed.
Lemma single_any b P I O : relates_any (add_basic_map [] b) P I O <-> relates b P I O.
Proof. unfold relates_any. rewrite (add_any (fun c => relates c P I O)) by (intros c; apply empty_relates). split; [intros [(c & [] & _)|A]; exact A|auto]. Qed.
Lemma basic_is_subset_decides steps b1 b2 s np ni no :
  sound_tab tab -> sound_emptiness emp -> sound_redundancy red -> sound_kinds kinds -> sound_sample no_sample -> complete_sample no_sample -> sound_explicit explicit_divs ->
  okb np ni no b1 -> okb np ni no b2 -> ordered b2 ->
  basic_is_subset hash no_redundant tab fuel no_sample emp red kinds explicit_divs steps b1 b2 = Ok s ->
  (s = true <-> forall P I O, length P = np -> length I = ni -> length O = no -> relates b1 P I O -> relates b2 P I O).
Proof.
  intros TAB EMP RED KIN SAM C EXP F1 F2 O2 E. rewrite (is_subset_decides steps _ _ s np ni no TAB EMP RED KIN SAM C EXP (single_ok _ _ _ _ F1) (single_ok _ _ _ _ F2) (single_ordered _ O2) E). split; intros H P I O LP LI LO A; [apply single_any; apply H|apply single_any in A; apply single_any; apply H]; auto. apply single_any. exact A.
Qed.
Lemma basic_is_equal_decides steps b1 b2 s np ni no :
  sound_tab tab -> sound_emptiness emp -> sound_redundancy red -> sound_kinds kinds -> sound_sample no_sample -> complete_sample no_sample -> sound_explicit explicit_divs ->
  okb np ni no b1 -> okb np ni no b2 -> ordered b1 -> ordered b2 ->
  basic_is_equal hash no_redundant tab fuel no_sample emp red kinds explicit_divs steps b1 b2 = Ok s ->
  (s = true <-> forall P I O, length P = np -> length I = ni -> length O = no -> (relates b1 P I O <-> relates b2 P I O)).
Proof.
  intros TAB EMP RED KIN SAM C EXP F1 F2 O1 O2. unfold basic_is_equal. destruct (basic_is_subset _ _ _ _ _ _ _ _ _ steps b1 b2) as [s1| | |] eqn:E1; cbn [bind]; try discriminate. pose proof (basic_is_subset_decides steps b1 b2 s1 np ni no TAB EMP RED KIN SAM C EXP F1 F2 O2 E1) as Q1. destruct s1.
  - intros E2. pose proof (basic_is_subset_decides steps b2 b1 s np ni no TAB EMP RED KIN SAM C EXP F2 F1 O1 E2) as Q2. rewrite Q2. pose proof (proj1 Q1 eq_refl) as A. split; [intros H P I O LP LI LO; split; [apply A|apply H]; assumption|]. intros H P I O LP LI LO. apply (H P I O LP LI LO).
  - intros [= <-]. split; [discriminate|]. intros H. apply Q1. intros P I O LP LI LO. apply (H P I O LP LI LO).
Qed.
End Statements.
