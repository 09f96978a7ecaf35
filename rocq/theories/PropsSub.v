(** C28, C29: subtraction of maps and the tests on maps. *)
From Coq Require Import ZArith List Bool Arith Lia Permutation ClassicalEpsilon.
From Verif Require Import SeqSpec MatModel BMapModel BMapSpec BMapSem LocalModel LocalSpec BElimModel BElimSpec SimpModel SetModel SetBase SetSpec SetLift SetOps SetMaps SubModel SubSpec SubProofs.
From Verif Require PropsSet.
From Verif Require Import PropsBElim.
Import ListNotations.
Open Scope Z_scope.

(** C28: a pair of points is in the difference if and only if it is in the first map and not in the second *)
Theorem C28_subtract hash no_redundant tab fuel no_sample emp red kinds qsort explicit_divs marked_disjoint steps l1 l2 r np ni no :
  sound_tab tab -> sound_emptiness emp -> sound_redundancy red -> sound_kinds kinds -> sound_sample no_sample -> PropsSet.permutes qsort -> sound_explicit explicit_divs ->
  okm np ni no l1 -> okm np ni no l2 ->
  map_subtract hash no_redundant tab fuel no_sample emp red kinds qsort explicit_divs marked_disjoint steps l1 l2 = Ok r ->
  okm np ni no r /\ forall P I O, length P = np -> length I = ni -> length O = no -> (relates_any r P I O <-> relates_any l1 P I O /\ ~ relates_any l2 P I O).
Proof. exact (subtract_ok hash no_redundant tab fuel no_sample emp red kinds qsort explicit_divs marked_disjoint steps l1 l2 r np ni no). Qed.
(** C28: the complement *)
Theorem C28_complement hash no_redundant tab fuel no_sample emp red kinds qsort explicit_divs marked_disjoint steps l r np ni no :
  sound_tab tab -> sound_emptiness emp -> sound_redundancy red -> sound_kinds kinds -> sound_sample no_sample -> PropsSet.permutes qsort -> sound_explicit explicit_divs ->
  okm np ni no l ->
  map_complement hash no_redundant tab fuel no_sample emp red kinds qsort explicit_divs marked_disjoint steps np ni no l = Ok r ->
  okm np ni no r /\ forall P I O, length P = np -> length I = ni -> length O = no -> (relates_any r P I O <-> ~ relates_any l P I O).
Proof. exact (complement_ok hash no_redundant tab fuel no_sample emp red kinds qsort explicit_divs marked_disjoint steps l r np ni no). Qed.
(** C28: removing the elements of a set from the domain or from the range *)
Theorem C28_subtract_domain hash no_redundant tab fuel no_sample emp red kinds qsort explicit_divs marked_disjoint same_ids steps l s r np ni no :
  sound_tab tab -> sound_emptiness emp -> sound_redundancy red -> sound_kinds kinds -> sound_sample no_sample -> PropsSet.permutes qsort -> sound_explicit explicit_divs ->
  okm np ni no l -> okm np 0 ni s ->
  map_subtract_domain hash no_redundant tab fuel no_sample emp red kinds qsort explicit_divs marked_disjoint same_ids steps np ni no l s = Ok r ->
  okm np ni no r /\ forall P I O, length P = np -> length I = ni -> length O = no -> (relates_any r P I O <-> relates_any l P I O /\ ~ relates_any s P [] I).
Proof. exact (subtract_domain_ok hash no_redundant tab fuel no_sample emp red kinds qsort explicit_divs marked_disjoint same_ids steps l s r np ni no). Qed.
Theorem C28_subtract_range hash no_redundant tab fuel no_sample emp red kinds qsort explicit_divs marked_disjoint steps l s r np ni no :
  sound_tab tab -> sound_emptiness emp -> sound_redundancy red -> sound_kinds kinds -> sound_sample no_sample -> PropsSet.permutes qsort -> sound_explicit explicit_divs ->
  okm np ni no l -> okm np 0 no s ->
  map_subtract_range hash no_redundant tab fuel no_sample emp red kinds qsort explicit_divs marked_disjoint steps np ni no l s = Ok r ->
  okm np ni no r /\ forall P I O, length P = np -> length I = ni -> length O = no -> (relates_any r P I O <-> relates_any l P I O /\ ~ relates_any s P [] O).
Proof. exact (subtract_range_ok hash no_redundant tab fuel no_sample emp red kinds qsort explicit_divs marked_disjoint no_sample steps l s r np ni no). Qed.

(** C29: the test for emptiness, given a decision for basic maps *)
Theorem C29_is_empty no_sample l np ni no : sound_sample no_sample -> complete_sample no_sample -> okm np ni no l ->
  (map_is_empty no_sample l = true <-> forall P I O, length P = np -> length I = ni -> length O = no -> ~ relates_any l P I O).
Proof. exact (is_empty_decides no_sample l np ni no). Qed.
(** C29: disjointness *)
Theorem C29_is_disjoint hash no_redundant tab fuel no_sample qsort l1 l2 d np ni no :
  sound_tab tab -> sound_sample no_sample -> complete_sample no_sample -> PropsSet.permutes qsort -> okm np ni no l1 -> okm np ni no l2 ->
  map_is_disjoint hash no_redundant tab fuel no_sample qsort l1 l2 = Ok d ->
  (d = true <-> forall P I O, length P = np -> length I = ni -> length O = no -> ~ (relates_any l1 P I O /\ relates_any l2 P I O)).
Proof. exact (is_disjoint_decides hash no_redundant tab fuel no_sample qsort l1 l2 d np ni no). Qed.
Theorem C29_basic_is_disjoint hash no_redundant tab fuel no_sample b1 b2 d np ni no :
  sound_tab tab -> sound_sample no_sample -> complete_sample no_sample -> okb np ni no b1 -> okb np ni no b2 ->
  basic_disjoint hash no_redundant tab fuel no_sample b1 b2 = Ok d ->
  (d = true <-> forall P I O, length P = np -> length I = ni -> length O = no -> ~ (relates b1 P I O /\ relates b2 P I O)).
Proof. exact (basic_is_disjoint_decides hash no_redundant tab fuel no_sample b1 b2 d np ni no). Qed.
(** C29: the syntactic test for disjointness only finds disjoint basic maps *)
Theorem C29_plain_is_disjoint b1 b2 np ni no : okb np ni no b1 -> okb np ni no b2 -> plain_disjoint b1 b2 = true ->
  forall P I O, length P = np -> length I = ni -> length O = no -> ~ (relates b1 P I O /\ relates b2 P I O).
Proof. exact (plain_is_disjoint_sound b1 b2 np ni no). Qed.
(** C29: inclusion and equality *)
Theorem C29_is_subset hash no_redundant tab fuel no_sample emp red kinds explicit_divs steps l1 l2 s np ni no :
  sound_tab tab -> sound_emptiness emp -> sound_redundancy red -> sound_kinds kinds -> sound_sample no_sample -> complete_sample no_sample -> sound_explicit explicit_divs ->
  okm np ni no l1 -> okm np ni no l2 -> Forall ordered l2 ->
  map_is_subset hash no_redundant tab fuel no_sample emp red kinds explicit_divs steps l1 l2 = Ok s ->
  (s = true <-> forall P I O, length P = np -> length I = ni -> length O = no -> relates_any l1 P I O -> relates_any l2 P I O).
Proof. exact (is_subset_decides hash no_redundant tab fuel no_sample emp red kinds explicit_divs (fun _ => true) steps l1 l2 s np ni no). Qed.
Theorem C29_is_equal hash no_redundant tab fuel no_sample emp red kinds qsort explicit_divs steps l1 l2 s np ni no :
  sound_tab tab -> sound_emptiness emp -> sound_redundancy red -> sound_kinds kinds -> sound_sample no_sample -> complete_sample no_sample -> PropsSet.permutes qsort -> sound_explicit explicit_divs ->
  okm np ni no l1 -> okm np ni no l2 -> Forall ordered l1 -> Forall ordered l2 ->
  map_is_equal hash no_redundant tab fuel no_sample emp red kinds qsort explicit_divs steps l1 l2 = Ok s ->
  (s = true <-> forall P I O, length P = np -> length I = ni -> length O = no -> (relates_any l1 P I O <-> relates_any l2 P I O)).
Proof. exact (is_equal_decides hash no_redundant tab fuel no_sample emp red kinds qsort explicit_divs (fun _ => true) steps l1 l2 s np ni no). Qed.
Theorem C29_is_strict_subset hash no_redundant tab fuel no_sample emp red kinds explicit_divs steps l1 l2 s np ni no :
  sound_tab tab -> sound_emptiness emp -> sound_redundancy red -> sound_kinds kinds -> sound_sample no_sample -> complete_sample no_sample -> sound_explicit explicit_divs ->
  okm np ni no l1 -> okm np ni no l2 -> Forall ordered l1 -> Forall ordered l2 ->
  map_is_strict_subset hash no_redundant tab fuel no_sample emp red kinds explicit_divs steps l1 l2 = Ok s ->
  (s = true <-> (forall P I O, length P = np -> length I = ni -> length O = no -> relates_any l1 P I O -> relates_any l2 P I O) /\
    ~ (forall P I O, length P = np -> length I = ni -> length O = no -> relates_any l2 P I O -> relates_any l1 P I O)).
Proof. exact (is_strict_subset_decides hash no_redundant tab fuel no_sample emp red kinds (fun l => l) explicit_divs (fun _ => true) steps l1 l2 s np ni no). Qed.
Theorem C29_basic_is_subset hash no_redundant tab fuel no_sample emp red kinds explicit_divs steps b1 b2 s np ni no :
  sound_tab tab -> sound_emptiness emp -> sound_redundancy red -> sound_kinds kinds -> sound_sample no_sample -> complete_sample no_sample -> sound_explicit explicit_divs ->
  okb np ni no b1 -> okb np ni no b2 -> ordered b2 ->
  basic_is_subset hash no_redundant tab fuel no_sample emp red kinds explicit_divs steps b1 b2 = Ok s ->
  (s = true <-> forall P I O, length P = np -> length I = ni -> length O = no -> relates b1 P I O -> relates b2 P I O).
Proof. exact (basic_is_subset_decides hash no_redundant tab fuel no_sample emp red kinds explicit_divs (fun _ => true) steps b1 b2 s np ni no). Qed.
Theorem C29_basic_is_equal hash no_redundant tab fuel no_sample emp red kinds explicit_divs steps b1 b2 s np ni no :
  sound_tab tab -> sound_emptiness emp -> sound_redundancy red -> sound_kinds kinds -> sound_sample no_sample -> complete_sample no_sample -> sound_explicit explicit_divs ->
  okb np ni no b1 -> okb np ni no b2 -> ordered b1 -> ordered b2 ->
  basic_is_equal hash no_redundant tab fuel no_sample emp red kinds explicit_divs steps b1 b2 = Ok s ->
  (s = true <-> forall P I O, length P = np -> length I = ni -> length O = no -> (relates b1 P I O <-> relates b2 P I O)).
Proof. exact (basic_is_equal_decides hash no_redundant tab fuel no_sample emp red kinds explicit_divs (fun _ => true) steps b1 b2 s np ni no). Qed.

(** the sets of the examples: { [x] : 0 <= x <= 10 }, the even numbers, { [4] }, { [x] : x = 20 } *)
Definition no_emp (s : nat) (b : bmap) : bool := false.
Definition no_red (s : nat) (b : bmap) (n : nat) : list bool := [].
Definition no_kinds (s : nat) (b : bmap) : list kind := [].
Example no_emp_sound : sound_emptiness no_emp.
Proof. intros s b _ _ H. discriminate H. Qed.
Example no_red_sound : sound_redundancy no_red.
Proof. intros s b n v _ _ _ _ _ H. apply Forall_forall. intros r Hr. apply (In_nth _ _ []) in Hr as (i & Hi & <-). apply H; [exact Hi|]. right. destruct i; reflexivity. Qed.
Example no_kinds_sound : sound_kinds no_kinds.
Proof. intros s b _ _ v _ _. unfold system, obeys, no_kinds. apply and_iff_compat_l. rewrite Forall_forall. split; [intros H i Hi; destruct i; apply H; apply nth_In; exact Hi|]. intros H r Hr. apply (In_nth _ _ []) in Hr as (i & Hi & <-). specialize (H i Hi). destruct i; exact H. Qed.
Example no_sample_sound : sound_sample PropsSet.no.
Proof. intros b q _ H. discriminate H. Qed.
Definition no_explicit (l : list bmap) : res (list bmap) := Null.
Example no_explicit_sound : sound_explicit no_explicit.
Proof. intros np ni no l l' _ H. discriminate H. Qed.
Definition ex_a : bmap := mkb 0 0 1 [] [[0; 1]; [10; -1]] [] false false false.
Definition ex_e : bmap := mkb 0 0 1 [[0; 1; -2]] [] [[2; 0; 1; 0]] false false false.
Definition ex_s : bmap := mkb 0 0 1 [[4; -1]] [] [] false false false.
Definition ex_t : bmap := mkb 0 0 1 [[20; -1]] [] [] false false false.
Example ex_a_ok : okb 0 0 1 ex_a. Proof. PropsSet.plain. Qed.
Example ex_s_ok : okb 0 0 1 ex_s. Proof. PropsSet.plain. Qed.
Example ex_t_ok : okb 0 0 1 ex_t. Proof. PropsSet.plain. Qed.
Example ex_e_ok : okb 0 0 1 ex_e.
Proof.
  split; [|repeat split]. split; [split; [PropsSet.rows|split; PropsSet.rows]|]. split; [exists (fun k => k); intros [|k] [|j]; cbn; intros; lia|]. split; [PropsSet.rows|]. split; [|split; [reflexivity|intros X; discriminate X]].
  intros v L H [E _] k Hk. cbn in Hk. destruct k; [|lia]. inversion E as [|? ? E1]; subst. unfold zero_on in E1. destruct v as [|x [|y [|z [|]]]]; try discriminate L. cbn in H. cbn [dot] in E1. right. cbn [ex_e b_div nth hd tl dot nvar b_param b_in b_out plus]. lia.
Qed.
(** the odd numbers between 0 and 10 *)
Example ex_subtract : map_subtract PropsSet.id_hash PropsSet.no no_tab 20 PropsSet.no no_emp no_red no_kinds (fun l => l) no_explicit (fun _ => true) 40 [ex_a] [ex_e] = Ok [mkb 0 0 1 [[-1; -1; 2]] [[0; 1; 0]; [10; -1; 0]] [[2; 1; 1; 0]] false false true].
Proof. vm_compute. reflexivity. Qed.
Example ex_complement : map_complement PropsSet.id_hash PropsSet.no no_tab 20 PropsSet.no no_emp no_red no_kinds (fun l => l) no_explicit (fun _ => true) 40 0 0 1 [ex_a] = Ok [mkb 0 0 1 [] [[-1; -1]] [] false false false; mkb 0 0 1 [] [[-11; 1]] [] false false false].
Proof. vm_compute. reflexivity. Qed.
Example ex_subtract_domain : map_subtract_domain PropsSet.id_hash PropsSet.no no_tab 20 PropsSet.no no_emp no_red no_kinds (fun l => l) no_explicit (fun _ => true) PropsSet.yes 40 0 1 1 [PropsSet.ex_b1] [ex_e] = Ok [mkb 0 1 1 [[-1; -1; 0; 2]; [-1; -1; 1; 0]] [[0; 1; 0; 0]; [10; -1; 0; 0]] [[2; 1; 1; 0; 0]] false false true].
Proof. vm_compute. reflexivity. Qed.
Example ex_subtract_range : map_subtract_range PropsSet.id_hash PropsSet.no no_tab 20 PropsSet.no no_emp no_red no_kinds (fun l => l) no_explicit (fun _ => true) 40 0 1 1 [PropsSet.ex_b1] [ex_e] = Ok [mkb 0 1 1 [[0; -1; 0; 2]; [-1; -1; 1; 0]] [[0; 1; 0; 0]; [10; -1; 0; 0]] [[2; 0; 1; 0; 0]] false false true].
Proof. vm_compute. reflexivity. Qed.
(** there is an exact test for basic maps *)
Example exact_sample_exists : exists f, sound_sample f /\ complete_sample f.
Proof.
  exists (fun b => if excluded_middle_informative (exists q, length q = (1 + nvar b)%nat /\ hd 0 q = 1 /\ points b q) then false else true). split.
  - intros b q _ H L H1 Q. destruct (excluded_middle_informative _) as [E|E]; [discriminate H|]. apply E. exists q. auto.
  - intros b _ H. destruct (excluded_middle_informative _) as [E|E]; [exact E|discriminate H].
Qed.
(** such a test finds the points of the sets of the examples *)
Lemma ex_found f b e x : sound_sample f -> okb 0 0 1 b -> b_empty b = false -> length e = ndiv b -> system (b_eq b) (b_ineq b) ([1; x] ++ e) -> f b = false.
Proof.
  intros SF (P & Z1 & Z2 & Z3) E L Sy. destruct (f b) eqn:F; [|reflexivity]. exfalso. apply (SF b [1; x] P F); [unfold nvar; rewrite Z1, Z2, Z3; reflexivity|reflexivity|]. split; [exact E|]. exists e. auto.
Qed.
Ltac sys := split; repeat (apply Forall_cons; [unfold zero_on, nonneg_on; cbn; lia|]); apply Forall_nil.
Definition ex_l : bmap := mkb 0 0 1 [] [[5; -1]] [] false false false.
Definition ex_g : bmap := mkb 0 0 1 [] [[-4; 1]] [] false false false.
Example ex_l_ok : okb 0 0 1 ex_l. Proof. PropsSet.plain. Qed.
Example ex_g_ok : okb 0 0 1 ex_g. Proof. PropsSet.plain. Qed.
Example ex_is_empty f : sound_sample f -> map_is_empty f [ex_t; ex_a] = false.
Proof. intros SF. unfold map_is_empty. cbn [forallb]. change (bmap_is_empty f ex_t) with (f ex_t). rewrite (ex_found f ex_t [] 20 SF ex_t_ok eq_refl eq_refl) by sys. reflexivity. Qed.
(** two sets that cover { [x] : 0 <= x <= 10 } together *)
Example ex_is_subset f : sound_sample f -> map_is_subset PropsSet.id_hash PropsSet.no no_tab 20 f no_emp no_red no_kinds no_explicit 40 [ex_a] [ex_l; ex_g] = Ok true /\ Forall ordered [ex_l; ex_g].
Proof.
  intros SF. pose proof (ex_found f ex_a [] 1 SF ex_a_ok eq_refl eq_refl ltac:(sys)) as Ea. pose proof (ex_found f ex_l [] 1 SF ex_l_ok eq_refl eq_refl ltac:(sys)) as El.
  split; [|repeat constructor; intros k j H; cbn in H; lia]. unfold ex_a, ex_l in Ea, El. vm_compute. rewrite Ea, El. reflexivity.
Qed.
Example ex_is_subset_singleton f : sound_sample f -> map_is_subset PropsSet.id_hash PropsSet.no no_tab 20 f no_emp no_red no_kinds no_explicit 40 [ex_s] [ex_e] = Ok true.
Proof.
  intros SF. pose proof (ex_found f ex_s [] 4 SF ex_s_ok eq_refl eq_refl ltac:(sys)) as Ea. pose proof (ex_found f ex_e [1] 2 SF ex_e_ok eq_refl eq_refl ltac:(sys)) as El.
  vm_compute. unfold ex_s, ex_e in Ea, El. rewrite Ea, El. reflexivity.
Qed.
Example ex_basic_is_subset f : sound_sample f -> basic_is_subset PropsSet.id_hash PropsSet.no no_tab 20 f no_emp no_red no_kinds no_explicit 40 ex_s ex_e = Ok true.
Proof. exact (ex_is_subset_singleton f). Qed.
Example ex_is_disjoint f : map_is_disjoint PropsSet.id_hash PropsSet.no no_tab 20 f (fun l => l) [ex_a; ex_s] [ex_t] = Ok true.
Proof. vm_compute. repeat match goal with |- context [f ?b] => destruct (f b) end; reflexivity. Qed.
Example ex_basic_is_disjoint f : basic_disjoint PropsSet.id_hash PropsSet.no no_tab 20 f ex_s ex_t = Ok true.
Proof. reflexivity. Qed.
Example ex_plain_is_disjoint : plain_disjoint ex_a ex_t = true.
Proof. reflexivity. Qed.
Example ex_is_equal f : map_is_equal PropsSet.id_hash PropsSet.no no_tab 20 f no_emp no_red no_kinds (fun l => l) no_explicit 40 [ex_a; ex_a] [ex_a] = Ok true.
Proof. vm_compute. reflexivity. Qed.
Example ex_basic_is_equal f : sound_sample f -> basic_is_equal PropsSet.id_hash PropsSet.no no_tab 20 f no_emp no_red no_kinds no_explicit 40 ex_s ex_s = Ok true.
Proof.
  intros SF. pose proof (ex_found f ex_s [] 4 SF ex_s_ok eq_refl eq_refl ltac:(sys)) as Ea.
  vm_compute. unfold ex_s in Ea. rewrite Ea. reflexivity.
Qed.
Example ex_is_strict_subset f : sound_sample f -> map_is_strict_subset PropsSet.id_hash PropsSet.no no_tab 20 f no_emp no_red no_kinds no_explicit 40 [ex_s] [ex_s] = Ok false.
Proof.
  intros SF. pose proof (ex_found f ex_s [] 4 SF ex_s_ok eq_refl eq_refl ltac:(sys)) as Ea.
  vm_compute. unfold ex_s in Ea. rewrite Ea. reflexivity.
Qed.

Print Assumptions C28_subtract.
Print Assumptions C28_complement.
Print Assumptions C28_subtract_domain.
Print Assumptions C28_subtract_range.
Print Assumptions C29_is_empty.
Print Assumptions C29_is_disjoint.
Print Assumptions C29_basic_is_disjoint.
Print Assumptions C29_plain_is_disjoint.
Print Assumptions C29_is_subset.
Print Assumptions C29_is_equal.
Print Assumptions C29_is_strict_subset.
Print Assumptions C29_basic_is_subset.
Print Assumptions C29_basic_is_equal.
