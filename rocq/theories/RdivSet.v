(** Composition and projection with the model of isl_basic_map_drop_redundant_divs. *)
From Coq Require Import ZArith List Bool Arith Lia.
From Verif Require Import SeqModel SeqSpec SeqProofs MatModel BMapModel BMapSpec BMapSem BMapOrder BDupModel BElimModel BElimSpec BElimFM BElimVars ReorderModel LocalModel EqProofs SimpModel SimpSpec SimpBase SimpFinal SetModel SetSpec SetBase SetViews SetLift SetOps SetOps3 SetProject SetMaps RdivModel RdivSpec RdivSimp RdivProofs.
Import ListNotations.
Open Scope Z_scope.

(** ** basic maps marked empty in which only unknown local variables are left *)
Definition blank (np ni no : nat) (nd : bool) (n : nat) : bmap :=
  mkb np ni no [1 :: repeat 0 (np + ni + no + n)] [] (repeat (repeat 0 (2 + (np + ni + no + n))) n) false true nd.
Lemma nth_repeat2 {A} (x d : A) n k : (k < n)%nat -> nth k (repeat x n) d = x.
Proof. revert k. induction n as [|n IH]; intros [|k] H; try lia; cbn; [reflexivity|]. apply IH. lia. Qed.
Lemma repeat_snoc {A} (x : A) n : repeat x n ++ [x] = x :: repeat x n.
Proof. induction n as [|n IH]; [reflexivity|]. cbn [repeat app]. rewrite IH. reflexivity. Qed.
Lemma first_nz_repeat n : seq_first_non_zero (repeat 0 n) = None.
Proof. apply first_non_zero_none. intros l _. apply nth_repeat. Qed.
Lemma skipn_repeat (x : Z) n : forall k, skipn k (repeat x n) = repeat x (n - k).
Proof. induction n as [|n IH]; intros [|k]; cbn [repeat skipn Nat.sub]; try reflexivity. apply IH. Qed.
Lemma blank_div np ni no nd n k : nth 0 (nth k (b_div (blank np ni no nd n)) []) 0 = 0.
Proof.
  cbn [blank b_div]. destruct (Nat.lt_ge_cases k n) as [L|L]; [rewrite nth_repeat2 by exact L; reflexivity|]. rewrite (nth_overflow (repeat _ n)) by (rewrite repeat_length; lia). reflexivity.
Qed.
Lemma blank_ndiv np ni no nd n : ndiv (blank np ni no nd n) = n.
Proof. unfold ndiv. cbn. apply repeat_length. Qed.
Lemma blank_order np ni no nd n : forall fuel i b, order_divs_loop fuel (blank np ni no nd n) i = Ok b -> b = blank np ni no nd n.
Proof.
  induction fuel as [|fuel IH]; intros i b; cbn [order_divs_loop]; [discriminate|]. destruct (Nat.leb _ _); [intros [= <-]; reflexivity|]. cbn zeta. assert (H : hd 0 (nth i (b_div (blank np ni no nd n)) []) = 0) by (rewrite <- (blank_div np ni no nd n i); destruct (nth i _ _); reflexivity). rewrite H. cbn [Z.eqb]. apply IH.
Qed.
Lemma blank_sort np ni no nd n b : bmap_sort_divs (blank np ni no nd n) = Ok b -> b = blank np ni no nd n.
Proof.
  unfold bmap_sort_divs, order_divs. destruct (order_divs_loop _ _ _) as [b1| | |] eqn:E; cbn [bind]; try discriminate. apply blank_order in E. subst b1. intros [= <-].
  assert (I : forall jj, sort_divs_inner jj (blank np ni no nd n) = blank np ni no nd n).
  { intros [|j]; [reflexivity|]. cbn [sort_divs_inner]. unfold bmap_cmp_row, cmp_row. rewrite !blank_div. cbn [Z.eqb andb]. destruct (Z.leb_spec (Z.of_nat j - Z.of_nat (j + 1)) 0); [reflexivity|lia]. }
  generalize (seq 1 (ndiv (blank np ni no nd n) - 1)). intros l. induction l as [|i l IH]; cbn [fold_left]; [reflexivity|]. rewrite I. exact IH.
Qed.
Lemma blank_unknown np ni no nd n : first_unknown_div (blank np ni no nd (S n)) = Ok O.
Proof. unfold first_unknown_div. rewrite blank_ndiv. cbn. reflexivity. Qed.
Lemma blank_find np ni no nd n k : find_unknown_eq (blank np ni no nd n) k = None.
Proof.
  unfold find_unknown_eq. cbn [blank b_eq find_map]. unfold dpos. cbn [Nat.add skipn]. rewrite skipn_repeat, first_nz_repeat. reflexivity.
Qed.
Lemma ldrop_repeat {A} (x : A) n k : (k <= n)%nat -> ldrop (repeat x (S n)) k = repeat x n.
Proof.
  unfold ldrop. intros H. rewrite <- (firstn_skipn k (repeat x n)). change (skipn (S k) (repeat x (S n))) with (skipn k (repeat x n)). f_equal.
  revert k H. induction n as [|n IH]; intros [|k] H; try reflexivity; try lia. cbn [repeat firstn]. f_equal. apply (IH k). lia.
Qed.
Lemma map_repeat' {A B} (f : A -> B) x n : map f (repeat x n) = repeat (f x) n.
Proof. induction n as [|n IH]; [reflexivity|]. cbn. rewrite IH. reflexivity. Qed.
Lemma blank_drop np ni no nd n : drop_unbounded (blank np ni no nd (S n)) 0 = blank np ni no nd n.
Proof.
  unfold drop_unbounded. cbn [blank b_ineq length]. set (l := drop_involving_ineq _ _ _). assert (l = []) as -> by reflexivity. unfold drop_div, set_ineq, blank, nvar. cbn [b_param b_in b_out b_eq b_ineq b_div b_rat b_empty b_nd map]. f_equal.
  - f_equal. rewrite Nat.add_0_r. unfold ldrop. cbn [firstn skipn Nat.add app]. f_equal. replace (np + ni + no + S n)%nat with (S (np + ni + no + n)) by lia. apply (ldrop_repeat 0 (np + ni + no + n) (np + ni + no)). lia.
  - rewrite map_repeat'. rewrite (ldrop_repeat _ n 0) by lia. f_equal. replace (2 + (np + ni + no + S n))%nat with (S (2 + (np + ni + no + n))) by lia. apply ldrop_repeat. lia.
Qed.
Lemma blank_loop np ni no nd n : ineq_loop (S n) (blank np ni no nd (S n)) 0 (repeat 0%nat (S n)) 0 = Ok (Drop_unbounded 0).
Proof.
  cbn [ineq_loop]. assert (A : any_div_involves_div (blank np ni no nd (S n)) 0 = false).
  { unfold any_div_involves_div. cbn [blank b_div]. rewrite Nat.add_0_l. cbn [repeat skipn Nat.add]. generalize (repeat 0 (np + ni + no + S n)). intros z. generalize (dpos (blank np ni no nd (S n)) 0). intros o. generalize n. intros k. induction k as [|k IH]; [reflexivity|]. cbn [repeat existsb hd Z.eqb negb andb orb]. exact IH. }
  rewrite A. assert (E : existsb (fun r => negb (nth (dpos (blank np ni no nd (S n)) 0) r 0 =? 0)) (b_eq (blank np ni no nd (S n))) = false).
  { cbn [blank b_eq existsb]. unfold dpos. cbn [Nat.add nth]. rewrite nth_repeat. reflexivity. }
  rewrite E. reflexivity.
Qed.
Section Drop.
Variable hash : list Z -> nat.
Variable no_redundant : bmap -> bool.
Variable tab : bmap -> bool * list kind.
Variable sfuel : nat.
Variable tab_empty : bmap -> bool.
Variable tab_min : bmap -> row -> option Z.
Lemma nodiv_drd fuel b b' : ndiv b = O -> drop_redundant_divs hash no_redundant tab sfuel tab_empty tab_min fuel b = Ok b' -> b' = b.
Proof. intros N. destruct fuel as [|fuel]; [discriminate|]. cbn [drop_redundant_divs]. unfold first_unknown_div. rewrite N. cbn. intros [= <-]. reflexivity. Qed.
Lemma blank_drd np ni no nd : forall fuel n b', drop_redundant_divs hash no_redundant tab sfuel tab_empty tab_min fuel (blank np ni no nd n) = Ok b' -> b' = blank np ni no nd 0.
Proof.
  induction fuel as [|fuel IH]; intros n b'; [discriminate|]. destruct n as [|n]; [apply nodiv_drd; apply blank_ndiv|]. cbn [drop_redundant_divs]. rewrite blank_unknown. cbn [bind]. rewrite blank_ndiv. cbn [Nat.eqb].
  change (length (b_eq (blank np ni no nd (S n)))) with 1%nat. cbn [Nat.eqb]. destruct (bmap_sort_divs (blank np ni no nd (S n))) as [b1| | |] eqn:E; cbn [bind]; try discriminate. apply blank_sort in E. subst b1. rewrite blank_unknown. cbn [bind]. rewrite blank_find, blank_ndiv. cbn [Nat.eqb]. rewrite blank_loop. cbn [bind]. rewrite blank_drop. apply IH.
Qed.
Lemma blank_proper np ni no nd : proper (blank np ni no nd 0).
Proof.
  split; [|split; [|split; [|split; [|split; [reflexivity|]]]]].
  - repeat split; [|constructor|constructor]. constructor; [|constructor]. cbn [length]. rewrite repeat_length. unfold total, nvar, ndiv. cbn. lia.
  - exists (fun k => k). intros k j Hk. cbn in Hk. lia.
  - constructor.
  - intros v _ _ _ k Hk. cbn in Hk. lia.
  - intros _ v _ Hv [H _]. inversion H as [|r l Z0 _]. unfold zero_on in Z0. destruct v as [|x v]; [discriminate Hv|]. cbn [hd] in Hv. subst x. cbn [dot] in Z0. rewrite SeqProofs.dot_repeat0 in Z0. lia.
Qed.

(** ** the cases that occur *)
Definition orderedb (b : bmap) : bool :=
  forallb (fun k => (hd 0 (nth k (b_div b) []) =? 0) || forallb (fun x => x =? 0) (skipn (2 + nvar b + k) (nth k (b_div b) []))) (seq 0 (ndiv b)).
Lemma orderedb_ok b : orderedb b = true <-> ordered b.
Proof.
  unfold orderedb. rewrite forallb_forall. split.
  - intros H k j Hk Hj Hh. specialize (H k ltac:(apply in_seq; lia)). apply orb_true_iff in H as [H|H]; [apply Z.eqb_eq in H; contradiction|]. rewrite forallb_forall in H. set (r := nth k (b_div b) []) in *. destruct (Nat.lt_ge_cases (2 + nvar b + j) (length r)) as [L|L]; [|apply nth_overflow; lia].
    replace (2 + nvar b + j)%nat with ((2 + nvar b + k) + (j - k))%nat by lia. rewrite <- SeqProofs.nth_skipn. apply Z.eqb_eq, H. apply nth_In. rewrite skipn_length. lia.
  - intros O k Hk. apply in_seq in Hk. destruct (Z.eqb_spec (hd 0 (nth k (b_div b) [])) 0) as [E|E]; [reflexivity|]. cbn [orb]. apply forallb_forall. intros x Hx. apply (In_nth _ _ 0) in Hx as (j & Hj & <-). rewrite nth_skipn. apply Z.eqb_eq. replace (2 + nvar b + k + j)%nat with (2 + nvar b + (k + j))%nat by lia. apply O; [lia|lia|exact E].
Qed.
Definition rows_eq (a b : list (list Z)) : bool := if list_eq_dec (list_eq_dec Z.eq_dec) a b then true else false.
Definition blankb (b : bmap) : bool :=
  b_empty b && negb (b_rat b) && rows_eq (b_eq b) [1 :: repeat 0 (total b)] && rows_eq (b_ineq b) [] && rows_eq (b_div b) (repeat (repeat 0 (2 + total b)) (ndiv b)).
Lemma blankb_ok b : blankb b = true -> b = blank (b_param b) (b_in b) (b_out b) (b_nd b) (ndiv b).
Proof.
  unfold blankb, rows_eq. intros H. apply andb_true_iff in H as [H H5]. apply andb_true_iff in H as [H H4]. apply andb_true_iff in H as [H H3]. apply andb_true_iff in H as [H1 H2]. apply negb_true_iff in H2.
  destruct (list_eq_dec _ (b_eq b) _) as [E3|]; [|discriminate H3]. destruct (list_eq_dec _ (b_ineq b) _) as [E4|]; [|discriminate H4]. destruct (list_eq_dec _ (b_div b) _) as [E5|]; [|discriminate H5]. unfold total, nvar in E3, E5.
  apply SetOps.bmap_eq; try reflexivity; cbn [blank b_eq b_ineq b_div b_rat b_empty]; congruence.
Qed.
Lemma blank_blankb np ni no nd n : blankb (blank np ni no nd n) = true.
Proof.
  unfold blankb, total. rewrite blank_ndiv. unfold rows_eq. cbn [blank b_empty b_rat b_eq b_ineq b_div negb andb]. unfold nvar. cbn [b_param b_in b_out].
  destruct (list_eq_dec _ _ _); [|contradiction]. cbn [andb]. destruct (list_eq_dec _ _ _); [|contradiction]. cbn [andb]. destruct (list_eq_dec _ _ _); [reflexivity|contradiction].
Qed.
Definition usable (b : bmap) : bool := Nat.eqb (ndiv b) 0 || (negb (b_empty b) && orderedb b) || blankb b.
Variable rfuel : nat.
Definition drd (b : bmap) : res bmap := drop_redundant_divs hash no_redundant tab sfuel tab_empty tab_min rfuel b.
Definition drd_usable (b : bmap) : res bmap := if usable b then drd b else Null.
Hypothesis TAB : sound_tab tab.
Hypothesis TE : sound_empty tab_empty.
Hypothesis TM : sound_min tab_min.
Lemma usable_keeps b b' : proper b -> drd_usable b = Ok b' -> same b b'.
Proof.
  intros P. unfold drd_usable, drd. destruct (usable b) eqn:U; [|discriminate]. intros E. unfold usable in U. apply orb_true_iff in U as [U|U].
  - apply orb_true_iff in U as [U|U].
    + apply Nat.eqb_eq in U. apply nodiv_drd in E; [|exact U]. subst b'. apply same_refl. exact P.
    + apply andb_true_iff in U as [U1 U2]. apply negb_true_iff in U1. apply orderedb_ok in U2. apply pres_same_points; [apply P|]. apply (drop_redundant_pres hash no_redundant tab sfuel tab_empty tab_min TAB TE TM rfuel b b' (proper_good b P U1) U2 E).
  - apply blankb_ok in U. rewrite U in E. apply blank_drd in E. subst b'. rewrite U at 1. split; [repeat split|]. split; [apply blank_proper|]. intros q _ _. unfold points, member. cbn [blank b_empty]. split; intros [X _]; discriminate X.
Qed.
Variable fuel : nat.
Lemma agree b : proper b -> b_empty b = false \/ blankb b = true -> simp_drop_fin hash no_redundant tab fuel drd b = simp_drop_fin hash no_redundant tab fuel drd_usable b.
Proof.
  intros P H. unfold simp_drop_fin. destruct (simplify hash no_redundant tab fuel b) as [c| | |] eqn:E; cbn [bind]; try reflexivity. assert (U : usable c = true); [|unfold drd_usable; rewrite U; reflexivity]. destruct H as [H|H].
  - destruct (simplify_ordered hash no_redundant tab TAB fuel b c (proper_good b P H) E) as [(_ & G & _) O]. unfold usable. destruct (b_empty c) eqn:Ec; [|apply orderedb_ok in O; rewrite O; cbn; rewrite orb_true_r; reflexivity]. destruct G as (_ & _ & _ & _ & _ & B). destruct (B Ec) as (B1 & _). unfold ndiv. rewrite B1. reflexivity.
  - assert (Ec : b_empty b = true) by (unfold blankb in H; destruct (b_empty b); [reflexivity|discriminate H]). destruct fuel as [|f]; cbn [simplify] in E; [discriminate E|]. rewrite Ec in E. injection E as <-. unfold usable. rewrite H. apply orb_true_r.
Qed.
Lemma apply_range_agree b1 b2 np n k m : okb np n k b1 -> okb np k m b2 -> apply_range hash no_redundant tab fuel drd b1 b2 = apply_range hash no_redundant tab fuel drd_usable b1 b2.
Proof.
  intros [P1 (S1 & S2 & S3)] [P2 (T1 & T2 & T3)]. unfold apply_range. rewrite S1, S2, S3, T1, T2, T3, !Nat.eqb_refl. cbn [negb orb]. cbn zeta.
  replace (np + n + m + ndiv b1 + ndiv b2 + k)%nat with (np + n + m + (0 + (ndiv b1 + (ndiv b2 + k))))%nat by lia.
  set (p5 := (np + n + m + ndiv b1 + ndiv b2)%nat). set (tot := (np + n + m + (0 + (ndiv b1 + (ndiv b2 + k))))%nat).
  assert (M1 : dm_out (dm_div (dm_in (dm_param (dm_alloc tot) b1 0) b1 np) b1 (np + n + m)) b1 p5 = map4 tot b1 0 np p5 (np + n + m)).
  { unfold map4. apply dm_block_comm; [unfold apart, p5; lia| |]; unfold dm_in, dm_param; rewrite !dm_block_len, dm_alloc_len; unfold tot, p5; lia. }
  assert (M2 : dm_in (dm_div (dm_out (dm_param (dm_alloc tot) b2 0) b2 (np + n)) b2 (np + n + m + ndiv b1)) b2 p5 = map4 tot b2 0 p5 (np + n) (np + n + m + ndiv b1)).
  { unfold map4. etransitivity; [apply dm_block_comm; [unfold apart, p5; lia| |]; unfold dm_out, dm_param; rewrite !dm_block_len, dm_alloc_len; unfold tot, p5; lia|]. unfold dm_div at 1. apply (f_equal (fun x => dm_block x (nvar b2) (ndiv b2) (np + n + m + ndiv b1))). 
    apply dm_block_comm; [unfold apart, p5; lia| |]; unfold dm_param; rewrite !dm_block_len, dm_alloc_len; unfold tot, p5; lia. }
  rewrite M1, M2. clear M1 M2.
  change (fresh_map np n m) with (set_eq (fresh_map np n m) []). rewrite (fresh_add2_divs np n m [] b1 b2 _ _ k tot eq_refl).
  match goal with |- simp_drop_fin _ _ _ _ _ ?X = _ => set (b := X) end.
  assert (G : good b). { apply two_good; [constructor|assumption|assumption|unfold p5; szs|unfold p5; szs]. }
  apply agree; [apply (good_proper b G eq_refl)|left; reflexivity].
Qed.
Lemma project_out_agree b t first n : proper b -> project_out hash no_redundant tab fuel drd b t first n = project_out hash no_redundant tab fuel drd_usable b t first n.
Proof.
  intros PB. unfold project_out. destruct (Nat.eqb_spec n 0) as [N0|N0]; [reflexivity|]. set (b0 := if b_empty b then set_to_empty b else b).
  assert (K0 : okb (b_param b) (b_in b) (b_out b) b0). { unfold b0. destruct (b_empty b) eqn:E; [|split; [exact PB|repeat split]]. destruct (set_to_empty_proper b PB E) as (P0 & E0 & N & S0). split; assumption. }
  assert (K1 : b_empty b0 = false \/ b_empty b0 = true /\ b_eq b0 = [1 :: repeat 0 (nvar b0)] /\ b_ineq b0 = [] /\ b_div b0 = []).
  { unfold b0. destruct (b_empty b) eqn:E; [right|left; exact E]. unfold set_to_empty. rewrite E. cbn [andb]. destruct (Nat.eqb_spec (length (b_eq b) + length (b_ineq b)) 0) as [H|H]; [|repeat split]. exfalso. pose proof PB as (_ & _ & _ & _ & _ & Hn).
    apply (Hn E (1 :: repeat 0 (total b))); [cbn [length]; rewrite repeat_length; reflexivity|reflexivity|]. destruct (b_eq b); [|cbn in H; lia]. destruct (b_ineq b); [|cbn in H; lia]. split; constructor. }
  destruct K0 as [P0 (S1 & S2 & S3)]. assert (R0 : b_rat b0 = false) by apply P0. rewrite R0. destruct (Nat.ltb_spec (dim_count b0 t) (first + n)) as [LT|LT]; [reflexivity|]. cbn zeta.
  assert (NV : nvar b0 = (less t DParam n (b_param b0) + less t DIn n (b_in b0) + less t DOut n (b_out b0) + n)%nat) by (unfold nvar; destruct t; cbn [less dim_count] in *; lia).
  assert (FIT : (dim_offset b0 t + first + n <= nvar b0)%nat) by (unfold nvar; destruct t; cbn [dim_offset dim_count] in *; lia).
  destruct (project_points b0 _ _ _ (dim_offset b0 t + first) n P0 NV FIT) as [[PC _] _]. apply agree; [exact PC|]. unfold move_last. destruct (Nat.eqb (dim_offset b0 t + first + n) (nvar b0)); [|left; reflexivity].
  destruct K1 as [K1|(K1 & K2 & K3 & K4)]; [left; exact K1|right]. set (x := insert_div_rows _ _ _ _ _). assert (x = blank (less t DParam n (b_param b0)) (less t DIn n (b_in b0)) (less t DOut n (b_out b0)) false n) as ->; [|apply blank_blankb].
  unfold x, insert_div_rows, blank, total, ndiv. rewrite K1, K2, K3, K4, R0. cbn [length app]. rewrite app_nil_r, Nat.add_0_r. rewrite NV. reflexivity.
Qed.

(** ** the operations *)
Lemma apply_range_rdiv b1 b2 b' np n k m : okb np n k b1 -> okb np k m b2 -> apply_range hash no_redundant tab fuel drd b1 b2 = Ok b' ->
  okb np n m b' /\ forall P I O, length P = np -> length I = n -> length O = m -> (relates b' P I O <-> exists M, length M = k /\ relates b1 P I M /\ relates b2 P M O).
Proof. intros K1 K2 E. rewrite (apply_range_agree b1 b2 np n k m K1 K2) in E. exact (apply_range_ok hash no_redundant tab fuel drd_usable TAB usable_keeps b1 b2 b' np n k m K1 K2 E). Qed.
Lemma project_out_rdiv b t first n b' : proper b -> project_out hash no_redundant tab fuel drd b t first n = Ok b' ->
  (first + n <= dim_count b t \/ n = 0)%nat /\ okb (less t DParam n (b_param b)) (less t DIn n (b_in b)) (less t DOut n (b_out b)) b' /\
  forall A C, length A = (dim_offset b t + first)%nat -> (length A + n + length C)%nat = nvar b ->
    (points b' (1 :: A ++ C) <-> exists X, length X = n /\ points b (1 :: A ++ X ++ C)).
Proof. intros PB E. rewrite (project_out_agree b t first n PB) in E. exact (project_out_ok (fun _ => true) hash no_redundant tab fuel drd_usable TAB usable_keeps b t first n b' PB E). Qed.
Lemma each_right_ext f g b1 : forall l2 acc, (forall b2, List.In b2 l2 -> f b1 b2 = g b1 b2) -> each_right f acc b1 l2 = each_right g acc b1 l2.
Proof. induction l2 as [|b2 l2 IH]; intros acc H; cbn [each_right]; [reflexivity|]. rewrite (H b2 (or_introl eq_refl)). destruct (g b1 b2); cbn [bind]; try reflexivity. apply IH. intros x Hx. apply H. right. exact Hx. Qed.
Lemma each_pair_ext f g l2 : forall l1 acc, (forall b1 b2, List.In b1 l1 -> List.In b2 l2 -> f b1 b2 = g b1 b2) -> each_pair f acc l1 l2 = each_pair g acc l1 l2.
Proof.
  induction l1 as [|b1 l1 IH]; intros acc H; cbn [each_pair]; [reflexivity|]. rewrite (each_right_ext f g b1 l2 acc) by (intros b2 Hb; apply H; [left; reflexivity|exact Hb]). destruct (each_right g acc b1 l2); cbn [bind]; try reflexivity. apply IH. intros x y Hx Hy. apply H; [right; exact Hx|exact Hy].
Qed.
Lemma each_ext f g : forall l, (forall b, List.In b l -> f b = g b) -> each f l = each g l.
Proof. induction l as [|b l IH]; intros H; cbn [each]; [reflexivity|]. rewrite (H b (or_introl eq_refl)). destruct (g b); cbn [bind]; try reflexivity. rewrite IH; [reflexivity|]. intros x Hx. apply H. right. exact Hx. Qed.
Lemma map_apply_range_agree np n k m l1 l2 : okm np n k l1 -> okm np k m l2 -> map_apply_range hash no_redundant tab fuel drd l1 l2 = map_apply_range hash no_redundant tab fuel drd_usable l1 l2.
Proof. intros K1 K2. unfold okm in *. rewrite Forall_forall in K1, K2. apply each_pair_ext. intros b1 b2 H1 H2. apply (apply_range_agree b1 b2 np n k m); auto. Qed.
Lemma map_project_agree np ni no l t first n : okm np ni no l -> map_project_out hash no_redundant tab fuel drd l t first n = map_project_out hash no_redundant tab fuel drd_usable l t first n.
Proof. intros K. unfold okm in *. rewrite Forall_forall in K. unfold map_project_out. destruct (Nat.eqb n 0); [reflexivity|]. apply each_ext. intros b Hb. apply project_out_agree. apply (K b Hb). Qed.
Lemma map_apply_range_rdiv np n k m l1 l2 l : okm np n k l1 -> okm np k m l2 -> map_apply_range hash no_redundant tab fuel drd l1 l2 = Ok l ->
  okm np n m l /\ forall P I O, length P = np -> length I = n -> length O = m -> (relates_any l P I O <-> exists M, length M = k /\ relates_any l1 P I M /\ relates_any l2 P M O).
Proof. intros K1 K2 E. rewrite (map_apply_range_agree np n k m l1 l2 K1 K2) in E. exact (map_apply_range_ok hash no_redundant tab fuel drd_usable TAB usable_keeps np n k m l1 l2 l K1 K2 E). Qed.
Lemma map_apply_domain_rdiv sid np n k m l1 l2 l : okm np k m l1 -> okm np k n l2 -> map_apply_domain sid hash no_redundant tab fuel drd l1 l2 = Ok l ->
  okm np n m l /\ forall P I O, length P = np -> length I = n -> length O = m -> (relates_any l P I O <-> exists M, length M = k /\ relates_any l2 P M I /\ relates_any l1 P M O).
Proof.
  intros K1 K2 E. assert (EQ : map_apply_domain sid hash no_redundant tab fuel drd l1 l2 = map_apply_domain sid hash no_redundant tab fuel drd_usable l1 l2).
  { unfold map_apply_domain. destruct (map_reverse sid l1) as [r1| | |] eqn:ER; cbn [bind]; try reflexivity. destruct (map_reverse_ok sid np k m l1 r1 K1 ER) as [KR _]. rewrite (map_apply_range_agree np m k n r1 l2 KR K2). reflexivity. }
  rewrite EQ in E. exact (map_apply_domain_ok sid hash no_redundant tab fuel drd_usable TAB usable_keeps np n k m l1 l2 l K1 K2 E).
Qed.
Lemma map_project_out_rdiv np ni no l t first n l' : okm np ni no l -> map_project_out hash no_redundant tab fuel drd l t first n = Ok l' ->
  okm (less t DParam n np) (less t DIn n ni) (less t DOut n no) l' /\
  forall A C, length A = (match t with DParam => 0 | DIn => np | DOut => np + ni end + first)%nat -> (length A + n + length C)%nat = (np + ni + no)%nat ->
    ((exists b, List.In b l' /\ points b (1 :: A ++ C)) <-> exists X, length X = n /\ exists b, List.In b l /\ points b (1 :: A ++ X ++ C)).
Proof. intros K E. rewrite (map_project_agree np ni no l t first n K) in E. exact (map_project_out_ok (fun _ => true) hash no_redundant tab fuel drd_usable TAB usable_keeps np ni no l t first n l' K E). Qed.
Lemma map_domain_rdiv sid np ni no l d : okm np ni no l -> map_domain sid hash no_redundant tab fuel drd np ni no l = Ok d ->
  okm np 0 ni d /\ forall P I, length P = np -> length I = ni -> (relates_any d P [] I <-> exists O, length O = no /\ relates_any l P I O).
Proof. intros K E. unfold map_domain in E. rewrite (map_project_agree np ni no l _ _ _ K) in E. exact (map_domain_ok sid hash no_redundant tab fuel drd_usable TAB usable_keeps np ni no l d K E). Qed.
Lemma map_range_rdiv sid np ni no l d : okm np ni no l -> map_range sid hash no_redundant tab fuel drd np ni no l = Ok d ->
  okm np 0 no d /\ forall P O, length P = np -> length O = no -> (relates_any d P [] O <-> exists I, length I = ni /\ relates_any l P I O).
Proof. intros K E. unfold map_range in E. rewrite (map_project_agree np ni no l _ _ _ K) in E. exact (map_range_ok sid hash no_redundant tab fuel drd_usable TAB usable_keeps np ni no l d K E). Qed.
End Drop.
