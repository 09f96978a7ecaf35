(** C30: simplification in a context. *)
From Coq Require Import ZArith List Bool Arith Lia.
From Verif Require Import SeqSpec MatModel BMapModel BMapSpec BMapSem BElimModel BElimSpec SimpModel SetModel SetBase SetSpec SetLift SetOps SubModel SubSpec GistModel GistSpec GistComp GistSet GistBasic GistMap.
From Verif Require Import BMapGauss PropsBElim.
From Verif Require PropsSet PropsSub.
Import ListNotations.
Open Scope Z_scope.

(** C30: the gist of a set without local variables has the same points as the
    set inside the context.  If the set does not depend on the last variables,
    then neither does the result. *)
Theorem C30_uset_gist_partial hash no_redundant tab fuel is_empty gist_tab detect n k s ctx s' v0 :
  sound_tab tab -> sound_emptiness_test is_empty -> sound_gist_tab gist_tab -> sound_detection detect ->
  flat n s -> emptied s -> (forall c, (k <= c < n)%nat -> absent c s) -> flat n ctx -> at_point n v0 -> sat ctx v0 ->
  uset_gist hash no_redundant tab fuel is_empty gist_tab detect s ctx = Ok s' ->
  flat n s' /\
  (forall v v', at_point n v -> at_point n v' -> firstn (1 + k) v = firstn (1 + k) v' -> (sat s' v <-> sat s' v')) /\
  forall v, at_point n v -> sat ctx v -> (sat s v <-> sat s' v).
Proof. intros H1 H2 H3 H4 H5 H6 H7. exact (uset_gist_ok hash no_redundant tab fuel H1 is_empty H2 gist_tab H3 detect H4 n k s ctx s' v0 H5 H6 (fun c Hc => proj1 (absent_zcol c s) (H7 c Hc))). Qed.

(** a tableau that does not know anything, a test that does not find anything *)
Definition no_gist_tab (b : bmap) (f : nat) : bool * list kind := (false, []).
Example no_gist_tab_sound : sound_gist_tab no_gist_tab.
Proof.
  assert (N : forall i, nth i ([] : list kind) Other = Other) by (intros [|i]; reflexivity).
  intros n b f _ _ Hf. cbn [fst snd no_gist_tab]. split; [intros i _; rewrite N; discriminate|]. intros v _. split; [intros _ i _ E; rewrite N in E; discriminate E|]. split; [|intros _ _ _ i _ E; rewrite N in E; discriminate E].
  intros _ H1 H2. apply (Forall_nth_iff (nonneg_on v) _ []). intros i Hi. destruct (Nat.lt_ge_cases i f) as [C|C].
  - pose proof (proj1 (Forall_nth_iff (nonneg_on v) (firstn f (b_ineq b)) []) H1 i) as H. rewrite firstn_length in H. specialize (H ltac:(lia)). rewrite GistFull.nth_firstn_lt in H by exact C. exact H.
  - specialize (H2 i (conj C Hi)). rewrite N in H2. exact H2.
Qed.
Example never_empty_sound : sound_emptiness_test (fun _ => false).
Proof. intros n b _ E. discriminate E. Qed.
Example no_detection_sound : sound_detection (fun b => Ok b).
Proof. intros n b b' F [= <-]. split; [exact F|]. split; [auto|]. split; [tauto|auto]. Qed.
(** x >= 0, y >= 0 in the context x >= 1, x + y >= 0 *)
Definition ex_s : bmap := mkb 0 0 2 [] [[0; 1; 0]; [0; 0; 1]] [] false false false.
Definition ex_c : bmap := mkb 0 0 2 [] [[-1; 1; 0]; [0; 1; 1]] [] false false false.
Example ex_s_flat : flat 2 ex_s.
Proof. split; [|split; repeat split]. split; [repeat split; repeat constructor|]. split; [exists (fun _ => O); intros k j Hk; cbv in Hk; lia|]. split; [constructor|]. split; [intros v _ _ _ k Hk; cbv in Hk; lia|]. split; [reflexivity|intros E; discriminate E]. Qed.
Example ex_c_flat : flat 2 ex_c.
Proof. split; [|split; repeat split]. split; [repeat split; repeat constructor|]. split; [exists (fun _ => O); intros k j Hk; cbv in Hk; lia|]. split; [constructor|]. split; [intros v _ _ _ k Hk; cbv in Hk; lia|]. split; [reflexivity|intros E; discriminate E]. Qed.
Example ex_c_point : at_point 2 [1; 3; 4] /\ sat ex_c [1; 3; 4].
Proof. split; [split; reflexivity|]. split; repeat constructor; cbv; discriminate. Qed.
Example ex_gist : uset_gist (fun _ => O) (fun _ => false) no_tab 5 (fun _ => false) no_gist_tab (fun b => Ok b) ex_s ex_c = Ok (mkb 0 0 2 [] [[0; 0; 1]] [] false false false).
Proof. vm_compute. reflexivity. Qed.
(** x >= 3 in the context x = 2 y *)
Definition ex_s2 : bmap := mkb 0 0 2 [] [[-3; 1; 0]] [] false false false.
Definition ex_c2 : bmap := mkb 0 0 2 [[0; 1; -2]] [] [] false false false.
Example ex_gist2 : uset_gist (fun _ => O) (fun _ => false) no_tab 5 (fun _ => false) no_gist_tab (fun b => Ok b) ex_s2 ex_c2 = Ok (mkb 0 0 2 [] [[-4; 1; 0]] [] false false false).
Proof. vm_compute. reflexivity. Qed.

(** C30: the gist of a basic map has the same elements as the basic map inside
    the context *)
Theorem C30_basic_map_gist_partial same_ids hash no_redundant tab fuel drop_redundant_divs is_empty gist_tab detect strides np ni no b ctx b' :
  sound_tab tab -> sound_emptiness_test is_empty -> sound_gist_tab gist_tab -> sound_detection detect ->
  (forall b b', proper b -> drop_redundant_divs b = Ok b' -> same b b') -> sound_strides (simp_fin hash no_redundant tab fuel) strides ->
  okb np ni no b -> okb np ni no ctx ->
  basic_map_gist same_ids hash no_redundant tab fuel drop_redundant_divs is_empty gist_tab detect strides b ctx = Ok b' ->
  forall P I O, length P = np -> length I = ni -> length O = no -> relates ctx P I O ->
  okb np ni no b' /\ (relates b' P I O <-> relates b P I O).
Proof. intros H1 H2 H3 H4 H5 H6 H7 H8 E P I O LP LI LO R. exact (basic_gist_ok same_ids hash no_redundant tab fuel H1 is_empty H2 gist_tab H3 detect H4 drop_redundant_divs H5 strides H6 np ni no b ctx b' P I O H7 H8 LP LI LO R E). Qed.
(** C30: the gist of a map in a basic map *)
Theorem C30_map_gist_basic_map_partial same_ids hash no_redundant tab fuel drop_redundant_divs is_empty gist_tab detect strides explicit_divs np ni no l ctx l' :
  sound_tab tab -> sound_emptiness_test is_empty -> sound_gist_tab gist_tab -> sound_detection detect ->
  (forall b b', proper b -> drop_redundant_divs b = Ok b' -> same b b') -> sound_strides (simp_fin hash no_redundant tab fuel) strides -> sound_explicit explicit_divs ->
  Forall (okb np ni no) l -> okb np ni no ctx ->
  map_gist_basic_map same_ids hash no_redundant tab fuel drop_redundant_divs is_empty gist_tab detect strides (map_compute_divs explicit_divs) np ni no l ctx = Ok l' ->
  forall P I O, length P = np -> length I = ni -> length O = no -> relates ctx P I O ->
  Forall (okb np ni no) l' /\ (relates_any l' P I O <-> relates_any l P I O).
Proof. intros H1 H2 H3 H4 H5 H6 H9 H7 H8 E P I O LP LI LO R. exact (map_gist_basic_ok same_ids hash no_redundant tab fuel H1 is_empty H2 gist_tab H3 detect H4 drop_redundant_divs H5 strides H6 _ (divs_sound explicit_divs H9) np ni no l ctx l' P I O H7 H8 LP LI LO R E). Qed.
(** C30: isl_map_gist.  The intersection of the gist with the context is the
    intersection of the map with the context. *)
Theorem C30_map_gist_partial same_ids hash no_redundant tab fuel drop_redundant_divs is_empty gist_tab detect strides explicit_divs
  qsort no_sample emp red kinds steps simple_hull unshifted_hull np ni no l ctx l' :
  sound_tab tab -> sound_emptiness_test is_empty -> sound_gist_tab gist_tab -> sound_detection detect ->
  (forall b b', proper b -> drop_redundant_divs b = Ok b' -> same b b') -> sound_strides (simp_fin hash no_redundant tab fuel) strides -> sound_explicit explicit_divs ->
  PropsSet.permutes qsort -> sound_emptiness emp -> sound_redundancy red -> sound_kinds kinds -> sound_sample no_sample -> complete_sample no_sample ->
  sound_hull simple_hull -> (forall ll, sound_hull (fun c => unshifted_hull c ll)) ->
  Forall (okb np ni no) l -> Forall ordered l -> Forall (okb np ni no) ctx ->
  map_gist same_ids hash no_redundant tab fuel drop_redundant_divs is_empty gist_tab detect strides (map_compute_divs explicit_divs) (map_plain_equal no_redundant tab qsort)
    (map_is_subset hash no_redundant tab fuel no_sample emp red kinds explicit_divs steps) simple_hull unshifted_hull np ni no l ctx = Ok l' ->
  forall P I O, length P = np -> length I = ni -> length O = no ->
  (relates_any l' P I O /\ relates_any ctx P I O <-> relates_any l P I O /\ relates_any ctx P I O).
Proof.
  intros H1 H2 H3 H4 H5 H6 H9 HP HE HR HK HS HC HH HU H7 HO H8 E P I O LP LI LO.
  exact (map_gist_meet same_ids hash no_redundant tab fuel H1 is_empty H2 gist_tab H3 detect H4 drop_redundant_divs H5 strides H6 _ (divs_sound explicit_divs H9) _ _ _ _
    (equal_sound hash no_redundant tab qsort H1 HP) (subset_sound hash no_redundant tab fuel no_sample emp red kinds explicit_divs steps H1 HE HR HK HS HC H9) HH HU np ni no l ctx l' P I O H7 HO H8 LP LI LO E).
Qed.
(** what the remaining arguments can be *)
Example same_strides_sound f : sound_strides f (fun b _ => Ok b).
Proof. intros np ni no b ctx b' P S _ _ _ [= <-]. split; [exact P|]. split; [exact S|]. split; [auto|tauto]. Qed.
Definition some_hull (l : list bmap) : res bmap := match l with [] => Null | [b] => Ok b | b :: _ => Ok (fresh_map (b_param b) (b_in b) (b_out b)) end.
Example some_hull_sound : sound_hull some_hull.
Proof.
  intros np ni no [|b [|c l]] h F; [discriminate| |]; intros [= <-]; inversion F as [|? ? K _]; subst.
  - split; [exact K|]. intros P I O _ _ _ (x & [<-|[]] & R). exact R.
  - destruct K as (_ & (Z1 & Z2 & Z3)). rewrite Z1, Z2, Z3. split; [apply (fresh_relates np ni no (repeat 0 np) (repeat 0 ni) (repeat 0 no)); apply repeat_length|]. intros P I O LP LI LO _. apply fresh_relates; assumption.
Qed.
(** { [x] : x >= 0 and x even } in the context { [x] : x even and x <= 20 } *)
Definition ex_b : bmap := mkb 0 0 1 [[0; 1; -2]] [[0; 1; 0]] [[2; 0; 1; 0]] false false false.
Definition ex_ctx : bmap := mkb 0 0 1 [[0; 1; -2]] [[20; -1; 0]] [[2; 0; 1; 0]] false false false.
Lemma ex_even q : okb 0 0 1 (mkb 0 0 1 [[0; 1; -2]] q [[2; 0; 1; 0]] false false false) \/ ~ Forall (fun r => length r = 3%nat) q.
Proof.
  destruct (Forall_dec (fun r : row => length r = 3%nat) ltac:(intros r; apply Nat.eq_dec) q) as [Q|Q]; [left|right; exact Q]. split; [|repeat split]. split; [repeat split; try (repeat constructor; fail); exact Q|]. split.
  { exists (fun k => k). intros k j Hk Hj _ HN. cbv [ndiv b_div length] in Hk, Hj. assert (k = 0%nat) by lia. assert (j = 0%nat) by lia. subst. exfalso. apply HN. reflexivity. }
  split; [repeat constructor; cbn; lia|]. split; [|split; [reflexivity|intros C; discriminate C]].
  intros v Lv Hv (E & _) k Hk. cbn [b_div length] in Hk. assert (k = 0%nat) by lia. subst k. destruct v as [|a [|x [|y [|]]]]; try discriminate Lv. cbn in Hv. subst a. inversion E as [|? ? E1 _]; subst. unfold zero_on, division in *. cbn -[Z.mul Z.add] in *. lia.
Qed.
Example ex_b_ok : okb 0 0 1 ex_b.
Proof. destruct (ex_even [[0; 1; 0]]) as [K|K]; [exact K|]. exfalso. apply K. repeat constructor. Qed.
Example ex_ctx_ok : okb 0 0 1 ex_ctx.
Proof. destruct (ex_even [[20; -1; 0]]) as [K|K]; [exact K|]. exfalso. apply K. repeat constructor. Qed.
Example ex_ctx_relates : relates ex_ctx [] [] [8].
Proof. apply (points_described ex_ctx (1 :: [] ++ [] ++ [8])); [apply ex_ctx_ok|reflexivity|reflexivity|]. exists [4]. split; [reflexivity|]. split; repeat constructor; cbv; discriminate. Qed.
Example ex_basic_gist : basic_map_gist (fun _ => true) (fun _ => O) (fun _ => false) no_tab 20 (fun b => Ok b) (fun _ => false) no_gist_tab (fun b => Ok b) (fun b _ => Ok b) ex_b ex_ctx = Ok (mkb 0 0 1 [] [[0; 1]] [] false false false).
Proof. vm_compute. reflexivity. Qed.
(** { [x] : x >= 0 and x even or x = 6 } in this context *)
Definition ex_six : bmap := mkb 0 0 1 [[-6; 1]] [] [] false false false.
Example ex_map_gist : map_gist (fun _ => true) (fun _ => O) (fun _ => false) no_tab 20 (fun b => Ok b) (fun _ => false) no_gist_tab (fun b => Ok b) (fun b _ => Ok b) (map_compute_divs PropsSub.no_explicit)
  (map_plain_equal (fun _ => false) no_tab (fun l => l)) (map_is_subset (fun _ => O) (fun _ => false) no_tab 20 (fun _ => false) PropsSub.no_emp PropsSub.no_red PropsSub.no_kinds PropsSub.no_explicit 50)
  some_hull (fun l _ => some_hull l) 0 0 1 [ex_b; ex_six] [ex_ctx] = Ok [mkb 0 0 1 [] [[0; 1]] [] false false false; ex_six].
Proof. vm_compute. reflexivity. Qed.
(** C30 (refuted): a result that is marked empty has no elements according to
    its constraints either.  If the tableau finds that the context is empty,
    then the context is replaced by the constraint 1 = 0 and marked empty.  This
    constraint is dropped because it does not involve the variables of the set,
    but the mark is kept and ends up in the result.  Here the set is
    { [x, y] : x >= 5 } and the context is { [x, y] : 1 <= y <= 0 }.  The result
    is at the same time marked empty and the universe according to
    isl_basic_set_plain_is_universe. *)
Definition ex_tab (b : bmap) : bool * list kind :=
  (if list_eq_dec (list_eq_dec Z.eq_dec) (b_ineq b) [[-1; 0; 1]; [0; 0; -1]] then true else false, []).
Example ex_tab_sound : sound_tab ex_tab.
Proof.
  intros b W E v Lv A. pose proof (no_tab_sound b W E v Lv A) as N. unfold ex_tab. cbn [fst snd no_tab] in *. destruct (list_eq_dec _ _ _) as [Q|Q]; [|exact N]. intros (_ & S). rewrite Q in S. inversion S as [|? ? S1 S2]; subst. inversion S2 as [|? ? S3 _]; subst.
  destruct W as (_ & W & _). rewrite Q in W. inversion W as [|? ? W1 _]; subst. cbn [length] in W1. rewrite <- W1 in Lv. destruct v as [|a [|x [|y [|]]]]; try discriminate Lv. unfold nonneg_on in *. cbn -[Z.mul Z.add] in S1, S3. unfold admissible in A. cbn in A. destruct (b_rat b); lia.
Qed.
Theorem C30_basic_map_gist_marked_refuted :
  exists tab is_empty gist_tab detect drop_redundant_divs strides b ctx b',
  sound_tab tab /\ sound_emptiness_test is_empty /\ sound_gist_tab gist_tab /\ sound_detection detect /\
  (forall b b', proper b -> drop_redundant_divs b = Ok b' -> same b b') /\ sound_strides (simp_fin (fun _ => O) (fun _ => false) tab 20) strides /\
  okb 0 0 2 b /\ okb 0 0 2 ctx /\
  basic_map_gist (fun _ => true) (fun _ => O) (fun _ => false) tab 20 drop_redundant_divs is_empty gist_tab detect strides b ctx = Ok b' /\
  b_empty b' = true /\ plain_universe b' = true.
Proof.
  exists ex_tab, (fun _ => false), no_gist_tab, (fun b => Ok b), (fun b => Ok b), (fun b _ => Ok b), (mkb 0 0 2 [] [[-5; 1; 0]] [] false false false), (mkb 0 0 2 [] [[-1; 0; 1]; [0; 0; -1]] [] false false false), (mkb 0 0 2 [] [] [] false true false).
  split; [exact ex_tab_sound|]. split; [exact never_empty_sound|]. split; [exact no_gist_tab_sound|]. split; [exact no_detection_sound|]. split; [intros b b' P [= <-]; apply same_refl; exact P|]. split; [apply same_strides_sound|].
  split; [PropsSet.plain|]. split; [PropsSet.plain|]. split; [vm_compute; reflexivity|]. split; reflexivity.
Qed.

Print Assumptions C30_uset_gist_partial.
Print Assumptions C30_basic_map_gist_partial.
Print Assumptions C30_basic_map_gist_marked_refuted.
Print Assumptions C30_map_gist_basic_map_partial.
Print Assumptions C30_map_gist_partial.
