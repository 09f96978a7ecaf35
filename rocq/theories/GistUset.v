From Coq Require Import ZArith List Bool Arith Lia Permutation ZifyBool.
From Verif Require Import MatSpec MatTheory MatProofs EqModel EqSpec EqProofs BMapGauss SeqModel SeqSpec SeqProofs MatModel SortModel BMapModel BMapSpec BMapSem BMapLists BMapGauss2 BDupModel BDupProofs LocalModel BElimModel BElimSpec BElimCols BElimProofs BElimVars SimpModel SimpSpec SimpBase SimpFinal SetModel SetSpec SetBase SetLift SetOps SetOps3 SetMaps SubModel SubDisj GistModel GistSpec GistFlat GistFull.
Import ListNotations.
Open Scope Z_scope.

Section Params.
Variable hash : row -> nat.
Variable is_empty : bmap -> bool.
Hypothesis EMPTY : sound_emptiness_test is_empty.
Variable gist_tab : bmap -> nat -> bool * list kind.
Hypothesis GTAB : sound_gist_tab gist_tab.

(** ** removing the inequalities that follow from the context *)
Definition related_points (n m : nat) (s : bmap) (ineq : list row) (ctx : bmap) (v w : list Z) : Prop :=
  at_point n v /\ at_point m w /\ sat ctx w /\ forall i, (i < length ineq)%nat -> exists g, 0 < g /\ dot (nth i (b_ineq s) []) v = g * dot (nth i ineq []) w.
Lemma full_ok n m s ineq ctx s' : flat n s -> emptied s -> flat m ctx -> b_empty ctx = false -> rows_of (1 + m) ineq -> length ineq = length (b_ineq s) ->
  uset_gist_full hash is_empty gist_tab s ineq ctx = Ok s' ->
  flat n s' /\ (b_empty s = false -> plainly_empty n s') /\ (forall c, zcol c s -> zcol c s') /\ (forall v, at_point n v -> sat s' v -> Forall (zero_on v) (b_eq s)) /\
  forall v w, related_points n m s ineq ctx v w -> (sat s v <-> sat s' v).
Proof.
  intros F EB FC EC RI LI. unfold uset_gist_full.
  assert (TRIV : flat n s /\ (b_empty s = false -> plainly_empty n s) /\ (forall c, zcol c s -> zcol c s) /\ (forall v, at_point n v -> sat s v -> Forall (zero_on v) (b_eq s)) /\ forall v w, related_points n m s ineq ctx v w -> (sat s v <-> sat s v)).
  { split; [exact F|]. split; [intros E0 E1; congruence|]. split; [auto|]. split; [intros v _ H; apply H|intros; reflexivity]. }
  destruct (Nat.eqb_spec (length (b_ineq s)) 0) as [L0|L0]; [intros [= <-]; exact TRIV|]. cbn [orb]. destruct (plain_universe ctx); [intros [= <-]; exact TRIV|]. clear TRIV.
  assert (ES : b_empty s = false). { destruct (b_empty s) eqn:E; [|reflexivity]. rewrite (EB E) in L0. cbn in L0. lia. }
  destruct (mark_shifted hash ineq ctx) as [mk| | |] eqn:EM; cbn [bind]; try discriminate. destruct (mark_shifted_ok hash (1 + m) ineq ctx mk (proj2 (flat_wf m ctx FC)) RI EM) as [LM SH].
  (* without tableau *)
  assert (NOTAB : forall (pre : list row) s', update_ineq s (number_rows (length pre) mk) None = Ok s' -> flat n s' /\ (b_empty s = false -> plainly_empty n s') /\ (forall c, zcol c s -> zcol c s') /\ (forall v, at_point n v -> sat s' v -> Forall (zero_on v) (b_eq s)) /\ forall v w, related_points n m s ineq ctx v w -> (sat s v <-> sat s' v)).
  { intros pre s1 E. destruct (update_ineq_flat n s _ None s1 F ES E) as (F1 & PE1 & Z1 & Q1). split; [exact F1|]. split; [intros _; exact PE1|]. split; [exact Z1|]. split; [intros v Av S; apply (Q1 v Av) in S; apply S|].
    intros v w (Av & Aw & SC & G). rewrite (Q1 v Av). unfold sat, system. split.
    - intros [A B]. split; [exact A|]. intros i Hi. rewrite (nth_indep _ Other (row_kind None None)) by (rewrite map_length, number_length; lia). rewrite map_nth. destruct (nth i (number_rows (length pre) mk) None) as [r|]; cbn [row_kind]; [|exact I]. apply (proj1 (Forall_nth_iff _ _ []) B i Hi).
    - intros [A B]. split; [exact A|]. apply (Forall_nth_iff _ _ []). intros i Hi. specialize (B i Hi). rewrite (nth_indep _ Other (row_kind None None)) in B by (rewrite map_length, number_length; lia). rewrite map_nth in B. pose proof (number_kept ineq mk pre LM i ltac:(lia)) as NK. destruct (nth i (number_rows (length pre) mk) None) as [r|]; cbn [row_kind] in B; [exact B|].
      pose proof (shadowed_ok _ _ m w (SH i NK) Aw (proj2 SC)) as NN. destruct (G i ltac:(lia)) as (g & Hg & Eg). unfold nonneg_on in *. rewrite Eg. nia. }
  destruct (forallb _ mk); [intros E; exact (NOTAB (b_ineq ctx) s' E)|].
  destruct (drop_irrelevant_marked ctx ineq mk) as [ctx1| | |] eqn:ED; cbn [bind]; try discriminate. unfold drop_irrelevant_marked in ED. apply drop_unrelated_constraints_sub in ED. destruct (sub_rows_flat m ctx ctx1 FC EC ED) as (F1 & E1 & S1 & _).
  destruct (plain_universe ctx1); [intros E; exact (NOTAB (b_ineq ctx1) s' E)|]. clear NOTAB.
  set (rows := number_rows (length (b_ineq ctx1)) mk). set (comb := set_ineq ctx1 (b_ineq ctx1 ++ kept ineq mk)). set (f := length (b_ineq ctx1)) in *.
  assert (FCB : flat m comb).
  { destruct F1 as (P & SZ & D). apply flat_intro; [|exact SZ|exact D|apply P|intros C; cbn in C; congruence]. destruct (flat_nvar m ctx1 (conj P (conj SZ D))) as (_ & _ & T). destruct P as ((W1 & W2 & W3) & _). split; [exact W1|]. split; [|exact W3]. cbn [comb set_ineq b_ineq]. change (BMapModel.total comb) with (BMapModel.total ctx1).
    apply Forall_app. split; [exact W2|]. apply Forall_forall. intros r Hr. apply kept_in in Hr. unfold rows_of in RI. rewrite Forall_forall in RI. rewrite T. exact (RI r Hr). }
  assert (LC : length (b_ineq comb) = (f + length (kept ineq mk))%nat) by (cbn [comb set_ineq b_ineq]; rewrite app_length; reflexivity).
  pose proof (GTAB m comb f FCB E1 ltac:(lia)) as GT. cbv zeta in GT. destruct (gist_tab comb f) as [e ks0]. cbn [fst snd] in GT. set (ks := map (fun i => nth i ks0 Other) (seq 0 (length (b_ineq comb)))).
  assert (LK : length ks = length (b_ineq comb)) by (unfold ks; rewrite map_length, seq_length; reflexivity).
  assert (NK : forall i, (i < length (b_ineq comb))%nat -> nth i ks Other = nth i ks0 Other).
  { intros i Hi. unfold ks. rewrite (nth_indep _ Other (nth 0 ks0 Other)) by (rewrite map_length, seq_length; exact Hi). rewrite (map_nth (fun i => nth i ks0 Other)). rewrite seq_nth by exact Hi. reflexivity. }
  destruct (test_loop is_empty (length (b_ineq s)) rows comb e ks) as [ks1| | |] eqn:ET; cbn [bind]; try discriminate. intros EU. destruct (update_ineq_flat n s rows (Some (e, ks1)) s' F ES EU) as (F2 & PE2 & Z2 & Q2).
  split; [exact F2|]. split; [intros _; exact PE2|]. split; [exact Z2|]. split. { intros v Av S. apply (Q2 v Av) in S. destruct e; [contradiction|apply S]. }
  intros v w (Av & Aw & SC & G). rewrite (Q2 v Av).
  assert (CW : sat s v -> sat comb w).
  { intros [A B]. apply S1 in SC. destruct SC as [C1 C2]. split; [exact C1|]. cbn [comb set_ineq b_ineq]. apply Forall_app. split; [exact C2|]. apply Forall_forall. intros r Hr. apply kept_in in Hr. apply (In_nth _ _ []) in Hr. destruct Hr as (i & Hi & <-). destruct (G i Hi) as (g & Hg & Eg).
    pose proof (proj1 (Forall_nth_iff _ _ []) B i ltac:(lia)) as N. unfold nonneg_on in *. rewrite Eg in N. nia. }
  destruct e.
  { split; [|tauto]. intros Sv. apply CW in Sv. destruct GT as [_ GT]. exact (GT w Aw Sv). }
  assert (K0 : gist_known m comb f ks).
  { destruct GT as [G1 G2]. split; [intros i Hi; rewrite NK by lia; apply G1; exact Hi|]. intros x Ax. destruct (G2 x Ax) as (H1 & H2 & H3). split; [|split].
    - intros Sx i Hi Ei. apply H1; [exact Sx|exact Hi|rewrite <- NK by exact Hi; exact Ei].
    - intros A B C. apply H2; [exact A|exact B|]. intros i Hi. rewrite <- NK by lia. apply C. exact Hi.
    - intros A B C i Hi Ei. rewrite NK in Ei by lia. apply H3; [exact A|exact B| |exact Hi|exact Ei]. intros j Hj Ej. apply C; [exact Hj|rewrite NK by lia; exact Ej]. }
  assert (HR : forall i r, nth i rows None = Some r -> (f <= r < length (b_ineq comb))%nat).
  { intros i r Er. destruct (Nat.lt_ge_cases i (length ineq)) as [Hi|Hi]; [|unfold rows in Er; rewrite nth_overflow in Er by (rewrite number_length; lia); discriminate Er]. pose proof (number_kept ineq mk (b_ineq ctx1) LM i Hi) as NKi. fold f in NKi; fold rows in NKi. rewrite Er in NKi. rewrite LC. apply NKi. }
  pose proof (test_loop_ok is_empty EMPTY m comb f rows FCB E1 ltac:(lia) HR _ ks ks1 LK K0 ET) as [K1 K2]. destruct (K2 w Aw) as (H1 & H2 & _).
  assert (KD : forall i, (i < length (b_ineq s))%nat -> nth i (map (row_kind (Some (false, ks1))) rows) Other = row_kind (Some (false, ks1)) (nth i rows None)).
  { intros i Hi. rewrite (nth_indep _ Other (row_kind (Some (false, ks1)) None)) by (unfold rows; rewrite map_length, number_length; lia). apply map_nth. }
  split.
  - intros Sv. pose proof (CW Sv) as Sw. destruct Sv as [A B]. split; [exact A|]. intros i Hi. rewrite (KD i Hi). pose proof (number_kept ineq mk (b_ineq ctx1) LM i ltac:(lia)) as NKi. fold f in NKi; fold rows in NKi. destruct (nth i rows None) as [r|]; cbn [row_kind]; [|exact I].
    pose proof (proj1 (Forall_nth_iff _ _ []) B i Hi) as Bi. destruct (nth r ks1 Other) eqn:Er; [|exact I|exact Bi]. destruct NKi as [Rr Nr]. pose proof (H1 Sw r ltac:(lia) Er) as Z. change (b_ineq comb) with (b_ineq ctx1 ++ kept ineq mk) in Z. rewrite Nr in Z. destruct (G i ltac:(lia)) as (g & Hg & Eg). unfold zero_on in *. rewrite Eg, Z. lia.
  - intros [A B]. split; [exact A|]. destruct (S1 w SC) as [C1 C2].
    assert (ALL : Forall (nonneg_on w) (b_ineq comb)).
    { apply H2; [exact C1| |].
      - cbn [comb set_ineq b_ineq]. unfold f. rewrite firstn_app, Nat.sub_diag, firstn_all, firstn_O, app_nil_r. exact C2.
      - intros r Hr. destruct (number_onto ineq mk f LM r ltac:(lia)) as (i & Hi & Er). fold rows in Er. specialize (B i ltac:(lia)). rewrite (KD i ltac:(lia)), Er in B. cbn [row_kind] in B. pose proof (number_kept ineq mk (b_ineq ctx1) LM i Hi) as NKi. fold f in NKi; fold rows in NKi. rewrite Er in NKi. destruct NKi as [_ Nr].
        change (b_ineq comb) with (b_ineq ctx1 ++ kept ineq mk). rewrite Nr. destruct (G i ltac:(lia)) as (g & Hg & Eg). destruct (nth r ks1 Other); [| |]; unfold zero_on, nonneg_on in *; try exact I; rewrite Eg in B; nia. }
    apply (Forall_nth_iff _ _ []). intros i Hi. destruct (G i ltac:(lia)) as (g & Hg & Eg). pose proof (number_kept ineq mk (b_ineq ctx1) LM i ltac:(lia)) as NKi. fold f in NKi; fold rows in NKi. assert (NN : nonneg_on w (nth i ineq [])).
    { destruct (nth i rows None) as [r|]; [destruct NKi as [Rr <-]; apply (proj1 (Forall_nth_iff _ _ []) ALL r); lia|]. destruct (SH i NKi) as [SHc|SHc]; [apply (shadowed_ok [] _ m w (or_introl SHc) Aw); constructor|]. apply (shadowed_ok (b_ineq ctx) _ m w (or_intror SHc) Aw). exact (proj2 SC). }
    unfold nonneg_on in *. rewrite Eg. nia.
Qed.
End Params.
