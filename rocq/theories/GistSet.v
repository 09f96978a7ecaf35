From Coq Require Import ZArith List Bool Arith Lia Permutation ZifyBool.
From Verif Require Import MatSpec MatTheory MatProofs EqModel EqSpec EqProofs BMapGauss SeqModel SeqSpec SeqProofs MatModel SortModel BMapModel BMapSpec BMapSem BMapLists BMapGauss2 BDupModel BDupProofs LocalModel BElimModel BElimSpec BElimCols BElimProofs BElimVars SimpModel SimpSpec SimpBase SimpFinal SetModel SetSpec SetBase SetLift SetOps SetOps3 SetMaps SubModel SubDisj GistModel GistSpec GistFlat GistFull GistUset GistComp.
Import ListNotations.
Open Scope Z_scope.
Open Scope Z_scope.

Lemma absent_zcol c b : absent c b <-> zcol c b.
Proof.
  unfold absent, zcol, zrow. rewrite !Forall_forall. split; [intros H; split; intros r Hr; apply H; auto|intros [A B] r [Hr|Hr]; auto].
Qed.
Lemma add_nodiv b1 b2 : b_div b1 = [] -> b_div b2 = [] -> b_div (add_constraints_at b1 b2) = [].
Proof. intros D1 D2. unfold add_constraints_at, add_mapped, ReorderModel.add_constraints, pad_map. cbn. rewrite D1, D2. reflexivity. Qed.
Lemma flat_relates n b O : flat n b -> length O = n -> (relates b [] [] O <-> sat b (1 :: O)).
Proof. intros F L. unfold relates. cbn [app]. apply (flat_points n b (1 :: O) F). split; [cbn; lia|reflexivity]. Qed.
Lemma at_point_cons n v : at_point n v -> exists O, v = 1 :: O /\ length O = n.
Proof. intros [L H]. destruct v as [|x v]; [discriminate L|]. cbn in *. subst x. exists v. split; [reflexivity|lia]. Qed.
Lemma hull_flat n b : flat n b -> emptied b -> flat n (plain_affine_hull b) /\ b_empty (plain_affine_hull b) = b_empty b /\ b_eq (plain_affine_hull b) = b_eq b /\ b_ineq (plain_affine_hull b) = [].
Proof.
  intros F EB. destruct (flat_nvar n b F) as (NV & ND & TT). pose proof F as (P & SZ & D). unfold plain_affine_hull. rewrite (nodiv_finalize (set_ineq b []) D). split; [|auto].
  apply flat_intro; [|exact SZ|exact D|apply P|].
  - destruct P as ((W1 & W2 & W3) & _). split; [exact W1|]. split; [constructor|exact W3].
  - intros E v Lv Hv SV. assert (Hn : honest b) by apply P. apply (Hn E v Lv Hv). destruct SV as [A _]. split; [exact A|]. rewrite (EB E). constructor.
Qed.

Section Params.
Variable hash : row -> nat.
Variable no_redundant : bmap -> bool.
Variable tab : bmap -> bool * list kind.
Variable fuel : nat.
Hypothesis TAB : sound_tab tab.
Variable is_empty : bmap -> bool.
Hypothesis EMPTY : sound_emptiness_test is_empty.
Variable gist_tab : bmap -> nat -> bool * list kind.
Hypothesis GTAB : sound_gist_tab gist_tab.
Variable detect : bmap -> res bmap.
Hypothesis DETECT : sound_detection detect.

Lemma intersect_flat n b1 b2 b' : flat n b1 -> flat n b2 -> b_empty b2 = false -> intersect hash no_redundant tab fuel b1 b2 = Ok b' ->
  flat n b' /\ (forall v, at_point n v -> (sat b' v <-> sat b1 v /\ sat b2 v)) /\ (b_empty b1 = true -> b' = b1).
Proof.
  intros F1 F2 E2 E. pose proof F1 as (P1 & S1 & D1). pose proof F2 as (P2 & S2 & D2). destruct (intersect_ok no_redundant hash no_redundant tab fuel TAB b1 b2 b' 0 0 n (conj P1 S1) (conj P2 S2) E) as [[P' S'] Q].
  assert (DIV : b_div b' = [] /\ (b_empty b1 = true -> b' = b1)).
  { destruct S1 as (A1 & A2 & A3), S2 as (B1 & B2 & B3). unfold intersect in E. rewrite A1, A2, A3, B1, B2, B3 in E. cbn [Nat.eqb negb Nat.add] in E. replace (Nat.eqb n 0 && negb (Nat.eqb n 0)) with false in E by (destruct (Nat.eqb n 0); reflexivity).
    unfold intersect_ordered in E. rewrite A2, A3, B2, B3 in E. cbn [Nat.eqb andb negb] in E. rewrite Nat.eqb_refl in E. cbn [negb] in E. rewrite andb_false_r in E. rewrite E2 in E. destruct (b_empty b1); [injection E as <-; auto|]. split; [|discriminate].
    unfold simp_fin in E. destruct (simplify _ _ _ _ _) as [b0| | |] eqn:ES; cbn [bind] in E; try discriminate E. injection E as <-. apply simplify_nodiv in ES; [rewrite (nodiv_finalize b0 ES); exact ES|apply add_nodiv; assumption]. }
  assert (F' : flat n b') by (split; [exact P'|]; split; [exact S'|apply DIV]). split; [exact F'|]. split; [|apply DIV]. intros v Av. destruct (at_point_cons n v Av) as (O & -> & LO). rewrite <- (flat_relates n b' O F' LO), <- (flat_relates n b1 O F1 LO), <- (flat_relates n b2 O F2 LO). apply Q; auto.
Qed.

Lemma uset_gist_ok n k s ctx s' v0 : flat n s -> emptied s -> (forall c, (k <= c < n)%nat -> zcol c s) -> flat n ctx -> at_point n v0 -> sat ctx v0 ->
  uset_gist hash no_redundant tab fuel is_empty gist_tab detect s ctx = Ok s' ->
  flat n s' /\ depends n k s' /\ forall v, at_point n v -> sat ctx v -> (sat s v <-> sat s' v).
Proof.
  intros F EB ZS FC A0 S0. unfold uset_gist. cbv zeta. rewrite (proj2 (proj2 (flat_nvar n s F))).
  destruct (drop_irrelevant ctx s) as [ctx1| | |] eqn:ED; cbn [bind]; try discriminate. unfold drop_irrelevant in ED. apply drop_unrelated_constraints_sub in ED. destruct (sub_rows_flat n ctx ctx1 FC (flat_nonempty n ctx v0 FC A0 S0) ED) as (FC1 & EC1 & SC1 & _). clear ED.
  destruct (detect s) as [s1| | |] eqn:E1; cbn [bind]; try discriminate. destruct (DETECT n s s1 F E1) as (F1 & EB1 & Q1 & Z1). specialize (EB1 EB).
  assert (ZS1 : forall c, (k <= c < n)%nat -> zcol c s1) by (intros c Hc; apply absent_zcol, Z1; [lia|]; apply absent_zcol, ZS, Hc). clear Z1 E1.
  destruct (detect ctx1) as [ctx2| | |] eqn:E2; cbn [bind]; try discriminate. destruct (DETECT n ctx1 ctx2 FC1 E2) as (FC2 & _ & Q2 & _). clear E2.
  assert (SC2 : forall v, at_point n v -> sat ctx v -> sat ctx2 v) by (intros v Av Sv; apply (Q2 v Av), SC1, Sv). pose proof (flat_nonempty n ctx2 v0 FC2 A0 (SC2 v0 A0 S0)) as EC2.
  destruct (hull_flat n s1 F1 EB1) as (FH1 & EH1 & HE1 & HI1). destruct (hull_flat n ctx2 FC2 (fun C => ltac:(congruence))) as (FH2 & EH2 & HE2 & HI2).
  destruct (intersect hash no_redundant tab fuel (plain_affine_hull s1) (plain_affine_hull ctx2)) as [aff| | |] eqn:EA; cbn [bind]; try discriminate.
  destruct (intersect_flat n _ _ aff FH1 FH2 ltac:(congruence) EA) as (FA & QA & FLA). clear EA.
  assert (QA' : forall v, at_point n v -> (sat aff v <-> Forall (zero_on v) (b_eq s1) /\ Forall (zero_on v) (b_eq ctx2))).
  { intros v Av. rewrite (QA v Av). unfold sat, system. rewrite HE1, HE2, HI1, HI2. intuition constructor. }
  destruct (b_empty aff) eqn:EAF.
  { intros [= <-]. assert (NA : forall v, at_point n v -> ~ sat aff v). { intros v Av SV. rewrite (flat_nonempty n aff v FA Av SV) in EAF. discriminate EAF. }
    split; [exact FA|]. split; [apply depends_none; exact NA|]. intros v Av SV. split; [|intros H; destruct (NA v Av H)]. intros H. exfalso. apply (NA v Av). apply (QA' v Av). split; [apply (Q1 v Av), H|apply (SC2 v Av SV)]. }
  assert (ES1 : b_empty s1 = false). { destruct (b_empty s1) eqn:E; [|reflexivity]. rewrite (FLA ltac:(congruence)) in EAF. congruence. }
  destruct (sort_constraints s1) as [s2| | |] eqn:ESO; cbn [bind]; try discriminate. destruct (sort_flat n s1 s2 F1 ESO) as (F2 & QS & ZK & HQ).
  assert (ES2 : b_empty s2 = false). { rewrite (sort_constraints_flag s1 s2 ESO). exact ES1. }
  assert (ZS2 : forall c, (k <= c < n)%nat -> zcol c s2) by (intros c Hc; apply ZK, ZS1, Hc). clear ZK ESO.
  assert (EB2 : emptied s2) by (intros C; congruence).
  destruct (Nat.eqb_spec (length (b_eq aff)) 0) as [LA|LA].
  { intros EU. unfold uset_gist_uncompressed in EU. destruct (full_ok hash is_empty EMPTY gist_tab GTAB n n s2 (b_ineq s2) ctx2 s' F2 EB2 FC2 EC2 (proj2 (flat_wf n s2 F2)) eq_refl EU) as (F3 & _ & Z3 & _ & R3).
    split; [exact F3|]. split; [apply zcol_depends; [exact F3|]; intros c Hc; apply Z3, ZS2, Hc|]. intros v Av SV. rewrite (Q1 v Av), (QS v Av). apply (R3 v v). split; [exact Av|]. split; [exact Av|]. split; [apply SC2; assumption|]. intros i Hi. exists 1. split; [lia|]. lia. }
  destruct (flat_wf n aff FA) as [RA _]. destruct (variable_compression (length (b_eq aff)) n (b_eq aff)) as [[[T T2]|]| | |] eqn:EV; cbn [bind]; try discriminate.
  2:{ intros [= <-]. replace (b_out s2) with n by (symmetry; apply F2). destruct (empty_set_flat n) as (FE & NE & _). split; [exact FE|]. split; [apply depends_none; exact NE|]. intros v Av SV. split; [|intros H; destruct (NE v Av H)]. intros H. exfalso. apply (compression_none n (b_eq aff) RA EV v Av). apply (QA' v Av). split; [apply (Q1 v Av), H|apply (SC2 v Av SV)]. }
  destruct (detect ctx2) as [hl| | |] eqn:E3; cbn [bind]; try discriminate. destruct (DETECT n ctx2 hl FC2 E3) as (FHL & _ & QH & _). clear E3.
  assert (SH : forall v, at_point n v -> sat ctx v -> sat hl v) by (intros v Av Sv; apply (QH v Av), SC2; assumption). pose proof (flat_nonempty n hl v0 FHL A0 (SH v0 A0 S0)) as EHL. destruct (hull_flat n hl FHL (fun C => ltac:(congruence))) as (FH3 & EH3 & HE3 & HI3).
  assert (SH3 : forall v, at_point n v -> sat ctx v -> sat (plain_affine_hull hl) v). { intros v Av Sv. unfold sat, system. rewrite HE3, HI3. split; [apply (SH v Av Sv)|constructor]. }
  unfold project_onto_involved. replace (b_out s2) with n by (symmetry; apply F2). destruct (project_loop hash no_redundant tab n 0 (plain_affine_hull hl) s2) as [affc| | |] eqn:EP; cbn [bind]; try discriminate.
  destruct (project_ok hash no_redundant tab TAB n s2 v0 A0 n 0 _ affc (le_n _) FH3 (SH3 v0 A0 S0) EP) as (FAC & QAC & _ & ZAC).
  destruct (uset_gist_compressed hash no_redundant tab fuel is_empty gist_tab s2 ctx2 T (n - length (b_eq aff))) as [s3| | |] eqn:EC; cbn [bind]; try discriminate.
  destruct (compressed_ok hash no_redundant tab fuel TAB is_empty EMPTY gist_tab GTAB n s2 ctx2 T _ s3 F2 EB2 FC2 EC2 EC) as (F3 & PE3 & Z3 & V3 & R3). intros ER.
  destruct (reduce_ok hash no_redundant tab fuel TAB n k s3 affc s' F3 (PE3 ES2) FAC) as (F4 & D4 & R4); [intros c Hc; apply Z3, ZS2, Hc|intros c Hc; apply ZAC; [apply ZS2; exact Hc|lia]|exact ER|].
  split; [exact F4|]. split; [exact D4|]. intros v Av SV. rewrite (Q1 v Av), (QS v Av). rewrite <- (R4 v Av (QAC v Av (SH3 v Av SV))).
  assert (IMG : Forall (zero_on v) (b_eq s2) -> exists w, image n (n - length (b_eq aff)) T v w).
  { intros Z. apply (compression_image n (b_eq aff) T T2 RA EV v Av). apply (QA' v Av). rewrite <- HQ. split; [exact Z|apply (SC2 v Av SV)]. }
  split.
  - intros SS. destruct (IMG (proj1 SS)) as (w & IM). apply (R3 v w IM (SC2 v Av SV)). exact SS.
  - intros SS. destruct (IMG (V3 v Av SS)) as (w & IM). apply (R3 v w IM (SC2 v Av SV)). exact SS.
Qed.
End Params.
