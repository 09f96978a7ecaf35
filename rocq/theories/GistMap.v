(** The gist of maps. *)
From Coq Require Import ZArith List Bool Arith Lia.
From Verif Require Import SeqModel SeqSpec MatModel MatTheory BMapLists BMapGauss BMapGauss2 BMapOrder LocalModel BMapModel BMapSpec BMapSem BElimModel BElimSpec SimpModel SimpSpec SetModel SetSpec SetBase SetLift SetOps SetOps3 SetMaps SubModel SubSpec SubBase SubMaps SubProofs GistModel GistSpec GistFlat GistFull GistComp GistSet GistBmap GistBasic.
Import ListNotations.
Open Scope Z_scope.
(** the computation of explicit representations does not change the elements *)
Definition sound_divs (compute_divs : list bmap -> res (list bmap)) : Prop :=
  forall np ni no l l', Forall (okb np ni no) l -> compute_divs l = Ok l' -> Forall (okb np ni no) l' /\
    forall P I O, length P = np -> length I = ni -> length O = no -> (relates_any l' P I O <-> relates_any l P I O).
(** a test only succeeds if the elements of the first map are elements of the second *)
Definition sound_inclusion (test : list bmap -> list bmap -> res bool) : Prop :=
  forall np ni no l l', Forall (okb np ni no) l -> Forall (okb np ni no) l' -> Forall ordered l' -> test l l' = Ok true ->
    forall P I O, length P = np -> length I = ni -> length O = no -> relates_any l P I O -> relates_any l' P I O.
Lemma any_nth d l P I O : relates_any l P I O <-> exists k, (k < length l)%nat /\ relates (nth k l d) P I O.
Proof. split; [intros (b & Hb & R); apply (In_nth _ _ d) in Hb as (k & Hk & <-); exists k; auto|intros (k & Hk & R); exists (nth k l d); split; [apply nth_In; exact Hk|exact R]]. Qed.
Lemma any_lset l k b P I O d : (k < length l)%nat -> (relates b P I O <-> relates (nth k l d) P I O) -> (relates_any (lset l k b) P I O <-> relates_any l P I O).
Proof.
  intros Hk Q. rewrite !(any_nth d), lset_length. split; intros (j & Hj & R); exists j; (split; [exact Hj|]); (destruct (Nat.eq_dec j k) as [->|N]; [rewrite nth_lset_eq in * by exact Hk; apply Q; exact R|rewrite nth_lset_neq in * by exact N; exact R]).
Qed.
Lemma forall_lset (P : bmap -> Prop) l k b : Forall P l -> P b -> Forall P (lset l k b).
Proof. intros F B. revert k. induction F as [|a l A F IH]; intros [|k]; cbn; constructor; auto. Qed.
Lemma last_nth_split (l : list bmap) d : l <> [] -> l = firstn (length l - 1) l ++ [nth (length l - 1) l d].
Proof.
  intros H. destruct (exists_last H) as (l0 & z & ->). rewrite app_length. cbn [length]. replace (length l0 + 1 - 1)%nat with (length l0) by lia. rewrite firstn_app, firstn_all, Nat.sub_diag, app_nth2, Nat.sub_diag by lia. cbn [firstn nth]. rewrite app_nil_r. reflexivity.
Qed.
Section Params.
Variables (sid : bmap -> bool) (hash : row -> nat) (no_redundant : bmap -> bool) (tab : bmap -> bool * list kind) (fuel : nat).
Hypothesis TAB : sound_tab tab.
Variable is_empty : bmap -> bool.
Hypothesis EMPTY : sound_emptiness_test is_empty.
Variable gist_tab : bmap -> nat -> bool * list kind.
Hypothesis GTAB : sound_gist_tab gist_tab.
Variable detect : bmap -> res bmap.
Hypothesis DETECT : sound_detection detect.
Variable drd : bmap -> res bmap.
Hypothesis DRD : forall b b', proper b -> drd b = Ok b' -> same b b'.
Variable strides : bmap -> bmap -> res bmap.
Hypothesis STRIDES : sound_strides (simp_fin hash no_redundant tab fuel) strides.

Lemma gist_loop_ok np ni no ctx P I O : okb np ni no ctx -> length P = np -> length I = ni -> length O = no -> relates ctx P I O ->
  forall i l l', (i <= length l)%nat -> Forall (okb np ni no) l -> gist_loop sid hash no_redundant tab fuel drd is_empty gist_tab detect strides i l ctx = Ok l' ->
  Forall (okb np ni no) l' /\ (relates_any l' P I O <-> relates_any l P I O).
Proof.
  intros KC LP LI LO RC. induction i as [|i IH]; intros l l' Hi F; cbn [gist_loop]; [intros [= <-]; split; [exact F|tauto]|]. set (d := fresh_map 0 0 0).
  destruct (basic_map_gist sid hash no_redundant tab fuel drd is_empty gist_tab detect strides (nth i l d) ctx) as [b| | |] eqn:E; cbn [bind]; try discriminate. cbv zeta.
  assert (Ki : okb np ni no (nth i l d)) by (rewrite Forall_forall in F; apply F, nth_In; lia).
  destruct (basic_gist_ok sid hash no_redundant tab fuel TAB is_empty EMPTY gist_tab GTAB detect DETECT drd DRD strides STRIDES np ni no _ ctx b P I O Ki KC LP LI LO RC E) as (Kb & Q). clear E.
  pose proof (any_lset l i b P I O d ltac:(lia) Q) as Q1. pose proof (forall_lset (okb np ni no) l i b F Kb) as F1. rewrite lset_length. set (l1 := lset l i b) in *. assert (L1 : length l1 = length l) by apply lset_length.
  destruct (b_empty b) eqn:EB.
  - set (l2 := lset l1 i (nth (length l - 1) l1 b)). intros E. assert (L2 : length l2 = length l) by (unfold l2; rewrite lset_length; exact L1).
    assert (NB : ~ relates b P I O) by (intros (C & _); congruence).
    assert (F2 : Forall (okb np ni no) l2) by (apply forall_lset; [exact F1|]; rewrite Forall_forall in F1; apply F1, nth_In; lia).
    destruct (IH (firstn (length l - 1) l2) l') as (F' & Q').
    { rewrite firstn_length, L2. lia. } { rewrite Forall_forall in *. intros y Hy. apply F2. rewrite <- (firstn_skipn (length l - 1) l2). apply in_or_app. left. exact Hy. } { exact E. }
    split; [exact F'|]. rewrite Q', <- Q1, !(any_nth b), firstn_length, L2, L1. split.
    + intros (k & Hk & R). rewrite GistFull.nth_firstn_lt in R by lia. unfold l2 in R. destruct (Nat.eq_dec k i) as [->|N].
      * rewrite nth_lset_eq in R by lia. exists (length l - 1)%nat. split; [lia|exact R].
      * rewrite nth_lset_neq in R by exact N. exists k. split; [lia|exact R].
    + intros (k & Hk & R). assert (N : k <> i). { intros ->. unfold l1 in R. rewrite nth_lset_eq in R by lia. exact (NB R). } destruct (Nat.eq_dec k (length l - 1)) as [->|NK].
      * exists i. split; [lia|]. rewrite GistFull.nth_firstn_lt by lia. unfold l2. rewrite nth_lset_eq by lia. exact R.
      * exists k. split; [lia|]. rewrite GistFull.nth_firstn_lt by lia. unfold l2. rewrite nth_lset_neq by exact N. exact R.
  - intros E. destruct (IH l1 l' ltac:(lia) F1 E) as (F' & Q'). split; [exact F'|]. rewrite Q'. exact Q1.
Qed.
Variable compute_divs : list bmap -> res (list bmap).
Hypothesis DIVS : sound_divs compute_divs.
Lemma map_gist_basic_ok np ni no l ctx l' P I O : Forall (okb np ni no) l -> okb np ni no ctx -> length P = np -> length I = ni -> length O = no -> relates ctx P I O ->
  map_gist_basic_map sid hash no_redundant tab fuel drd is_empty gist_tab detect strides compute_divs np ni no l ctx = Ok l' ->
  Forall (okb np ni no) l' /\ (relates_any l' P I O <-> relates_any l P I O).
Proof.
  intros F KC LP LI LO RC. unfold map_gist_basic_map. rewrite (proj1 RC). destruct (remove_redundancies no_redundant tab ctx) as [c| | |] eqn:E1; cbn [bind]; try discriminate. destruct (compute_divs l) as [l1| | |] eqn:E2; cbn [bind]; try discriminate. intros E3.
  destruct KC as (PC & SC). destruct (redundancies_same no_redundant tab ctx c TAB PC E1) as (S1 & _). destruct (DIVS np ni no l l1 F E2) as (F1 & Q1). rewrite <- Q1 by assumption. pose proof SC as (Z1 & Z2 & Z3).
  apply (gist_loop_ok np ni no c P I O (same_okb np ni no ctx c S1 SC) LP LI LO) with (i := length l1); [|lia|exact F1|exact E3]. apply (same_relates ctx c P I O S1); [congruence..|exact RC].
Qed.
Variables (plain_equal is_subset : list bmap -> list bmap -> res bool) (simple_hull : list bmap -> res bmap) (unshifted_hull : list bmap -> list (list bmap) -> res bmap).
Hypothesis EQUAL : sound_inclusion (fun ctx l => plain_equal l ctx).
Hypothesis SUBSET : sound_inclusion is_subset.
Hypothesis HULL : sound_hull simple_hull.
Hypothesis UHULL : forall ll, sound_hull (fun l => unshifted_hull l ll).
Lemma map_gist_ok np ni no l ctx l' P I O : Forall (okb np ni no) l -> Forall ordered l -> Forall (okb np ni no) ctx -> length P = np -> length I = ni -> length O = no -> relates_any ctx P I O ->
  map_gist sid hash no_redundant tab fuel drd is_empty gist_tab detect strides compute_divs plain_equal is_subset simple_hull unshifted_hull np ni no l ctx = Ok l' ->
  Forall (okb np ni no) l' /\ (relates_any l' P I O <-> relates_any l P I O).
Proof.
  intros F OL FC LP LI LO RC. unfold map_gist. destruct (_ || _); [intros [= <-]; split; [exact F|tauto]|].
  assert (UNI : relates_any l P I O -> Forall (okb np ni no) [fresh_map np ni no] /\ (relates_any [fresh_map np ni no] P I O <-> relates_any l P I O)).
  { intros R. destruct (fresh_relates np ni no P I O LP LI LO) as (K & RF). split; [constructor; [exact K|constructor]|]. split; [intros _; exact R|]. intros _. exists (fresh_map np ni no). split; [left; reflexivity|exact RF]. }
  destruct (plain_equal l ctx) as [eq| | |] eqn:E1; cbn [bind]; try discriminate. destruct eq.
  { intros [= <-]. apply UNI. apply (EQUAL np ni no ctx l FC F OL E1 P I O LP LI LO RC). }
  destruct (if _ && _ then Ok false else is_subset ctx l) as [sub| | |] eqn:E2; cbn [bind]; try discriminate. destruct sub.
  { intros [= <-]. apply UNI. destruct (_ && _); [discriminate E2|]. apply (SUBSET np ni no ctx l FC F OL E2 P I O LP LI LO RC). }
  cbv zeta. destruct (compute_divs ctx) as [c1| | |] eqn:E3; cbn [bind]; try discriminate. destruct (DIVS np ni no ctx c1 FC E3) as (F1 & Q1). apply Q1 in RC; [|assumption..].
  destruct (if Nat.eqb (length ctx) 1 then simple_hull c1 else unshifted_hull c1 [c1; l]) as [h| | |] eqn:E4; cbn [bind]; try discriminate.
  assert (H : okb np ni no h /\ relates h P I O). { destruct (Nat.eqb (length ctx) 1); [destruct (HULL np ni no c1 h F1 E4) as (A & B)|destruct (UHULL _ np ni no c1 h F1 E4) as (A & B)]; (split; [exact A|]; apply B; assumption). }
  destruct H as (KH & RH). apply map_gist_basic_ok; assumption.
Qed.
Lemma map_gist_meet np ni no l ctx l' P I O : Forall (okb np ni no) l -> Forall ordered l -> Forall (okb np ni no) ctx -> length P = np -> length I = ni -> length O = no ->
  map_gist sid hash no_redundant tab fuel drd is_empty gist_tab detect strides compute_divs plain_equal is_subset simple_hull unshifted_hull np ni no l ctx = Ok l' ->
  (relates_any l' P I O /\ relates_any ctx P I O <-> relates_any l P I O /\ relates_any ctx P I O).
Proof. intros F OL FC LP LI LO E. split; intros [A B]; (split; [|exact B]); apply (map_gist_ok np ni no l ctx l' P I O F OL FC LP LI LO B E); exact A. Qed.
End Params.

(** the parts of the code that are modelled elsewhere *)
Lemma divs_sound explicit_divs : sound_explicit explicit_divs -> sound_divs (map_compute_divs explicit_divs).
Proof.
  intros EXP np ni no l l' F. unfold map_compute_divs. destruct (forallb has_known_divs l); [intros [= <-]; split; [exact F|tauto]|]. intros E. destruct (EXP np ni no l l' F E) as (A & _ & B). split; [exact A|exact B].
Qed.
Lemma equal_sound (hash : row -> nat) no_redundant tab qsort : sound_tab tab -> (forall l, Permutation.Permutation l (qsort l)) -> sound_inclusion (fun ctx l => map_plain_equal no_redundant tab qsort l ctx).
Proof. intros TAB QS np ni no l l' F F' _ E P I O LP LI LO R. apply (map_plain_equal_ok no_redundant hash no_redundant tab qsort TAB QS np ni no l' l F' F E P I O LP LI LO). exact R. Qed.
Lemma subset_sound hash no_redundant tab fuel no_sample emp red kinds explicit_divs steps :
  sound_tab tab -> sound_emptiness emp -> sound_redundancy red -> sound_kinds kinds -> sound_sample no_sample -> complete_sample no_sample -> sound_explicit explicit_divs ->
  sound_inclusion (map_is_subset hash no_redundant tab fuel no_sample emp red kinds explicit_divs steps).
Proof.
  intros TAB EMP RED KIN SAM C EXP np ni no l l' F F' OL E. apply (is_subset_decides hash no_redundant tab fuel no_sample emp red kinds explicit_divs (fun _ => true) steps l l' true np ni no TAB EMP RED KIN SAM C EXP F F' OL E). reflexivity.
Qed.
