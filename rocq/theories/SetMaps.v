(** Proofs for the operations on maps. *)
From Coq Require Import ZArith List Bool Arith Lia Permutation.
From Verif Require Import BElimFM BElimSpec SeqSpec SeqModel MatModel SeqProofs BMapModel BMapSpec BMapSem ReorderModel LocalModel BElimModel BElimSort BElimProofs BElimVars SimpModel SimpSpec SimpBase SimpFinal SetModel SetBase SetSpec SetViews SetLift SetOps SetOps2 SetOps3 SetProject.
Import ListNotations.
Open Scope Z_scope.

Definition okm (np ni no : nat) (l : list bmap) : Prop := Forall (okb np ni no) l.

(** ** the loops *)
Section Loops.
Variables (Q1 Q2 Q3 : bmap -> Prop) (op : bmap -> bmap -> res bmap) (phi : bmap -> bmap -> Prop) (psi : bmap -> Prop).
Hypothesis OP : forall b1 b2 b, Q1 b1 -> Q2 b2 -> op b1 b2 = Ok b -> Q3 b /\ (psi b <-> phi b1 b2).
Hypothesis NE : forall b, b_empty b = true -> ~ psi b.

Lemma add_any l b : (exists x, List.In x (add_basic_map l b) /\ psi x) <-> (exists x, List.In x l /\ psi x) \/ psi b.
Proof.
  unfold add_basic_map. destruct (b_empty b) eqn:E.
  - split; [auto|]. intros [H|H]; [exact H|]. destruct (NE b E H).
  - split.
    + intros (x & I & H). apply in_app_or in I. destruct I as [I|[<-|[]]]; eauto.
    + intros [(x & I & H)|H]; [exists x|exists b]; split; try assumption; apply in_or_app; [left; exact I|right; left; reflexivity].
Qed.
Lemma add_Q l b : Forall Q3 l -> Q3 b -> Forall Q3 (add_basic_map l b).
Proof. intros F H. unfold add_basic_map. destruct (b_empty b); [exact F|]. apply Forall_app. auto. Qed.
Lemma each_right_any b1 : Q1 b1 -> forall l2 acc l, Forall Q2 l2 -> Forall Q3 acc -> each_right op acc b1 l2 = Ok l ->
  Forall Q3 l /\ ((exists x, List.In x l /\ psi x) <-> (exists x, List.In x acc /\ psi x) \/ exists b2, List.In b2 l2 /\ phi b1 b2).
Proof.
  intros H1. induction l2 as [|b2 l2 IH]; intros acc l F2 F3; cbn [each_right].
  - intros [= <-]. split; [exact F3|]. split; [auto|]. intros [H|(b2 & [] & _)]. exact H.
  - unfold bind. destruct (op b1 b2) as [b| | |] eqn:E; try discriminate. intros H. inversion F2; subst. destruct (OP _ _ _ H1 ltac:(eassumption) E) as [HQ3 EQ].
    destruct (IH _ _ ltac:(eassumption) (add_Q acc b F3 HQ3) H) as [FL EL]. split; [exact FL|]. rewrite EL, add_any, EQ. cbn [List.In]. firstorder; subst; auto.
    all: try (right; eexists; split; [left; reflexivity|assumption]).
Qed.
Lemma each_pair_any : forall l1 l2 acc l, Forall Q1 l1 -> Forall Q2 l2 -> Forall Q3 acc -> each_pair op acc l1 l2 = Ok l ->
  Forall Q3 l /\ ((exists x, List.In x l /\ psi x) <-> (exists x, List.In x acc /\ psi x) \/ exists b1 b2, List.In b1 l1 /\ List.In b2 l2 /\ phi b1 b2).
Proof.
  induction l1 as [|b1 l1 IH]; intros l2 acc l F1 F2 F3; cbn [each_pair].
  - intros [= <-]. split; [exact F3|]. split; [auto|]. intros [H|(b1 & b2 & [] & _)]. exact H.
  - unfold bind. inversion F1; subst. destruct (each_right op acc b1 l2) as [a| | |] eqn:E; try discriminate. intros H. destruct (each_right_any b1 ltac:(assumption) _ _ _ F2 F3 E) as [FA EA].
    destruct (IH _ _ _ ltac:(assumption) F2 FA H) as [FL EL]. split; [exact FL|]. rewrite EL, EA. split.
    + intros [[G|(b2 & I2 & G)]|(c1 & c2 & J1 & J2 & G)]; [left; exact G|right; exists b1, b2; cbn; auto|right; exists c1, c2; cbn; auto].
    + intros [G|(c1 & c2 & [<-|J1] & J2 & G)]; [auto|left; right; eauto|right; eauto].
Qed.
Lemma pair_any l1 l2 l : Forall Q1 l1 -> Forall Q2 l2 -> each_pair op [] l1 l2 = Ok l ->
  Forall Q3 l /\ ((exists x, List.In x l /\ psi x) <-> exists b1 b2, List.In b1 l1 /\ List.In b2 l2 /\ phi b1 b2).
Proof.
  intros F1 F2 E. destruct (each_pair_any l1 l2 [] l F1 F2 (Forall_nil _) E) as [F EQ]. split; [exact F|]. rewrite EQ. split; [|auto]. intros [(x & [] & _)|H]. exact H.
Qed.
End Loops.

(** with a family of statements *)
Lemma pair_all {X : Type} (valid : X -> Prop) (Q1 Q2 Q3 : bmap -> Prop) op (phi : bmap -> bmap -> X -> Prop) (psi : bmap -> X -> Prop) l1 l2 l :
  (forall b1 b2 b, Q1 b1 -> Q2 b2 -> op b1 b2 = Ok b -> Q3 b /\ forall x, valid x -> (psi b x <-> phi b1 b2 x)) -> (forall b x, b_empty b = true -> ~ psi b x) ->
  Forall Q1 l1 -> Forall Q2 l2 -> each_pair op [] l1 l2 = Ok l ->
  Forall Q3 l /\ forall x, valid x -> ((exists b, List.In b l /\ psi b x) <-> exists b1 b2, List.In b1 l1 /\ List.In b2 l2 /\ phi b1 b2 x).
Proof.
  intros OP NE F1 F2 E. split.
  - refine (proj1 (pair_any Q1 Q2 Q3 op (fun _ _ => False) (fun _ => False) _ _ l1 l2 l F1 F2 E)); [|tauto]. intros b1 b2 b H1 H2 H. split; [apply (OP b1 b2 b H1 H2 H)|tauto].
  - intros x V. refine (proj2 (pair_any Q1 Q2 Q3 op (fun b1 b2 => phi b1 b2 x) (fun b => psi b x) _ _ l1 l2 l F1 F2 E)); [|intros b; apply NE]. intros b1 b2 b H1 H2 H. destruct (OP b1 b2 b H1 H2 H) as [A B]. split; [exact A|apply B, V].
Qed.
Lemma each_any (Q1 Q3 : bmap -> Prop) op (phi psi : bmap -> Prop) : (forall b b', Q1 b -> op b = Ok b' -> Q3 b' /\ (psi b' <-> phi b)) ->
  forall l l', Forall Q1 l -> each op l = Ok l' -> Forall Q3 l' /\ ((exists x, List.In x l' /\ psi x) <-> exists x, List.In x l /\ phi x).
Proof.
  intros OP. induction l as [|b l IH]; intros l' F; cbn [each]; unfold bind.
  - intros [= <-]. split; [constructor|]. split; intros (x & [] & _).
  - inversion F; subst. destruct (op b) as [b'| | |] eqn:E; try discriminate. destruct (each op l) as [t| | |] eqn:ET; try discriminate. intros [= <-].
    destruct (OP _ _ ltac:(eassumption) E) as [HQ3 EQ]. destruct (IH _ ltac:(eassumption) eq_refl) as [FL EL]. split; [constructor; assumption|]. cbn [List.In]. split.
    + intros (x & [<-|I] & H); [exists b; split; [auto|apply EQ, H]|]. destruct (proj1 EL (ex_intro _ x (conj I H))) as (y & J & G). eauto.
    + intros (x & [<-|I] & H); [exists b'; split; [auto|apply EQ, H]|]. destruct (proj2 EL (ex_intro _ x (conj I H))) as (y & J & G). eauto.
Qed.

Lemma each_all {X : Type} (valid : X -> Prop) (Q1 Q3 : bmap -> Prop) op (phi psi : bmap -> X -> Prop) l l' :
  (forall b b', Q1 b -> op b = Ok b' -> Q3 b' /\ forall x, valid x -> (psi b' x <-> phi b x)) -> Forall Q1 l -> each op l = Ok l' ->
  Forall Q3 l' /\ forall x, valid x -> ((exists b, List.In b l' /\ psi b x) <-> exists b, List.In b l /\ phi b x).
Proof.
  intros OP F E. split.
  - refine (proj1 (each_any Q1 Q3 op (fun _ => False) (fun _ => False) _ l l' F E)). intros b b' H1 H. split; [apply (OP b b' H1 H)|tauto].
  - intros x V. refine (proj2 (each_any Q1 Q3 op (fun b => phi b x) (fun b => psi b x) _ l l' F E)). intros b b' H1 H. destruct (OP b b' H1 H) as [A B]. split; [exact A|apply B, V].
Qed.
Lemma any2 (A B : bmap -> Prop) l1 l2 : (exists b1 b2, List.In b1 l1 /\ List.In b2 l2 /\ A b1 /\ B b2) <-> (exists b, List.In b l1 /\ A b) /\ (exists b, List.In b l2 /\ B b).
Proof. split; [intros (b1 & b2 & I1 & I2 & H1 & H2); split; [exists b1|exists b2]; auto|intros [(b1 & I1 & H1) (b2 & I2 & H2)]; exists b1, b2; auto]. Qed.
Lemma empty_relates b P I O : b_empty b = true -> ~ relates b P I O.
Proof. intros E [F _]. congruence. Qed.

Section Facts.
Variables (sid : bmap -> bool) (hash : row -> nat) (no_redundant : bmap -> bool) (tab : bmap -> bool * list kind) (fuel : nat) (drd : bmap -> res bmap) (is_empty : bmap -> bool) (qsort : list bmap -> list bmap).
Hypothesis TAB : sound_tab tab.
Hypothesis DRD : forall b b', proper b -> drd b = Ok b' -> same b b'.
Hypothesis EMP : forall b q, proper b -> is_empty b = true -> length q = (1 + nvar b)%nat -> hd 0 q = 1 -> ~ points b q.
Hypothesis QS : forall l, Permutation l (qsort l).

(** ** representations *)
Lemma sort_same b b' : proper b -> sort_constraints b = Ok b' -> same b b'.
Proof.
  intros (W & A & D & I & R & H) E. destruct (sort_constraints_ok b) as (l & E' & PE & _). rewrite E' in E. injection E as <-.
  assert (SY : forall v, system (b_eq b) (b_ineq b) v <-> system (b_eq b) l v).
  { intros v. unfold system. split; intros [S1 S2]; (split; [exact S1|]); rewrite Forall_forall in *; intros r Hr; apply S2; [apply (Permutation_in r (Permutation_sym PE)), Hr|apply (Permutation_in r PE), Hr]. }
  split; [split; [reflexivity|]; repeat split|]. split.
  - destruct W as (We & Wi & Wd). split; [split; [exact We|]; split; [|exact Wd]|].
    + unfold rows_of in *. cbn [set_ineq b_ineq]. rewrite Forall_forall in *. intros r Hr. apply Wi, (Permutation_in r (Permutation_sym PE)), Hr.
    + split; [exact A|]. split; [exact D|]. split; [|split; [exact R|]].
      * intros v Lv Hv S. apply (I v Lv Hv). apply SY. exact S.
      * intros F v Lv Hv S. apply (H F v Lv Hv). apply SY. exact S.
  - intros q Lq Hq. unfold points. cbn [set_ineq b_empty b_eq b_ineq ndiv b_div]. unfold described. split; intros [F (d & Ld & S)]; (split; [exact F|exists d; split; [exact Ld|apply SY, S]]).
Qed.
Lemma normalize_same b b' : proper b -> normalize no_redundant tab b = Ok b' -> same b b'.
Proof.
  intros PB. unfold normalize. destruct (remove_redundancies no_redundant tab b) as [b1| | |] eqn:E; cbn [bind]; try discriminate. intros E2.
  assert (S1 : same b b1).
  { destruct (b_empty b) eqn:EB.
    - unfold remove_redundancies in E. destruct (gauss b) as [[b2 p]| | |] eqn:EG; try discriminate. pose proof (gauss_same b b2 p PB EG) as SG. rewrite (flagged_unmark b EB), gauss_flagged in EG. destruct (gauss (unmark b)) as [[b3 p3]| | |]; try discriminate. injection EG as <- <-. cbn [flagged b_empty] in E. injection E as <-. exact SG.
    - apply pres_same_points; [apply PB|]. apply (remove_redundancies_pres no_redundant tab TAB b b1 (proper_good b PB EB) E). }
  eapply same_trans; [exact S1|]. apply sort_same; [apply S1|exact E2].
Qed.
Lemma rows_cmp_eq n : forall l1 l2, length l1 = length l2 -> rows_of n l1 -> rows_of n l2 -> rows_cmp l1 l2 = 0 -> l1 = l2.
Proof.
  induction l1 as [|r1 l1 IH]; intros [|r2 l2] L F1 F2; try discriminate L; [reflexivity|]. cbn [rows_cmp]. inversion F1; inversion F2; subst. destruct (Z.eqb_spec (seq_cmp r1 r2) 0) as [E|E]; [|intros H; contradiction].
  intros H. f_equal; [apply (seq_cmp_ok r1 r2); [congruence|exact E]|]. apply IH; auto.
Qed.
Lemma plain_cmp_relates b1 b2 np ni no P I O : okb np ni no b1 -> okb np ni no b2 -> plain_cmp b1 b2 = 0 -> (relates b1 P I O <-> relates b2 P I O).
Proof.
  intros [P1 (S1 & S2 & S3)] [P2 (T1 & T2 & T3)]. unfold plain_cmp. assert (R1 : b_rat b1 = false) by apply P1. assert (R2 : b_rat b2 = false) by apply P2. rewrite R1, R2. cbn [Bool.eqb negb].
  destruct (b_empty b1) eqn:E1, (b_empty b2) eqn:E2; cbn [andb]; try discriminate.
  { intros _. unfold relates, points, member. rewrite E1, E2. intuition discriminate. }
  destruct (Nat.eqb_spec (length (b_eq b1)) (length (b_eq b2))) as [L1|L1]; cbn [negb]; [|lia]. destruct (Nat.eqb_spec (length (b_ineq b1)) (length (b_ineq b2))) as [L2|L2]; cbn [negb]; [|lia]. destruct (Nat.eqb_spec (ndiv b1) (ndiv b2)) as [L3|L3]; cbn [negb]; [|lia]. cbn zeta.
  destruct (Z.eqb_spec (rows_cmp (b_eq b1) (b_eq b2)) 0) as [C1|C1]; cbn [negb]; [|intros H; contradiction]. destruct (Z.eqb_spec (rows_cmp (b_ineq b1) (b_ineq b2)) 0) as [C2|C2]; cbn [negb]; [|intros H; contradiction]. intros _.
  assert (TT : total b1 = total b2) by (unfold total, nvar; congruence). destruct P1 as ((We & Wi & _) & _). destruct P2 as ((We' & Wi' & _) & _). rewrite TT in We, Wi.
  unfold relates, points. rewrite E1, E2, L3, (rows_cmp_eq _ _ _ L1 We We' C1), (rows_cmp_eq _ _ _ L2 Wi Wi' C2). reflexivity.
Qed.
Lemma dedup_any np ni no P I O : forall i l, (i < length l)%nat \/ i = 0%nat -> okm np ni no l -> okm np ni no (dedup i l) /\ (relates_any (dedup i l) P I O <-> relates_any l P I O).
Proof.
  induction i as [|i IH]; intros l L F; cbn [dedup]; [split; [exact F|tauto]|]. destruct L as [L|L]; [|discriminate]. set (d := fresh_map 0 0 0). destruct (Z.eqb_spec (plain_cmp (nth i l d) (nth (S i) l d)) 0) as [C|C]; [|apply IH; [lia|exact F]].
  assert (Li : (i < length l)%nat) by lia. pose proof (BMapLists.ldrop_length l i Li) as LD. pose proof (BMapLists.ldrop_perm l d i Li) as PE.
  pose proof (Forall_forall (okb np ni no) l) as FF. unfold okm in F. assert (Ki : okb np ni no (nth i l d)) by (apply (proj1 FF F), nth_In; lia). assert (Kj : okb np ni no (nth (S i) l d)) by (apply (proj1 FF F), nth_In; lia).
  destruct (IH (ldrop l i)) as [A B]; [lia| |].
  { unfold okm. rewrite Forall_forall. intros x Hx. apply (proj1 FF F). apply (Permutation_in x PE). right. exact Hx. }
  split; [exact A|]. rewrite B. unfold relates_any. split; intros (x & Hx & H).
  - exists x. split; [apply (Permutation_in x PE); right; exact Hx|exact H].
  - apply (Permutation_in x (Permutation_sym PE)) in Hx. destruct Hx as [<-|Hx]; [|eauto]. exists (nth (S i) l d). split; [|apply (plain_cmp_relates _ _ np ni no P I O Ki Kj C); exact H].
    replace (nth (S i) l d) with (nth i (ldrop l i) d); [apply nth_In; lia|]. rewrite BMapLists.nth_ldrop by exact Li. rewrite Nat.ltb_irrefl. reflexivity.
Qed.
Lemma sard_any np ni no P I O l : okm np ni no l -> okm np ni no (sort_and_remove_duplicates qsort l) /\ (relates_any (sort_and_remove_duplicates qsort l) P I O <-> relates_any l P I O).
Proof.
  intros F. unfold sort_and_remove_duplicates. set (f := filter _ l). cbn zeta. assert (FF : okm np ni no (qsort f)).
  { unfold okm. rewrite Forall_forall. intros x Hx. apply (Permutation_in x (Permutation_sym (QS f))) in Hx. apply filter_In in Hx. exact (proj1 (Forall_forall _ l) F x (proj1 Hx)). }
  destruct (dedup_any np ni no P I O (length (qsort f) - 1) (qsort f)) as [A B]; [lia|exact FF|]. split; [exact A|]. rewrite B. unfold relates_any. split; intros (x & Hx & H); exists x; (split; [|exact H]).
  - apply (Permutation_in x (Permutation_sym (QS f))) in Hx. apply filter_In in Hx. apply Hx.
  - apply (Permutation_in x (QS f)). apply filter_In. split; [exact Hx|]. destruct H as [H _]. rewrite H. reflexivity.
Qed.
(** points of a map: parameters, input and output *)
Definition pt : Type := (list Z * list Z * list Z)%type.
Definition fits (np ni no : nat) (x : pt) : Prop := length (fst (fst x)) = np /\ length (snd (fst x)) = ni /\ length (snd x) = no.
Definition rel (b : bmap) (x : pt) : Prop := relates b (fst (fst x)) (snd (fst x)) (snd x).
Lemma empty_rel b x : b_empty b = true -> ~ rel b x.
Proof. apply empty_relates. Qed.
Lemma each_same op np ni no l l' : (forall b b', proper b -> op b = Ok b' -> same b b') -> okm np ni no l -> each op l = Ok l' ->
  okm np ni no l' /\ forall P I O, length P = np -> length I = ni -> length O = no -> (relates_any l' P I O <-> relates_any l P I O).
Proof.
  intros OP F E. destruct (each_all (fits np ni no) (okb np ni no) (okb np ni no) op rel rel l l') as [A B]; [|exact F|exact E|].
  - intros b b' [PB SZ] H. pose proof (OP b b' PB H) as SM. split; [apply (same_okb _ _ _ b b' SM SZ)|]. intros [[P I] O] (L1 & L2 & L3). cbn in L1, L2, L3. destruct SZ as (S1 & S2 & S3). unfold rel. cbn [fst snd]. symmetry. apply (same_relates b b' P I O SM); congruence.
  - split; [exact A|]. intros P I O L1 L2 L3. exact (B (P, I, O) (conj L1 (conj L2 L3))).
Qed.
Lemma map_normalize_ok np ni no l l' : okm np ni no l -> map_normalize no_redundant tab qsort l = Ok l' ->
  okm np ni no l' /\ forall P I O, length P = np -> length I = ni -> length O = no -> (relates_any l' P I O <-> relates_any l P I O).
Proof.
  intros F. unfold map_normalize. destruct (each (normalize no_redundant tab) l) as [l1| | |] eqn:E; cbn [bind]; try discriminate. intros [= <-]. destruct (each_same _ np ni no l l1 normalize_same F E) as [F1 Q1]. split; [apply (sard_any np ni no [] [] [] l1 F1)|].
  intros P I O L1 L2 L3. rewrite (proj2 (sard_any np ni no P I O l1 F1)). apply Q1; assumption.
Qed.
Lemma remove_obvious_duplicates_ok np ni no l l' : okm np ni no l -> remove_obvious_duplicates qsort l = Ok l' ->
  okm np ni no l' /\ forall P I O, length P = np -> length I = ni -> length O = no -> (relates_any l' P I O <-> relates_any l P I O).
Proof.
  intros F. unfold remove_obvious_duplicates. destruct (Nat.leb _ _); [intros [= <-]; split; [exact F|tauto]|]. destruct (each sort_constraints l) as [l1| | |] eqn:E; cbn [bind]; try discriminate. intros [= <-]. destruct (each_same _ np ni no l l1 sort_same F E) as [F1 Q1]. split; [apply (sard_any np ni no [] [] [] l1 F1)|].
  intros P I O L1 L2 L3. rewrite (proj2 (sard_any np ni no P I O l1 F1)). apply Q1; assumption.
Qed.
Lemma forallb_combine (R : bmap -> bmap -> bool) : forall l1 l2, length l1 = length l2 -> forallb (fun x => R (fst x) (snd x)) (combine l1 l2) = true ->
  (forall x, List.In x l1 -> exists y, List.In y l2 /\ R x y = true) /\ (forall y, List.In y l2 -> exists x, List.In x l1 /\ R x y = true).
Proof.
  induction l1 as [|a l1 IH]; intros [|b l2] L; try discriminate L; [split; intros ? []|]. cbn [combine forallb fst snd]. intros H. apply andb_prop in H. destruct H as [H1 H2]. destruct (IH l2 ltac:(cbn in L; lia) H2) as [A B].
  split; intros x [<-|Hx]; [exists b; cbn; auto|destruct (A x Hx) as (y & ? & ?); exists y; cbn; auto|exists a; cbn; auto|destruct (B x Hx) as (y & ? & ?); exists y; cbn; auto].
Qed.
(** maps with the same normal form have the same points *)
Lemma map_plain_equal_ok np ni no l1 l2 : okm np ni no l1 -> okm np ni no l2 -> map_plain_equal no_redundant tab qsort l1 l2 = Ok true ->
  forall P I O, length P = np -> length I = ni -> length O = no -> (relates_any l1 P I O <-> relates_any l2 P I O).
Proof.
  intros F1 F2. unfold map_plain_equal. destruct (map_normalize no_redundant tab qsort l1) as [n1| | |] eqn:E1; cbn [bind]; try discriminate. destruct (map_normalize no_redundant tab qsort l2) as [n2| | |] eqn:E2; cbn [bind]; try discriminate.
  destruct (map_normalize_ok np ni no l1 n1 F1 E1) as [G1 Q1]. destruct (map_normalize_ok np ni no l2 n2 F2 E2) as [G2 Q2]. intros [= H]. apply andb_prop in H. destruct H as [L H]. apply Nat.eqb_eq in L. destruct (forallb_combine (fun a b => plain_cmp a b =? 0) n1 n2 L H) as [A B].
  intros P I O LP LI LO. rewrite <- Q1, <- Q2 by assumption. unfold okm in *. rewrite Forall_forall in G1, G2. split; intros (x & Hx & R).
  - destruct (A x Hx) as (y & Hy & C). apply Z.eqb_eq in C. exists y. split; [exact Hy|]. apply (plain_cmp_relates x y np ni no P I O (G1 x Hx) (G2 y Hy) C). exact R.
  - destruct (B x Hx) as (y & Hy & C). apply Z.eqb_eq in C. exists y. split; [exact Hy|]. apply (plain_cmp_relates y x np ni no P I O (G1 y Hy) (G2 x Hx) C). exact R.
Qed.

(** ** the operations *)
Lemma mark_empty_ok np ni no b : okb np ni no b -> okb np ni no (mark_empty is_empty b) /\ forall P I O, length P = np -> length I = ni -> length O = no -> (relates (mark_empty is_empty b) P I O <-> relates b P I O).
Proof.
  intros K. pose proof K as [PB (S1 & S2 & S3)]. unfold mark_empty. destruct (is_empty b) eqn:E; [|split; [exact K|tauto]]. fold (flagged b). split; [split; [|repeat split; assumption]|].
  - destruct (b_empty b) eqn:EB; [replace (flagged b) with b; [exact PB|]; clear - EB; destruct b; cbn in EB; subst; reflexivity|]. apply flagged_proper; [exact PB|]. intros q Lq Hq D. apply (EMP b q PB E Lq Hq). split; assumption.
  - intros P I O LP LI LO. split; intros H; [destruct H as [H _]; discriminate H|]. exfalso. apply (EMP b (1 :: P ++ I ++ O) PB E); [unfold nvar; cbn [length]; rewrite !app_length; lia|reflexivity|exact H].
Qed.
Lemma map_reverse_ok np ni no l l' : okm np ni no l -> map_reverse sid l = Ok l' ->
  okm np no ni l' /\ forall P I O, length P = np -> length I = ni -> length O = no -> (relates_any l' P O I <-> relates_any l P I O).
Proof.
  intros F E. destruct (each_all (fits np ni no) (okb np ni no) (okb np no ni) (reverse sid) rel (fun b x => relates b (fst (fst x)) (snd x) (snd (fst x))) l l') as [A B]; [|exact F|exact E|].
  - intros b b' K H. destruct (reverse_ok sid b b' np ni no K H) as [K' Q]. split; [exact K'|]. intros [[P I] O] (L1 & L2 & L3). apply Q; assumption.
  - split; [exact A|]. intros P I O L1 L2 L3. exact (B (P, I, O) (conj L1 (conj L2 L3))).
Qed.
Lemma map_neg_ok np ni no l l' : okm np ni no l -> map_neg l = Ok l' ->
  okm np ni no l' /\ forall P I O, length P = np -> length I = ni -> length O = no -> (relates_any l' P I O <-> relates_any l P I (map Z.opp O)).
Proof.
  intros F E. destruct (each_all (fits np ni no) (okb np ni no) (okb np ni no) neg (fun b x => relates b (fst (fst x)) (snd (fst x)) (map Z.opp (snd x))) rel l l') as [A B]; [|exact F|exact E|].
  - intros b b' K H. destruct (neg_ok b b' np ni no K H) as [K' Q]. split; [exact K'|]. intros [[P I] O] (L1 & L2 & L3). apply Q; assumption.
  - split; [exact A|]. intros P I O L1 L2 L3. exact (B (P, I, O) (conj L1 (conj L2 L3))).
Qed.
Lemma map_apply_range_ok np n k m l1 l2 l : okm np n k l1 -> okm np k m l2 -> map_apply_range hash no_redundant tab fuel drd l1 l2 = Ok l ->
  okm np n m l /\ forall P I O, length P = np -> length I = n -> length O = m -> (relates_any l P I O <-> exists M, length M = k /\ relates_any l1 P I M /\ relates_any l2 P M O).
Proof.
  intros F1 F2 E. destruct (pair_all (fits np n m) (okb np n k) (okb np k m) (okb np n m) (apply_range hash no_redundant tab fuel drd)
    (fun b1 b2 x => exists M, length M = k /\ relates b1 (fst (fst x)) (snd (fst x)) M /\ relates b2 (fst (fst x)) M (snd x)) rel l1 l2 l) as [A B]; [|intros b x; apply empty_rel|exact F1|exact F2|exact E|].
  - intros b1 b2 b K1 K2 H. destruct (apply_range_ok hash no_redundant tab fuel drd TAB DRD b1 b2 b np n k m K1 K2 H) as [K Q]. split; [exact K|]. intros [[P I] O] (L1 & L2 & L3). apply Q; assumption.
  - split; [exact A|]. intros P I O L1 L2 L3. etransitivity; [exact (B (P, I, O) (conj L1 (conj L2 L3)))|]. cbn [fst snd]. split.
    + intros (b1 & b2 & I1 & I2 & M & LM & R1 & R2). exists M. split; [exact LM|]. split; [exists b1|exists b2]; auto.
    + intros (M & LM & (b1 & I1 & R1) & (b2 & I2 & R2)). exists b1, b2. split; [exact I1|]. split; [exact I2|]. exists M. auto.
Qed.
Lemma map_apply_domain_ok np n k m l1 l2 l : okm np k m l1 -> okm np k n l2 -> map_apply_domain sid hash no_redundant tab fuel drd l1 l2 = Ok l ->
  okm np n m l /\ forall P I O, length P = np -> length I = n -> length O = m -> (relates_any l P I O <-> exists M, length M = k /\ relates_any l2 P M I /\ relates_any l1 P M O).
Proof.
  intros F1 F2. unfold map_apply_domain. destruct (map_reverse sid l1) as [r| | |] eqn:E1; cbn [bind]; try discriminate. destruct (map_reverse_ok np k m l1 r F1 E1) as [Fr Qr]. destruct (map_apply_range hash no_redundant tab fuel drd r l2) as [a| | |] eqn:E2; cbn [bind]; try discriminate.
  destruct (map_apply_range_ok np m k n r l2 a Fr F2 E2) as [Fa Qa]. intros E3. destruct (map_reverse_ok np m n a l Fa E3) as [Fl Ql]. split; [exact Fl|]. intros P I O LP LI LO. rewrite (Ql P O I) by assumption. rewrite Qa by assumption.
  split; intros (M & LM & H1 & H2); exists M; (split; [exact LM|]); split; try assumption; apply (Qr P M O); assumption.
Qed.
Lemma map_product_gen {X : Type} (valid : X -> Prop) op (np1 ni1 no1 np2 ni2 no2 np ni no : nat) (split : X -> pt) (phi : bmap -> bmap -> X -> Prop) l1 l2 l :
  (forall b1 b2 b, okb np1 ni1 no1 b1 -> okb np2 ni2 no2 b2 -> op b1 b2 = Ok b -> okb np ni no b /\ forall x, valid x -> (rel b (split x) <-> phi b1 b2 x)) ->
  (forall x, valid x -> fits np ni no (split x)) ->
  okm np1 ni1 no1 l1 -> okm np2 ni2 no2 l2 -> map_product is_empty op l1 l2 = Ok l ->
  okm np ni no l /\ forall x, valid x -> ((exists b, List.In b l /\ rel b (split x)) <-> exists b1 b2, List.In b1 l1 /\ List.In b2 l2 /\ phi b1 b2 x).
Proof.
  intros OP V F1 F2 E. unfold map_product in E.
  apply (pair_all valid (okb np1 ni1 no1) (okb np2 ni2 no2) (okb np ni no) _ phi (fun b x => rel b (split x)) l1 l2 l) in E; [exact E| |intros b x; apply empty_rel|exact F1|exact F2].
  intros b1 b2 b K1 K2. destruct (op b1 b2) as [b0| | |] eqn:EO; cbn [bind]; try discriminate. intros [= <-]. destruct (OP b1 b2 b0 K1 K2 EO) as [K Q]. destruct (mark_empty_ok np ni no b0 K) as [KM QM]. split; [exact KM|]. intros x Hx. rewrite <- (Q x Hx). destruct (V x Hx) as (L1 & L2 & L3). apply QM; assumption.
Qed.
Lemma map_sum_ok np n m l1 l2 l : okm np n m l1 -> okm np n m l2 -> map_sum hash no_redundant tab fuel is_empty l1 l2 = Ok l ->
  okm np n m l /\ forall P I O, length P = np -> length I = n -> length O = m ->
    (relates_any l P I O <-> exists O1 O2, length O1 = m /\ length O2 = m /\ relates_any l1 P I O1 /\ relates_any l2 P I O2 /\ forall i, nth i O 0 = nth i O1 0 + nth i O2 0).
Proof.
  intros F1 F2 E. destruct (map_product_gen (fits np n m) (sum hash no_redundant tab fuel) np n m np n m np n m (fun x => x)
    (fun b1 b2 x => exists O1 O2, length O1 = m /\ length O2 = m /\ relates b1 (fst (fst x)) (snd (fst x)) O1 /\ relates b2 (fst (fst x)) (snd (fst x)) O2 /\ forall i, nth i (snd x) 0 = nth i O1 0 + nth i O2 0) l1 l2 l) as [A B]; [|auto|exact F1|exact F2|exact E|].
  - intros b1 b2 b K1 K2 H. destruct (sum_ok hash no_redundant tab fuel TAB b1 b2 b np n m K1 K2 H) as [K Q]. split; [exact K|]. intros [[P I] O] (L1 & L2 & L3). apply Q; assumption.
  - split; [exact A|]. intros P I O L1 L2 L3. etransitivity; [exact (B (P, I, O) (conj L1 (conj L2 L3)))|]. cbn [fst snd]. split.
    + intros (b1 & b2 & I1 & I2 & O1 & O2 & M1 & M2 & R1 & R2 & S1). exists O1, O2. split; [exact M1|]. split; [exact M2|]. split; [exists b1; auto|]. split; [exists b2; auto|]. exact S1.
    + intros (O1 & O2 & M1 & M2 & (b1 & I1 & R1) & (b2 & I2 & R2) & S1). exists b1, b2. split; [exact I1|]. split; [exact I2|]. exists O1, O2. auto.
Qed.
Lemma map_full_product_ok np n1 m1 n2 m2 l1 l2 l : okm np n1 m1 l1 -> okm np n2 m2 l2 -> map_full_product hash no_redundant tab fuel is_empty l1 l2 = Ok l ->
  okm np (n1 + n2) (m1 + m2) l /\ forall P I1 I2 O1 O2, length P = np -> length I1 = n1 -> length I2 = n2 -> length O1 = m1 -> length O2 = m2 ->
    (relates_any l P (I1 ++ I2) (O1 ++ O2) <-> relates_any l1 P I1 O1 /\ relates_any l2 P I2 O2).
Proof.
  intros F1 F2 E. destruct (map_product_gen (fun x : pt * (list Z * list Z) => fits np n1 m1 (fst x) /\ length (fst (snd x)) = n2 /\ length (snd (snd x)) = m2) (product hash no_redundant tab fuel) np n1 m1 np n2 m2 np (n1 + n2) (m1 + m2)
    (fun x => (fst (fst (fst x)), snd (fst (fst x)) ++ fst (snd x), snd (fst x) ++ snd (snd x)))
    (fun b1 b2 x => rel b1 (fst x) /\ relates b2 (fst (fst (fst x))) (fst (snd x)) (snd (snd x))) l1 l2 l) as [A B]; [| |exact F1|exact F2|exact E|].
  - intros b1 b2 b K1 K2 H. destruct (product_ok hash no_redundant tab fuel TAB b1 b2 b np n1 m1 n2 m2 K1 K2 H) as [K Q]. split; [exact K|]. intros [[[P I1] O1] [I2 O2]] ((L1 & L2 & L3) & L4 & L5). apply Q; assumption.
  - intros [[[P I1] O1] [I2 O2]] ((L1 & L2 & L3) & L4 & L5). cbn in *. unfold fits. cbn. rewrite !app_length. lia.
  - split; [exact A|]. intros P I1 I2 O1 O2 L1 L2 L3 L4 L5. etransitivity; [exact (B ((P, I1, O1), (I2, O2)) (conj (conj L1 (conj L2 L4)) (conj L3 L5)))|]. apply any2.
Qed.
Lemma map_domain_product_ok np n1 n2 m l1 l2 l : okm np n1 m l1 -> okm np n2 m l2 -> map_domain_product hash no_redundant tab fuel is_empty qsort l1 l2 = Ok l ->
  okm np (n1 + n2) m l /\ forall P I1 I2 O, length P = np -> length I1 = n1 -> length I2 = n2 -> length O = m ->
    (relates_any l P (I1 ++ I2) O <-> relates_any l1 P I1 O /\ relates_any l2 P I2 O).
Proof.
  intros F1 F2. unfold map_domain_product. destruct (map_product is_empty _ l1 l2) as [l0| | |] eqn:E; cbn [bind]; try discriminate. intros ED.
  destruct (map_product_gen (fun x : pt * list Z => fits np n1 m (fst x) /\ length (snd x) = n2) (domain_product hash no_redundant tab fuel) np n1 m np n2 m np (n1 + n2) m
    (fun x => (fst (fst (fst x)), snd (fst (fst x)) ++ snd x, snd (fst x)))
    (fun b1 b2 x => rel b1 (fst x) /\ relates b2 (fst (fst (fst x))) (snd x) (snd (fst x))) l1 l2 l0) as [A B]; [| |exact F1|exact F2|exact E|].
  - intros b1 b2 b K1 K2 H. destruct (domain_product_ok hash no_redundant tab fuel TAB b1 b2 b np n1 n2 m K1 K2 H) as [K Q]. split; [exact K|]. intros [[[P I1] O1] I2] ((L1 & L2 & L3) & L4). apply Q; assumption.
  - intros [[[P I1] O1] I2] ((L1 & L2 & L3) & L4). cbn in *. unfold fits. cbn. rewrite !app_length. lia.
  - destruct (remove_obvious_duplicates_ok _ _ _ l0 l A ED) as [AD BD]. split; [exact AD|]. intros P I1 I2 O L1 L2 L3 L4. rewrite BD by (rewrite ?app_length; lia). etransitivity; [exact (B ((P, I1, O), I2) (conj (conj L1 (conj L2 L4)) L3))|]. apply any2.
Qed.
Lemma map_range_product_ok np n m1 m2 l1 l2 l : okm np n m1 l1 -> okm np n m2 l2 -> map_range_product hash no_redundant tab fuel is_empty qsort l1 l2 = Ok l ->
  okm np n (m1 + m2) l /\ forall P I O1 O2, length P = np -> length I = n -> length O1 = m1 -> length O2 = m2 ->
    (relates_any l P I (O1 ++ O2) <-> relates_any l1 P I O1 /\ relates_any l2 P I O2).
Proof.
  intros F1 F2. unfold map_range_product. destruct (map_product is_empty _ l1 l2) as [l0| | |] eqn:E; cbn [bind]; try discriminate. intros ED.
  destruct (map_product_gen (fun x : pt * list Z => fits np n m1 (fst x) /\ length (snd x) = m2) (range_product hash no_redundant tab fuel) np n m1 np n m2 np n (m1 + m2)
    (fun x => (fst (fst (fst x)), snd (fst (fst x)), snd (fst x) ++ snd x))
    (fun b1 b2 x => rel b1 (fst x) /\ relates b2 (fst (fst (fst x))) (snd (fst (fst x))) (snd x)) l1 l2 l0) as [A B]; [| |exact F1|exact F2|exact E|].
  - intros b1 b2 b K1 K2 H. destruct (range_product_ok hash no_redundant tab fuel TAB b1 b2 b np n m1 m2 K1 K2 H) as [K Q]. split; [exact K|]. intros [[[P I1] O1] I2] ((L1 & L2 & L3) & L4). apply Q; assumption.
  - intros [[[P I1] O1] I2] ((L1 & L2 & L3) & L4). cbn in *. unfold fits. cbn. rewrite !app_length. lia.
  - destruct (remove_obvious_duplicates_ok _ _ _ l0 l A ED) as [AD BD]. split; [exact AD|]. intros P I O1 O2 L1 L2 L3 L4. rewrite BD by (rewrite ?app_length; lia). etransitivity; [exact (B ((P, I, O1), O2) (conj (conj L1 (conj L2 L3)) L4))|]. apply any2.
Qed.
Lemma map_universe_any np ni no l P I O : okm np ni no l -> map_plain_universe l = true -> length P = np -> length I = ni -> length O = no -> relates_any l P I O.
Proof.
  intros F U LP LI LO. unfold map_plain_universe in U. apply existsb_exists in U. destruct U as (b & Hb & U). exists b. split; [exact Hb|]. unfold okm in F. rewrite Forall_forall in F. destruct (F b Hb) as [PB (S1 & S2 & S3)]. apply plain_universe_points; auto. unfold nvar. cbn [length]. rewrite !app_length. lia.
Qed.
Lemma map_intersect_domain_ok np ni no l s l' : okm np ni no l -> okm np 0 ni s -> map_intersect_domain sid hash no_redundant tab fuel l s = Ok l' ->
  okm np ni no l' /\ forall P I O, length P = np -> length I = ni -> length O = no -> (relates_any l' P I O <-> relates_any l P I O /\ relates_any s P [] I).
Proof.
  intros F1 F2. unfold map_intersect_domain, map_intersect_set. destruct (map_plain_universe s) eqn:U.
  { intros [= <-]. split; [exact F1|]. intros P I O LP LI LO. split; [|tauto]. intros H. split; [exact H|]. apply (map_universe_any np 0 ni s); auto. }
  intros E. destruct (pair_all (fits np ni no) (okb np ni no) (okb np 0 ni) (okb np ni no) (intersect_domain sid hash no_redundant tab fuel)
    (fun b1 b2 x => rel b1 x /\ relates b2 (fst (fst x)) [] (snd (fst x))) rel l s l') as [A B]; [|intros b x; apply empty_rel|exact F1|exact F2|exact E|].
  - intros b1 b2 b K1 K2 H. destruct (intersect_domain_ok sid hash no_redundant tab fuel TAB b1 b2 b np ni no K1 K2 H) as [K Q]. split; [exact K|]. intros [[P I] O] (L1 & L2 & L3). apply Q; assumption.
  - split; [exact A|]. intros P I O L1 L2 L3. etransitivity; [exact (B (P, I, O) (conj L1 (conj L2 L3)))|]. apply any2.
Qed.
Lemma map_intersect_range_ok np ni no l s l' : okm np ni no l -> okm np 0 no s -> map_intersect_range hash no_redundant tab fuel l s = Ok l' ->
  okm np ni no l' /\ forall P I O, length P = np -> length I = ni -> length O = no -> (relates_any l' P I O <-> relates_any l P I O /\ relates_any s P [] O).
Proof.
  intros F1 F2. unfold map_intersect_range, map_intersect_set. destruct (map_plain_universe s) eqn:U.
  { intros [= <-]. split; [exact F1|]. intros P I O LP LI LO. split; [|tauto]. intros H. split; [exact H|]. apply (map_universe_any np 0 no s); auto. }
  intros E. destruct (pair_all (fits np ni no) (okb np ni no) (okb np 0 no) (okb np ni no) (intersect_range hash no_redundant tab fuel)
    (fun b1 b2 x => rel b1 x /\ relates b2 (fst (fst x)) [] (snd x)) rel l s l') as [A B]; [|intros b x; apply empty_rel|exact F1|exact F2|exact E|].
  - intros b1 b2 b K1 K2 H. destruct (intersect_range_ok sid hash no_redundant tab fuel TAB b1 b2 b np ni no K1 K2 H) as [K Q]. split; [exact K|]. intros [[P I] O] (L1 & L2 & L3). apply Q; assumption.
  - split; [exact A|]. intros P I O L1 L2 L3. etransitivity; [exact (B (P, I, O) (conj L1 (conj L2 L3)))|]. apply any2.
Qed.
(** unions *)
Lemma fold_add_any P I O : forall l acc, relates_any (fold_left add_basic_map l acc) P I O <-> relates_any acc P I O \/ relates_any l P I O.
Proof.
  induction l as [|b l IH]; intros acc; cbn [fold_left]; [split; [auto|]; intros [H|(x & [] & _)]; exact H|]. rewrite IH. unfold relates_any at 1. rewrite (add_any (fun b => relates b P I O)) by (intros x; apply empty_relates). fold (relates_any acc P I O). split.
  - intros [[H|H]|(x & Hx & H)]; [auto|right; exists b; cbn; auto|right; exists x; cbn; auto].
  - intros [H|(x & [<-|Hx] & H)]; [auto|auto|right; exists x; auto].
Qed.
Lemma fold_add_ok np ni no : forall l acc, okm np ni no l -> okm np ni no acc -> okm np ni no (fold_left add_basic_map l acc).
Proof. induction l as [|b l IH]; intros acc F G; cbn [fold_left]; [exact G|]. inversion F; subst. apply IH; [assumption|]. apply add_Q; assumption. Qed.
Lemma map_union_disjoint_ok np ni no l1 l2 : okm np ni no l1 -> okm np ni no l2 ->
  okm np ni no (map_union_disjoint l1 l2) /\ forall P I O, length P = np -> length I = ni -> length O = no -> (relates_any (map_union_disjoint l1 l2) P I O <-> relates_any l1 P I O \/ relates_any l2 P I O).
Proof.
  intros F1 F2. unfold map_union_disjoint. destruct (Nat.eqb_spec (length l1) 0) as [N1|N1].
  { destruct l1; [|discriminate]. split; [exact F2|]. intros P I O _ _ _. split; [auto|]. intros [(x & [] & _)|H]. exact H. }
  destruct (Nat.eqb_spec (length l2) 0) as [N2|N2].
  { destruct l2; [|discriminate]. split; [exact F1|]. intros P I O _ _ _. split; [auto|]. intros [H|(x & [] & _)]. exact H. }
  destruct (map_plain_universe l1) eqn:U1; [split; [exact F1|]; intros P I O LP LI LO; split; [auto|]; intros _; apply (map_universe_any np ni no l1); auto|].
  destruct (map_plain_universe l2) eqn:U2; [split; [exact F2|]; intros P I O LP LI LO; split; [auto|]; intros _; apply (map_universe_any np ni no l2); auto|].
  split; [apply fold_add_ok; [exact F2|]; apply fold_add_ok; [exact F1|constructor]|]. intros P I O _ _ _. rewrite !fold_add_any. split; [|tauto]. intros [[(x & [] & _)|H]|H]; auto.
Qed.
Lemma map_union_ok np ni no l1 l2 l : okm np ni no l1 -> okm np ni no l2 -> map_union no_redundant tab qsort l1 l2 = Ok l ->
  okm np ni no l /\ forall P I O, length P = np -> length I = ni -> length O = no -> (relates_any l P I O <-> relates_any l1 P I O \/ relates_any l2 P I O).
Proof.
  intros F1 F2. unfold map_union. destruct (map_plain_equal no_redundant tab qsort l1 l2) as [e| | |] eqn:E; cbn [bind]; try discriminate. intros [= <-]. destruct e; [|apply map_union_disjoint_ok; assumption].
  split; [exact F1|]. intros P I O LP LI LO. rewrite <- (map_plain_equal_ok np ni no l1 l2 F1 F2 E P I O LP LI LO). tauto.
Qed.
(** projections *)
Lemma map_project_out_ok np ni no l t first n l' : okm np ni no l -> map_project_out hash no_redundant tab fuel drd l t first n = Ok l' ->
  okm (less t DParam n np) (less t DIn n ni) (less t DOut n no) l' /\
  forall A C, length A = (match t with DParam => 0 | DIn => np | DOut => np + ni end + first)%nat -> (length A + n + length C)%nat = (np + ni + no)%nat ->
    ((exists b, List.In b l' /\ points b (1 :: A ++ C)) <-> exists X, length X = n /\ exists b, List.In b l /\ points b (1 :: A ++ X ++ C)).
Proof.
  intros F. unfold map_project_out. destruct (Nat.eqb_spec n 0) as [N0|N0].
  { intros [= <-]. subst n. split; [destruct t; cbn [less]; rewrite Nat.sub_0_r; exact F|]. intros A C _ _. split; [intros H; exists []; auto|]. intros (X & LX & H). destruct X; [exact H|discriminate]. }
  intros E. destruct (each_all (fun x : list Z * list Z => length (fst x) = (match t with DParam => 0 | DIn => np | DOut => np + ni end + first)%nat /\ (length (fst x) + n + length (snd x))%nat = (np + ni + no)%nat)
    (okb np ni no) (okb (less t DParam n np) (less t DIn n ni) (less t DOut n no)) (fun b => project_out hash no_redundant tab fuel drd b t first n)
    (fun b x => exists X, length X = n /\ points b (1 :: fst x ++ X ++ snd x)) (fun b x => points b (1 :: fst x ++ snd x)) l l') as [A B]; [|exact F|exact E|].
  - intros b b' [PB (S1 & S2 & S3)] H. destruct (project_out_ok sid hash no_redundant tab fuel drd TAB DRD b t first n b' PB H) as (_ & K & Q). rewrite S1, S2, S3 in K. split; [exact K|]. intros [A C] [L1 L2]. cbn [fst snd] in *. apply Q; [destruct t; cbn [dim_offset]; lia|unfold nvar; lia].
  - split; [exact A|]. intros a c L1 L2. etransitivity; [exact (B (a, c) (conj L1 L2))|]. cbn [fst snd]. split; [intros (b & Hb & X & LX & H); eauto|intros (X & LX & b & Hb & H); eauto].
Qed.
Lemma map_reset_ok np ni no np' ni' no' l : okm np ni no l -> (np + ni + no = np' + ni' + no')%nat ->
  okm np' ni' no' (map (fun b => reset_dims sid b np' ni' no') l) /\
  forall q, length q = (1 + np + ni + no)%nat -> hd 0 q = 1 -> ((exists b, List.In b (map (fun b => reset_dims sid b np' ni' no') l) /\ points b q) <-> exists b, List.In b l /\ points b q).
Proof.
  intros F N. unfold okm in *. rewrite Forall_forall in F. split.
  - rewrite Forall_map, Forall_forall. intros b Hb. apply (reset_okb sid b np ni no); [apply F, Hb|exact N].
  - intros q Lq Hq. split.
    + intros (b & Hb & H). apply in_map_iff in Hb. destruct Hb as (a & <- & Ha). exists a. split; [exact Ha|]. apply (reset_okb sid a np ni no np' ni' no' (F a Ha) N); assumption.
    + intros (b & Hb & H). exists (reset_dims sid b np' ni' no'). split; [apply (in_map (fun b => reset_dims sid b np' ni' no')); exact Hb|]. apply (reset_okb sid b np ni no np' ni' no' (F b Hb) N); assumption.
Qed.
Lemma map_domain_ok np ni no l d : okm np ni no l -> map_domain sid hash no_redundant tab fuel drd np ni no l = Ok d ->
  okm np 0 ni d /\ forall P I, length P = np -> length I = ni -> (relates_any d P [] I <-> exists O, length O = no /\ relates_any l P I O).
Proof.
  intros F. unfold map_domain. destruct (map_project_out hash no_redundant tab fuel drd l DOut 0 no) as [l1| | |] eqn:E; cbn [bind]; try discriminate. intros [= <-]. destruct (map_project_out_ok np ni no l DOut 0 no l1 F E) as [F1 Q1]. cbn [less] in F1. rewrite Nat.sub_diag in F1.
  destruct (map_reset_ok np ni 0 np 0 ni l1 F1) as [F2 Q2]; [lia|]. split; [exact F2|]. intros P I LP LI. unfold relates_any at 1, relates. cbn [app]. rewrite Q2 by (first [reflexivity|cbn [length]; rewrite ?app_length; lia]). specialize (Q1 (P ++ I) []). rewrite app_nil_r in Q1. rewrite Q1 by (rewrite ?app_length; cbn [length]; lia).
  split; intros (O & LO & b & Hb & H); exists O; (split; [exact LO|]); exists b; (split; [exact Hb|]); unfold relates in *; rewrite app_nil_r, <- app_assoc in *; exact H.
Qed.
Lemma map_range_ok np ni no l d : okm np ni no l -> map_range sid hash no_redundant tab fuel drd np ni no l = Ok d ->
  okm np 0 no d /\ forall P O, length P = np -> length O = no -> (relates_any d P [] O <-> exists I, length I = ni /\ relates_any l P I O).
Proof.
  intros F. unfold map_range. destruct (map_project_out hash no_redundant tab fuel drd l DIn 0 ni) as [l1| | |] eqn:E; cbn [bind]; try discriminate. intros [= <-]. destruct (map_project_out_ok np ni no l DIn 0 ni l1 F E) as [F1 Q1]. cbn [less] in F1. rewrite Nat.sub_diag in F1.
  destruct (map_reset_ok np 0 no np 0 no l1 F1) as [F2 Q2]; [lia|]. split; [exact F2|]. intros P O LP LO. unfold relates_any at 1, relates. cbn [app]. rewrite Q2 by (first [reflexivity|cbn [length]; rewrite ?app_length; lia]). rewrite (Q1 P O) by lia.
  split; intros (I & LI & b & Hb & H); exists I; (split; [exact LI|]); exists b; (split; [exact Hb|]); exact H.
Qed.
(** intersection *)
Lemma add_constraint_ok np ni no b1 b2 l : okb np ni no b1 -> okb np ni no b2 -> ndiv b1 = 0%nat -> ndiv b2 = 0%nat -> (length (b_eq b2) + length (b_ineq b2))%nat = 1%nat ->
  intersect_add_constraint hash no_redundant tab fuel b1 b2 = Ok l ->
  okm np ni no l /\ forall P I O, length P = np -> length I = ni -> length O = no -> (relates_any l P I O <-> relates b1 P I O /\ relates b2 P I O).
Proof.
  intros [P1 (S1 & S2 & S3)] [P2 (T1 & T2 & T3)] D1 D2 N. unfold intersect_add_constraint. rewrite D1. set (b1' := if Nat.eqb _ _ then _ else _).
  assert (TT : total b1 = total b2) by (unfold total, nvar; congruence).
  assert (K : okb np ni no b1' /\ forall P I O, length P = np -> length I = ni -> length O = no -> (relates b1' P I O <-> relates b1 P I O /\ relates b2 P I O)).
  { assert (R2 : forall P I O, length P = np -> length I = ni -> length O = no -> (relates b2 P I O <-> described (b_eq b2) (b_ineq b2) 0 (1 :: P ++ I ++ O))).
    { intros P I O LP LI LO. unfold relates, points, member. rewrite D2. split; [tauto|]. intros H. split; [|exact H]. destruct (b_empty b2) eqn:E2; [|reflexivity]. exfalso. destruct H as (e & Le & H). destruct P2 as (_ & _ & _ & _ & _ & HO). apply (HO E2 ((1 :: P ++ I ++ O) ++ e)); [|reflexivity|exact H].
      rewrite app_length, Le. cbn [length]. rewrite !app_length. unfold total, nvar. rewrite D2. lia. }
    assert (GEN : forall eqs ineqs nd, rows_of (1 + total b1) eqs -> rows_of (1 + total b1) ineqs -> (forall v, system eqs ineqs v <-> system (b_eq b1) (b_ineq b1) v /\ system (b_eq b2) (b_ineq b2) v) ->
       let c := mkb (b_param b1) (b_in b1) (b_out b1) eqs ineqs (b_div b1) (b_rat b1) (b_empty b1) nd in
       okb np ni no c /\ forall P I O, length P = np -> length I = ni -> length O = no -> (relates c P I O <-> relates b1 P I O /\ relates b2 P I O)).
    { intros eqs ineqs nd W1 W2 SY c. destruct P1 as ((_ & _ & Wd) & A & D & IM & R & H). split; [split; [|repeat split; assumption]|].
      - split; [split; [exact W1|split; [exact W2|exact Wd]]|]. split; [exact A|]. split; [exact D|]. split; [|split; [exact R|]].
        + intros v Lv Hv S. apply (IM v Lv Hv). apply SY in S. apply S.
        + intros E v Lv Hv S. apply (H E v Lv Hv). apply SY in S. apply S.
      - intros P I O LP LI LO. rewrite R2 by assumption. unfold relates, points, member, described, c. cbn [b_empty b_eq b_ineq]. change (ndiv (mkb _ _ _ eqs ineqs (b_div b1) _ _ _)) with (ndiv b1). rewrite D1. split.
        + intros (E & e & Le & S). apply SY in S. destruct S as [Sa Sb]. split; [split; [exact E|]|]; exists e; auto.
        + intros ((E & e & Le & Sa) & (e' & Le' & Sb)). split; [exact E|]. exists e. split; [exact Le|]. apply SY. destruct e, e'; try discriminate. auto. }
    unfold b1'. destruct P2 as ((We2 & Wi2 & _) & _). pose proof P1 as ((We1 & Wi1 & _) & _). rewrite <- TT in We2, Wi2. destruct (Nat.eqb_spec (length (b_eq b2)) 1) as [L|L].
    - destruct (b_eq b2) as [|r [|]] eqn:EQ; try discriminate L. destruct (b_ineq b2) as [|] eqn:EI; [|cbn in N; lia]. destruct (b_empty b1) eqn:EB.
      + split; [split; [exact P1|repeat split; assumption]|]. intros P I O _ _ _. unfold relates at 1 2, points, member. rewrite EB. intuition discriminate.
      + cbn [nth]. unfold pad. cbn [repeat]. rewrite app_nil_r. replace (set_nd (set_eq b1 (b_eq b1 ++ [r])) false) with (mkb (b_param b1) (b_in b1) (b_out b1) (b_eq b1 ++ [r]) (b_ineq b1) (b_div b1) (b_rat b1) false false) by (unfold set_nd, set_eq; cbn; rewrite EB; reflexivity).
        apply GEN; [apply Forall_app; auto|exact Wi1|]. intros v. unfold system. rewrite Forall_app. intuition.
    - destruct (b_eq b2) as [|r0 [|]] eqn:EQ; [|cbn in L; lia|cbn in N; lia]. destruct (b_ineq b2) as [|r [|]] eqn:EI; [cbn in N; lia| |cbn in N; lia]. cbn [nth]. unfold pad. cbn [repeat]. rewrite app_nil_r.
      replace (set_ineq b1 (b_ineq b1 ++ [r])) with (mkb (b_param b1) (b_in b1) (b_out b1) (b_eq b1) (b_ineq b1 ++ [r]) (b_div b1) (b_rat b1) (b_empty b1) (b_nd b1)) by reflexivity.
      apply GEN; [exact We1|apply Forall_app; auto|]. intros v. unfold system. rewrite Forall_app. intuition. }
  clearbody b1'. destruct K as [[PK SZ] Q]. destruct (simp_fin hash no_redundant tab fuel b1') as [b| | |] eqn:E; cbn [bind]; try discriminate. intros [= <-]. pose proof (simp_fin_same hash no_redundant tab fuel TAB b1' b PK E) as SM. pose proof SZ as (Z1 & Z2 & Z3). split.
  - destruct (b_empty b); [constructor|]. constructor; [apply (same_okb np ni no b1' b SM SZ)|constructor].
  - intros P I O LP LI LO. rewrite <- Q by assumption. rewrite (same_relates b1' b P I O SM) by congruence. unfold relates_any. destruct (b_empty b) eqn:EB.
    + split; [intros (x & [] & _)|intros H; destruct (empty_relates b P I O EB H)].
    + split; [intros (x & [<-|[]] & H); exact H|intros H; exists b; cbn; auto].
Qed.
Lemma map_intersect_ok np ni no l1 l2 l : okm np ni no l1 -> okm np ni no l2 -> map_intersect hash no_redundant tab fuel is_empty qsort l1 l2 = Ok l ->
  okm np ni no l /\ forall P I O, length P = np -> length I = ni -> length O = no -> (relates_any l P I O <-> relates_any l1 P I O /\ relates_any l2 P I O).
Proof.
  intros F1 F2. unfold map_intersect. destruct (Nat.eqb_spec (length l1) 0) as [N1|N1]; cbn [orb].
  { intros [= <-]. split; [exact F1|]. intros P I O _ _ _. destruct l1; [|discriminate]. split; [intros (x & [] & _)|tauto]. }
  destruct (map_plain_universe l2) eqn:U2.
  { intros [= <-]. split; [exact F1|]. intros P I O LP LI LO. split; [|tauto]. intros H. split; [exact H|]. apply (map_universe_any np ni no l2); auto. }
  destruct (Nat.eqb_spec (length l2) 0) as [N2|N2]; cbn [orb].
  { intros [= <-]. split; [exact F2|]. intros P I O _ _ _. destruct l2; [|discriminate]. split; [intros (x & [] & _)|tauto]. }
  destruct (map_plain_universe l1) eqn:U1.
  { intros [= <-]. split; [exact F2|]. intros P I O LP LI LO. split; [|tauto]. intros H. split; [|exact H]. apply (map_universe_any np ni no l1); auto. }
  destruct (is_convex_no_locals l1 && is_convex_no_locals l2 && (Nat.eqb (n_constraints l1) 1 || Nat.eqb (n_constraints l2) 1)) eqn:C.
  - destruct l1 as [|b1 [|]]; cbn [is_convex_no_locals andb] in C; try discriminate C. destruct l2 as [|b2 [|]]; cbn [is_convex_no_locals] in C; rewrite ?andb_false_r in C; try discriminate C. apply andb_prop in C. destruct C as [C C3]. apply andb_prop in C. destruct C as [C1 C2]. cbn [is_convex_no_locals] in C1, C2. apply Nat.eqb_eq in C1, C2.
    inversion F1; inversion F2; subst. unfold n_constraints in *. assert (ONE : forall b P I O, relates_any [b] P I O <-> relates b P I O) by (intros b P I O; split; [intros (x & [<-|[]] & HX); exact HX|intros HX; exists b; cbn; auto]). setoid_rewrite ONE. destruct (Nat.eqb_spec (length (b_eq b2) + length (b_ineq b2)) 1) as [C4|C4]; intros E.
    + apply (add_constraint_ok np ni no b1 b2 l); assumption.
    + rewrite orb_false_r in C3. apply Nat.eqb_eq in C3. destruct (add_constraint_ok np ni no b2 b1 l) as [A B]; try assumption. split; [exact A|]. intros P I O LP LI LO. rewrite B by assumption. tauto.
  - destruct (map_plain_equal no_redundant tab qsort l1 l2) as [e| | |] eqn:EE; cbn [bind]; try discriminate. destruct e.
    { intros [= <-]. split; [exact F1|]. intros P I O LP LI LO. rewrite <- (map_plain_equal_ok np ni no l1 l2 F1 F2 EE P I O LP LI LO). tauto. }
    intros E. destruct (map_product_gen (fits np ni no) (intersect hash no_redundant tab fuel) np ni no np ni no np ni no (fun x => x) (fun b1 b2 x => rel b1 x /\ rel b2 x) l1 l2 l) as [A B]; [|auto|exact F1|exact F2|exact E|].
    + intros b1 b2 b K1 K2 H. destruct (intersect_ok sid hash no_redundant tab fuel TAB b1 b2 b np ni no K1 K2 H) as [K Q]. split; [exact K|]. intros [[P I] O] (L1 & L2 & L3). apply Q; assumption.
    + split; [exact A|]. intros P I O L1 L2 L3. etransitivity; [exact (B (P, I, O) (conj L1 (conj L2 L3)))|]. apply any2.
Qed.
End Facts.
