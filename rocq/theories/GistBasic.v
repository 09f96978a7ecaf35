(** The gist of basic maps. *)
From Coq Require Import ZArith List Bool Arith Lia.
From Verif Require Import SeqModel SeqSpec SeqProofs MatModel MatTheory BMapLists BMapModel BMapSpec BMapSem BMapGauss BMapGauss2 BMapOrder BDupModel BDupProofs LocalModel LocalProofs BElimModel BElimSpec BElimProofs BElimCols SimpModel SimpSpec SimpBase SimpDrop SimpNew SimpFinal SetModel SetSpec SetBase SetLift SetOps SetOps2 SetOps3 SetProject SetMaps SubModel SubBase SubMaps GistModel GistSpec GistFlat GistFull GistUset GistComp GistSet GistAlign GistOver GistBmap.
Import ListNotations.
Open Scope Z_scope.

Section Params.
Variables (sid : bmap -> bool) (hash : row -> nat) (no_redundant : bmap -> bool) (tab : bmap -> bool * list kind) (fuel : nat).
Hypothesis TAB : sound_tab tab.
Variable is_empty : bmap -> bool.
Hypothesis EMPTY : sound_emptiness_test is_empty.
Variable gist_tab : bmap -> nat -> bool * list kind.
Hypothesis GTAB : sound_gist_tab gist_tab.
Variable detect : bmap -> res bmap.
Hypothesis DETECT : sound_detection detect.
Variable drd : bmap -> res bmap.
Hypothesis DRD : forall b b', proper b -> drd b = Ok b' -> same b b'.
Variable strides : bmap -> bmap -> res bmap.
Hypothesis STRIDES : sound_strides (simp_fin hash no_redundant tab fuel) strides.

Lemma overlying_at s like b' x d : flat (total like) s -> proper like -> ordered like -> explicit (nvar like) (ndiv like) (b_div like) ->
  length x = (1 + nvar like)%nat -> hd 0 x = 1 -> length d = ndiv like -> divisions (b_div like) (1 + nvar like) (x ++ d) ->
  overlying sid hash no_redundant tab fuel s like = Ok b' ->
  okb (b_param like) (b_in like) (b_out like) b' /\ (b_div b' = [] \/ exists b0, proper b0 /\ simp_fin hash no_redundant tab fuel b0 = Ok b') /\
  (b_empty s = false -> emptied b') /\ (points b' x <-> sat s (x ++ d)).
Proof.
  intros F P O EX Lx Hx Ld D E. destruct (overlying_ok sid hash no_redundant tab fuel TAB s like b' F P O E) as (P' & SZ & SF & EM & Q). split; [split; assumption|]. split; [exact SF|]. split; [exact EM|]. rewrite (Q x Lx Hx). split.
  - intros (e & Le & De & Se). replace d with e; [exact Se|]. apply (values_unique like x e d EX Lx Le Ld De D).
  - intros S. exists d. auto.
Qed.
Lemma overlying_nodiv s like b' : overlying sid hash no_redundant tab fuel s like = Ok b' -> b_div s = [].
Proof. unfold overlying. destruct (negb (Nat.eqb (b_param s) 0) || negb (Nat.eqb (ndiv s) 0)) eqn:E; [discriminate|]. intros _. apply orb_false_iff in E as [_ E]. apply negb_false_iff, Nat.eqb_eq in E. unfold ndiv in E. destruct (b_div s); [reflexivity|discriminate E]. Qed.
Lemma fresh_relates np ni no P I O : length P = np -> length I = ni -> length O = no -> okb np ni no (fresh_map np ni no) /\ relates (fresh_map np ni no) P I O.
Proof.
  intros LP LI LO. assert (K : okb np ni no (fresh_map np ni no)).
  { split; [|repeat split]. split; [repeat split; constructor|]. split; [exists (fun _ => 0%nat); intros k j Hk; cbn in Hk; lia|]. split; [constructor|]. split; [intros v _ _ _ k Hk; cbn in Hk; lia|]. split; [reflexivity|intros C; discriminate C]. }
  split; [exact K|]. apply plain_universe_points; [apply K|reflexivity|unfold nvar; cbn; rewrite !app_length; lia|reflexivity].
Qed.
Lemma basic_gist_ok np ni no b ctx b' P I O : okb np ni no b -> okb np ni no ctx -> length P = np -> length I = ni -> length O = no -> relates ctx P I O ->
  basic_map_gist sid hash no_redundant tab fuel drd is_empty gist_tab detect strides b ctx = Ok b' ->
  okb np ni no b' /\ (relates b' P I O <-> relates b P I O).
Proof.
  intros KB KC LP LI LO RC. unfold basic_map_gist. destruct (plain_universe b); [intros [= <-]; split; [exact KB|tauto]|].
  pose proof (proj1 RC) as EC. rewrite EC. destruct (b_empty b) eqn:EB; [intros [= <-]; split; [exact KB|tauto]|].
  destruct KB as (PB & SB). destruct KC as (PC & SC). destruct (remove_redundancies no_redundant tab b) as [b1| | |] eqn:E1; cbn [bind]; try discriminate. destruct (remove_redundancies no_redundant tab ctx) as [c1| | |] eqn:E2; cbn [bind]; try discriminate.
  destruct (redundancies_same no_redundant tab b b1 TAB PB E1) as (S1 & G1). destruct (G1 EB) as (G1' & _). destruct (redundancies_same no_redundant tab ctx c1 TAB PC E2) as (S2 & G2). destruct (G2 EC) as (_ & OC1). clear G1 G2 E1 E2.
  destruct (order_divs b1) as [b2| | |] eqn:E3; cbn [bind]; try discriminate. pose proof (proj1 (proj2 S1)) as P1. destruct (order_same b1 b2 P1 E3) as (S3 & O3 & F3).
  assert (EM2 : emptied b2). { intros C. assert (C1 : b_empty b1 = true) by congruence. destruct G1' as (_ & _ & _ & _ & _ & BARE). destruct (BARE C1) as (D0 & I0 & _). rewrite (order_nodiv b1 D0) in E3. injection E3 as <-. exact I0. }
  pose proof (same_trans _ _ _ S1 S3) as SBB. pose proof (proj1 (proj2 S3)) as P2. clear S1 S3 E3 G1' P1 F3.
  destruct (same_okb np ni no b b2 SBB SB) as (_ & SZ2). destruct (same_okb np ni no ctx c1 S2 SC) as (PC1 & SC1).
  assert (NVS : forall y, sized np ni no y -> nvar y = (np + ni + no)%nat) by (intros y (A & B & C); unfold nvar; lia).
  destruct (align_divs c1 b2) as [c2| | |] eqn:E4; cbn [bind]; try discriminate. destruct (align_ok c1 b2 c2 PC1 P2 O3 ltac:(rewrite !NVS by assumption; reflexivity) E4) as (S4 & L4 & B4 & EX & _ & OC2). specialize (OC2 OC1).
  destruct (same_okb np ni no c1 c2 S4 SC1) as (PC2 & SC2). pose proof (same_trans _ _ _ S2 S4) as SCC. clear S2 S4 PC1 SC1 E4 OC1.
  set (x := 1 :: P ++ I ++ O). assert (Lx : length x = (1 + (np + ni + no))%nat) by (unfold x; cbn [length]; rewrite !app_length; lia). assert (Hx : hd 0 x = 1) by reflexivity.
  pose proof (NVS b2 SZ2) as NV2. pose proof (NVS c2 SC2) as NVC. pose proof (NVS b SB) as NVB. pose proof (NVS ctx SC) as NVX.
  assert (RC2 : points c2 x) by (apply SCC; [lia|exact Hx|exact RC]). pose proof RC2 as RC3. apply (points_described c2 x PC2 ltac:(lia) Hx) in RC3. destruct RC3 as (e & Le & Se).
  set (extra := (ndiv c2 - ndiv b2)%nat). set (d := firstn (ndiv b2) e). set (f := skipn (ndiv b2) e). assert (DF : e = d ++ f) by (symmetry; apply firstn_skipn). assert (Ld : length d = ndiv b2) by (unfold d; rewrite firstn_length; lia). assert (Lf : length f = extra) by (unfold f, extra; rewrite skipn_length; lia).
  clearbody d f. subst e. rewrite app_assoc in Se.
  assert (Hh : forall l, hd 0 (x ++ l) = 1) by reflexivity.
  assert (TC : total c2 = (total b2 + extra)%nat) by (unfold total, extra; lia).
  assert (A0 : at_point (total b2 + extra) ((x ++ d) ++ f)) by (split; [rewrite !app_length; unfold total; lia|reflexivity]).
  assert (Ad : at_point (total b2) (x ++ d)) by (split; [rewrite !app_length; unfold total; lia|reflexivity]).
  assert (DD : divisions (b_div b2) (1 + nvar b2) (x ++ d)). { apply (aligned_values b2 c2 x d f (proj1 P2) B4 L4 ltac:(lia) ltac:(lia) Ld). rewrite app_assoc. apply PC2; [rewrite TC; apply A0|reflexivity|exact Se]. }
  assert (QB : points b x <-> sat b2 (x ++ d)). { rewrite (proj2 (proj2 SBB) x); [|lia|exact Hx]. apply points_at; [exact P2|exact EX|lia|exact Hx|exact Ld|exact DD]. }
  pose proof (underlying_flat b2 P2) as FB. pose proof (underlying_flat c2 PC2) as FC. rewrite TC in FC.
  destruct (add_dims_ok (total b2) (underlying b2) extra FB EM2) as (FA & EMA & ZA & QA). specialize (QA (x ++ d) f Ad Lf).
  destruct (uset_gist hash no_redundant tab fuel is_empty gist_tab detect _ _) as [s1| | |] eqn:E5; cbn [bind]; try discriminate.
  destruct (uset_gist_ok hash no_redundant tab fuel TAB is_empty EMPTY gist_tab GTAB detect DETECT (total b2 + extra) (total b2) _ _ s1 ((x ++ d) ++ f) FA EMA ZA FC A0 Se E5) as (FS1 & DEP & QS1). specialize (QS1 _ A0 Se). clear E5 EMA ZA FA.
  destruct (project_out hash no_redundant tab fuel drd s1 DOut (total b2) extra) as [s2| | |] eqn:E6; cbn [bind]; try discriminate.
  destruct (project_out_ok sid hash no_redundant tab fuel drd TAB DRD s1 DOut (total b2) extra s2 (proj1 FS1) E6) as (_ & K2 & QP). pose proof FS1 as (PS1 & (Z1 & Z2 & Z3) & _). cbn [less dim_offset] in K2, QP. rewrite Z1, Z2, Z3 in K2. replace (total b2 + extra - extra)%nat with (total b2) in K2 by lia.
  assert (QS2 : b_div s2 = [] -> flat (total b2) s2 /\ (sat s2 (x ++ d) <-> points b x)).
  { intros D2. assert (F2 : flat (total b2) s2) by (split; [apply K2|split; [apply K2|exact D2]]). split; [exact F2|]. assert (QU : points b x <-> sat s1 ((x ++ d) ++ f)) by (rewrite QB; change (sat b2 (x ++ d)) with (sat (underlying b2) (x ++ d)); rewrite <- QA; exact QS1). rewrite QU, <- (flat_points _ s2 _ F2 Ad). set (y := sat s1 _). change (x ++ d) with (1 :: (P ++ I ++ O) ++ d). rewrite <- (app_nil_r ((P ++ I ++ O) ++ d)). rewrite QP.
    2: { rewrite Z1, Z2. destruct Ad as (Ad & _). change (x ++ d) with (1 :: (P ++ I ++ O) ++ d) in Ad. cbn [length] in Ad. lia. }
    2: { destruct (flat_nvar _ _ FS1) as (N1 & _). rewrite N1. destruct Ad as (Ad & _). change (x ++ d) with (1 :: (P ++ I ++ O) ++ d) in Ad. cbn [length] in *. lia. }
    unfold y; clear y. assert (AX : forall X, length X = extra -> at_point (total b2 + extra) (1 :: ((P ++ I ++ O) ++ d) ++ X ++ []) /\ firstn (1 + total b2) (1 :: ((P ++ I ++ O) ++ d) ++ X ++ []) = x ++ d).
    { intros X LX. rewrite app_nil_r. change (1 :: ((P ++ I ++ O) ++ d) ++ X) with ((x ++ d) ++ X). destruct Ad as (Ad & _). split; [split; [rewrite app_length; lia|reflexivity]|]. rewrite <- Ad, firstn_app, firstn_all, Nat.sub_diag. apply app_nil_r. }
    assert (FX : firstn (1 + total b2) ((x ++ d) ++ f) = x ++ d) by (rewrite <- (proj1 Ad), firstn_app, firstn_all, Nat.sub_diag; apply app_nil_r). split.
    - intros (X & LX & H). destruct (AX X LX) as (A1 & A2). apply (flat_points _ s1 _ FS1 A1) in H. apply (DEP _ _ A1 A0); [congruence|exact H].
    - intros H. exists f. split; [exact Lf|]. destruct (AX f Lf) as (A1 & A2). apply (flat_points _ s1 _ FS1 A1). apply (DEP _ _ A1 A0); [congruence|exact H]. }
  destruct SZ2 as (Y1 & Y2 & Y3). destruct (Nat.eqb (length (b_eq s2)) 0 || Nat.eqb (ndiv c2) 0 || b_empty s2) eqn:EQ.
  - intros E7. destruct (QS2 (overlying_nodiv _ _ _ E7)) as (F2 & Q2). destruct (overlying_at s2 b2 b' x d F2 P2 O3 EX ltac:(lia) Hx Ld DD E7) as (K & _ & _ & Q). rewrite Y1, Y2, Y3 in K. split; [exact K|]. unfold relates. fold x. rewrite Q. exact Q2.
  - apply orb_false_iff in EQ as [_ ES]. destruct (overlying sid hash no_redundant tab fuel (set_ineq s2 []) b2) as [q1| | |] eqn:E7; cbn [bind]; try discriminate. pose proof (overlying_nodiv _ _ _ E7) as D2. change (b_div s2 = []) in D2. destruct (QS2 D2) as (F2 & Q2). clear QS2.
    pose proof F2 as (PS2 & ZS2 & _). destruct PS2 as ((W1 & W2 & W3) & _ & _ & _ & RS2 & _).
    assert (FE : flat (total b2) (set_ineq s2 [])) by (apply flat_intro; [split; [exact W1|split; [constructor|exact W3]]|exact ZS2|exact D2|exact RS2|intros C; cbn in C; congruence]).
    assert (FI : flat (total b2) (set_eq s2 [])) by (apply flat_intro; [split; [constructor|split; [exact W2|exact W3]]|exact ZS2|exact D2|exact RS2|intros C; cbn in C; congruence]).
    destruct (overlying_at _ b2 q1 x d FE P2 O3 EX ltac:(lia) Hx Ld DD E7) as (K1 & SF1 & EM1 & Q1). specialize (EM1 ES). rewrite Y1, Y2, Y3 in K1.
    destruct (strides q1 c2) as [q2| | |] eqn:E8; cbn [bind]; try discriminate. destruct (STRIDES np ni no q1 c2 q2 (proj1 K1) (proj2 K1) PC2 SC2 SF1 E8) as (P8 & S8 & EM8 & Q8). specialize (EM8 EM1).
    destruct (remove_shifted_constraints sid hash no_redundant tab fuel q2 c2) as [q3| | |] eqn:E9; cbn [bind]; try discriminate. destruct (shifted_ok sid hash no_redundant tab fuel TAB q2 c2 q3 np ni no x (conj P8 S8) EM8 (conj PC2 SC2) OC2 Lx Hx RC2 E9) as (K9 & Q9).
    destruct (overlying sid hash no_redundant tab fuel (set_eq s2 []) b2) as [q4| | |] eqn:E10; cbn [bind]; try discriminate. destruct (overlying_at _ b2 q4 x d FI P2 O3 EX ltac:(lia) Hx Ld DD E10) as (K10 & _ & _ & Q10). rewrite Y1, Y2, Y3 in K10.
    destruct (intersect hash no_redundant tab fuel q4 q3) as [q5| | |] eqn:E11; cbn [bind]; try discriminate. destruct (intersect_ok sid hash no_redundant tab fuel TAB q4 q3 q5 np ni no K10 K9 E11) as (K11 & Q11). intros E12.
    destruct (redundancies_same no_redundant tab q5 b' TAB (proj1 K11) E12) as (S12 & _). split; [exact (same_okb np ni no q5 b' S12 (proj2 K11))|].
    destruct K11 as (_ & (V1 & V2 & V3)). rewrite <- (same_relates q5 b' P I O S12) by congruence. rewrite (Q11 P I O LP LI LO). unfold relates at 1 2. fold x. rewrite Q10, Q9. specialize (Q8 P I O LP LI LO RC2). unfold relates in Q8. fold x in Q8. rewrite Q8, Q1. unfold relates. fold x. rewrite <- Q2. unfold sat, system. cbn [set_eq set_ineq b_eq b_ineq]. split.
    + intros ((_ & A) & (B & _)). auto.
    + intros (A & B). repeat split; auto; constructor.
Qed.
End Params.
