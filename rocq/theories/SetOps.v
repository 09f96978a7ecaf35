(** The operations on basic maps relate the right integer points. *)
From Coq Require Import ZArith List Bool Arith Lia.
From Verif Require Import BMapGauss2 BElimSpec SeqSpec SeqModel MatModel SeqProofs BMapModel BMapSpec BMapSem ReorderModel LocalModel BElimModel BElimProofs BElimVars SimpModel SimpSpec SimpBase SimpFinal SetModel SetBase SetSpec SetViews SetLift.
Import ListNotations.
Open Scope Z_scope.

Lemma slice_is a m c s n w : w = a ++ m ++ c -> length a = s -> length m = n -> slice s n w = m.
Proof. intros -> <- <-. unfold slice. rewrite skipn_app, skipn_all, Nat.sub_diag. cbn [app skipn]. rewrite firstn_app, Nat.sub_diag, firstn_all, firstn_O, app_nil_r. reflexivity. Qed.
Lemma relates_system b P I O : proper b -> length P = b_param b -> length I = b_in b -> length O = b_out b ->
  (relates b P I O <-> exists e, length e = ndiv b /\ system (b_eq b) (b_ineq b) (1 :: P ++ I ++ O ++ e)).
Proof.
  intros PR LP LI LO. unfold relates. rewrite points_described; [|exact PR|cbn [length]; rewrite !app_length; unfold nvar; lia|reflexivity]. unfold described. cbn [app]. setoid_rewrite <- app_assoc. setoid_rewrite <- app_assoc. reflexivity.
Qed.

Lemma apart_sub n d N o n' o' : apart n d N o -> (o <= o')%nat -> (o' + n' <= o + N)%nat -> apart n d n' o'.
Proof. unfold apart. lia. Qed.
Lemma apart_out n d N o k : apart n d N o -> (o <= k)%nat -> (k < o + N)%nat -> (d + n <= k \/ k < d)%nat.
Proof. unfold apart. lia. Qed.

Lemma dm_block_comm m s n d s' n' d' : apart n d n' d' -> (1 + d + n <= length m)%nat -> (1 + d' + n' <= length m)%nat -> dm_block (dm_block m s n d) s' n' d' = dm_block (dm_block m s' n' d') s n d.
Proof.
  intros A L1 L2. apply (nth_ext _ _ (0%nat, 0) (0%nat, 0)); [rewrite !dm_block_len; reflexivity|]. intros k _. rewrite !nth_dm_block by (rewrite ?dm_block_len; assumption). unfold apart in A.
  destruct (Nat.leb_spec (1 + d') k), (Nat.ltb_spec k (1 + d' + n')), (Nat.leb_spec (1 + d) k), (Nat.ltb_spec k (1 + d + n)); cbn [andb]; try reflexivity; lia.
Qed.

(** ** two basic maps *)
Section Two.
Variables (b1 b2 : bmap) (np ni no post : nat) (EQ : list (list Z)) (d1 d2 d3 f1 f2 f3 : nat).
Let nv := (np + ni + no)%nat.
Let tot := (nv + (0 + (ndiv b1 + (ndiv b2 + post))))%nat.
Let o2 := (nv + ndiv b1)%nat.
Let m1 := map4 tot b1 d1 d2 d3 nv.
Let m2 := map4 tot b2 f1 f2 f3 o2.
Let nd12 := (ndiv b1 + ndiv b2)%nat.
Hypothesis LE : rows_of (1 + tot) EQ.
Hypothesis P1 : proper b1.
Hypothesis P2 : proper b2.
Hypothesis X1 : inside tot (b_param b1) d1 /\ inside tot (b_in b1) d2 /\ inside tot (b_out b1) d3 /\ apart (b_param b1) d1 nd12 nv /\ apart (b_in b1) d2 nd12 nv /\ apart (b_out b1) d3 nd12 nv /\
  apart (b_param b1) d1 (b_in b1) d2 /\ apart (b_param b1) d1 (b_out b1) d3 /\ apart (b_in b1) d2 (b_out b1) d3.
Hypothesis X2 : inside tot (b_param b2) f1 /\ inside tot (b_in b2) f2 /\ inside tot (b_out b2) f3 /\ apart (b_param b2) f1 nd12 nv /\ apart (b_in b2) f2 nd12 nv /\ apart (b_out b2) f3 nd12 nv /\
  apart (b_param b2) f1 (b_in b2) f2 /\ apart (b_param b2) f1 (b_out b2) f3 /\ apart (b_in b2) f2 (b_out b2) f3.
Let b := combined b1 b2 np ni no 0 post EQ (copy_constraint m1) (copy_constraint m2) false.
Ltac inn := unfold inside, tot, o2; lia.
Ltac sub := apply (apart_sub _ _ nd12 nv); [assumption|unfold o2; lia|unfold nd12, o2; lia].
Ltac out := apply (apart_out _ _ nd12 nv); [assumption|unfold o2; lia|unfold nd12, o2; lia].
Lemma two_hyps :
  (forall r, length r = (1 + total b1)%nat -> length (copy_constraint m1 r) = (1 + tot)%nat) /\
  (forall r, length r = (1 + total b2)%nat -> length (copy_constraint m2 r) = (1 + tot)%nat) /\
  (forall w, length w = (1 + tot)%nat -> length (vw b1 d1 d2 d3 nv w) = (1 + total b1)%nat /\ hd 0 (vw b1 d1 d2 d3 nv w) = hd 0 w /\ (forall k, (k < ndiv b1)%nat -> nth (1 + nvar b1 + k) (vw b1 d1 d2 d3 nv w) 0 = nth (1 + nv + 0 + k) w 0)) /\
  (forall w, length w = (1 + tot)%nat -> length (vw b2 f1 f2 f3 o2 w) = (1 + total b2)%nat /\ hd 0 (vw b2 f1 f2 f3 o2 w) = hd 0 w /\ (forall k, (k < ndiv b2)%nat -> nth (1 + nvar b2 + k) (vw b2 f1 f2 f3 o2 w) 0 = nth (1 + nv + 0 + ndiv b1 + k) w 0)) /\
  (forall r w, length r = (1 + total b1)%nat -> length w = (1 + tot)%nat -> dot (copy_constraint m1 r) w = dot r (vw b1 d1 d2 d3 nv w)) /\
  (forall r w, length r = (1 + total b2)%nat -> length w = (1 + tot)%nat -> dot (copy_constraint m2 r) w = dot r (vw b2 f1 f2 f3 o2 w)) /\
  (forall r j, length r = (1 + total b1)%nat -> (j < ndiv b1)%nat -> nth (1 + nv + 0 + j) (copy_constraint m1 r) 0 = nth (1 + nvar b1 + j) r 0) /\
  (forall r j, length r = (1 + total b1)%nat -> (j < ndiv b2)%nat -> nth (1 + nv + 0 + ndiv b1 + j) (copy_constraint m1 r) 0 = 0) /\
  (forall r j, length r = (1 + total b2)%nat -> (j < ndiv b1)%nat -> nth (1 + nv + 0 + j) (copy_constraint m2 r) 0 = 0) /\
  (forall r j, length r = (1 + total b2)%nat -> (j < ndiv b2)%nat -> nth (1 + nv + 0 + ndiv b1 + j) (copy_constraint m2 r) 0 = nth (1 + nvar b2 + j) r 0).
Proof.
  destruct X1 as (F1 & F2 & F3 & G1 & G2 & G3 & A12 & A13 & A23), X2 as (F1' & F2' & F3' & G1' & G2' & G3' & A12' & A13' & A23'). clear X1 X2.
  assert (F4 : inside tot (ndiv b1) nv) by inn. assert (F4' : inside tot (ndiv b2) o2) by inn.
  assert (A14 : apart (b_param b1) d1 (ndiv b1) nv) by sub. assert (A24 : apart (b_in b1) d2 (ndiv b1) nv) by sub. assert (A34 : apart (b_out b1) d3 (ndiv b1) nv) by sub.
  assert (A14' : apart (b_param b2) f1 (ndiv b2) o2) by sub. assert (A24' : apart (b_in b2) f2 (ndiv b2) o2) by sub. assert (A34' : apart (b_out b2) f3 (ndiv b2) o2) by sub.
  split; [intros r Lr; rewrite copy_len; apply map4_len|]. split; [intros r Lr; rewrite copy_len; apply map4_len|].
  split; [intros w Lw; replace (1 + nv + 0)%nat with (1 + nv)%nat by lia; apply (vw_ok tot); assumption|].
  split; [intros w Lw; replace (1 + nv + 0 + ndiv b1)%nat with (1 + o2)%nat by (unfold o2; lia); apply (vw_ok tot); assumption|].
  split; [intros r w Lr Lw; apply map4_dot; assumption|]. split; [intros r w Lr Lw; apply map4_dot; assumption|].
  split; [intros r j Lr Hj; replace (1 + nv + 0 + j)%nat with (1 + nv + j)%nat by lia; apply map4_div; assumption|].
  split; [intros r j Lr Hj; replace (1 + nv + 0 + ndiv b1 + j)%nat with (1 + (o2 + j))%nat by (unfold o2; lia); apply map4_zero; try assumption; [out|out|out|unfold o2; lia]|].
  split; [intros r j Lr Hj; replace (1 + nv + 0 + j)%nat with (1 + (nv + j))%nat by lia; apply map4_zero; try assumption; [out|out|out|unfold o2; lia]|].
  intros r j Lr Hj. replace (1 + nv + 0 + ndiv b1 + j)%nat with (1 + o2 + j)%nat by (unfold o2; lia). apply map4_div; assumption.
Qed.
Lemma two_good : good b.
Proof.
  destruct two_hyps as (H1 & H2 & H3 & H4 & H5 & H6 & H7 & H8 & H9 & H10). destruct P1 as (W1 & A1 & D1 & I1 & _), P2 as (W2 & A2 & D2 & I2 & _).
  apply (c_good b1 b2 np ni no 0 post EQ _ _ (vw b1 d1 d2 d3 nv) (vw b2 f1 f2 f3 o2)); assumption.
Qed.
Lemma two_points p : length p = (1 + nv)%nat ->
  (points b p <-> exists e1 e2 y, length e1 = ndiv b1 /\ length e2 = ndiv b2 /\ length y = post /\
     Forall (zero_on (p ++ e1 ++ e2 ++ y)) EQ /\ system (b_eq b1) (b_ineq b1) (vw b1 d1 d2 d3 nv (p ++ e1 ++ e2 ++ y)) /\ system (b_eq b2) (b_ineq b2) (vw b2 f1 f2 f3 o2 (p ++ e1 ++ e2 ++ y))).
Proof.
  intros Lp. destruct two_hyps as (H1 & H2 & H3 & H4 & H5 & H6 & H7 & H8 & H9 & H10). destruct P1 as (W1 & A1 & D1 & I1 & _), P2 as (W2 & A2 & D2 & I2 & _).
  etransitivity; [apply (c_points b1 b2 np ni no 0 post EQ _ _ (vw b1 d1 d2 d3 nv) (vw b2 f1 f2 f3 o2)); assumption|]. split.
  - intros (x & e1 & e2 & y & Lx & R). destruct x; [|discriminate Lx]. exists e1, e2, y. exact R.
  - intros (e1 & e2 & y & R). exists [], e1, e2, y. split; [reflexivity|exact R].
Qed.
End Two.

Definition okb (np ni no : nat) (b : bmap) : Prop := proper b /\ sized np ni no b.
Lemma same_relates b b' P I O : same b b' -> length P = b_param b -> length I = b_in b -> length O = b_out b -> (relates b P I O <-> relates b' P I O).
Proof. intros (_ & _ & Q) LP LI LO. apply Q; [|reflexivity]. cbn [length]. rewrite !app_length. unfold nvar. lia. Qed.
Lemma same_okb np ni no b b' : same b b' -> sized np ni no b -> okb np ni no b'.
Proof. intros ((A1 & A2 & A3 & _) & P & _) (S1 & S2 & S3). split; [exact P|]. repeat split; congruence. Qed.
Lemma bmap_eq b b' : b_param b = b_param b' -> b_in b = b_in b' -> b_out b = b_out b' -> b_eq b = b_eq b' -> b_ineq b = b_ineq b' -> b_div b = b_div b' ->
  b_rat b = b_rat b' -> b_empty b = b_empty b' -> b_nd b = b_nd b' -> b = b'.
Proof. destruct b, b'; cbn; intros; subst; reflexivity. Qed.
Lemma fresh_add2_divs np ni no EQ b1 b2 m1 m2 n tot : tot = (np + ni + no + (0 + (ndiv b1 + (ndiv b2 + n))))%nat ->
  add_divs (add_mapped (add_mapped (set_eq (fresh_map np ni no) EQ) b1 m1) b2 m2) n (2 + tot) = combined b1 b2 np ni no 0 n EQ (copy_constraint m1) (copy_constraint m2) false.
Proof.
  intros ->. apply bmap_eq; try reflexivity.
  - exact (eq_sym (app_assoc EQ _ _)).
  - unfold combined. cbn [b_div]. change (unknown b1 b2 np ni no 0 n 0) with (@nil (list Z)). rewrite app_nil_l. rewrite app_assoc. reflexivity.
Qed.
Lemma add_divs_0 b len : add_divs b 0 len = b.
Proof. unfold add_divs. cbn [repeat]. rewrite app_nil_r. destruct b; reflexivity. Qed.
Lemma fresh_add2 np ni no EQ b1 b2 m1 m2 : add_mapped (add_mapped (set_eq (fresh_map np ni no) EQ) b1 m1) b2 m2 = combined b1 b2 np ni no 0 0 EQ (copy_constraint m1) (copy_constraint m2) false.
Proof. rewrite <- (fresh_add2_divs np ni no EQ b1 b2 m1 m2 0 _ eq_refl). symmetry. apply add_divs_0. Qed.
Ltac sizes := unfold inside, apart, nvar in *; lia.
Ltac assoc := cbn [app]; rewrite <- ?app_assoc; cbn [app]; rewrite ?app_nil_r; reflexivity.
Ltac len := cbn [length]; rewrite ?app_length; cbn [length]; try lia.
Lemma vw_is b d1 d2 d3 d4 w a1 c1 a2 c2 a3 c3 a4 c4 P I O e h : 
  hd 0 w = h -> w = a1 ++ P ++ c1 -> w = a2 ++ I ++ c2 -> w = a3 ++ O ++ c3 -> w = a4 ++ e ++ c4 -> length a1 = (1 + d1)%nat -> length a2 = (1 + d2)%nat -> length a3 = (1 + d3)%nat -> length a4 = (1 + d4)%nat ->
  length P = b_param b -> length I = b_in b -> length O = b_out b -> length e = ndiv b -> vw b d1 d2 d3 d4 w = h :: P ++ I ++ O ++ e.
Proof.
  intros <- W1 W2 W3 W4 L1 L2 L3 L4 LP LI LO Le. unfold vw, view4. rewrite (slice_is a1 P c1 _ _ w W1 L1 LP), (slice_is a2 I c2 _ _ w W2 L2 LI), (slice_is a3 O c3 _ _ w W3 L3 LO), (slice_is a4 e c4 _ _ w W4 L4 Le). reflexivity.
Qed.

Ltac szs := repeat match goal with H : b_param _ = _ |- _ => rewrite H; clear H | H : b_in _ = _ |- _ => rewrite H; clear H | H : b_out _ = _ |- _ => rewrite H; clear H end; unfold inside, apart; repeat split; lia.
Lemma sum_row_len np ni no nd tot i : length (sum_row np ni no nd tot i) = (1 + tot)%nat.
Proof. unfold sum_row. cbn zeta. rewrite !zupd_length, repeat_length. reflexivity. Qed.
Lemma sum_row_dot np ni no nd tot i w : (i < no)%nat -> tot = (np + ni + no + nd + 2 * no)%nat -> length w = (1 + tot)%nat ->
  dot (sum_row np ni no nd tot i) w = - nth (1 + np + ni + i) w 0 + nth (1 + (np + ni + no + nd) + i) w 0 + nth (1 + (np + ni + no + nd) + no + i) w 0.
Proof.
  intros Hi HT Lw. unfold sum_row. cbn zeta. rewrite dot_zupd by (rewrite !zupd_length, repeat_length; lia). rewrite dot_zupd by (rewrite !zupd_length, repeat_length; lia). rewrite dot_zupd by (rewrite repeat_length; lia). rewrite dot_repeat0.
  rewrite !nth_zupd, !nth_repeat_0. destruct (Nat.eqb_spec (1 + (np + ni + no + nd) + no + i) (1 + np + ni + i)); [lia|]. destruct (Nat.eqb_spec (1 + (np + ni + no + nd) + i) (1 + (np + ni + no + nd) + no + i)); [lia|]. destruct (Nat.eqb_spec (1 + (np + ni + no + nd) + i) (1 + np + ni + i)); [lia|]. cbn [andb]. ring.
Qed.
Section Ops.
Variables (sid : bmap -> bool) (hash : row -> nat) (no_redundant : bmap -> bool) (tab : bmap -> bool * list kind) (fuel : nat) (drd : bmap -> res bmap).
Hypothesis TAB : sound_tab tab.
Hypothesis DRD : forall b b', proper b -> drd b = Ok b' -> same b b'.
Lemma product_ok b1 b2 b' np n1 m1 n2 m2 : okb np n1 m1 b1 -> okb np n2 m2 b2 -> product hash no_redundant tab fuel b1 b2 = Ok b' ->
  okb np (n1 + n2) (m1 + m2) b' /\
  forall P I1 I2 O1 O2, length P = np -> length I1 = n1 -> length I2 = n2 -> length O1 = m1 -> length O2 = m2 ->
    (relates b' P (I1 ++ I2) (O1 ++ O2) <-> relates b1 P I1 O1 /\ relates b2 P I2 O2).
Proof.
  intros [P1 (S1 & S2 & S3)] [P2 (T1 & T2 & T3)]. unfold product. rewrite S1, S2, S3, T1, T2, T3, Nat.eqb_refl. cbn [negb]. cbn zeta.
  replace (np + n1 + n2 + m1 + m2 + ndiv b1 + ndiv b2)%nat with (np + (n1 + n2) + (m1 + m2) + (0 + (ndiv b1 + (ndiv b2 + 0))))%nat by lia. replace (np + n1 + n2 + m1 + m2)%nat with (np + (n1 + n2) + (m1 + m2))%nat by lia.
  change (fresh_map np (n1 + n2) (m1 + m2)) with (set_eq (fresh_map np (n1 + n2) (m1 + m2)) []). rewrite fresh_add2. intros E.
  match type of E with simp_fin _ _ _ _ ?X = _ => set (b := X) in E end.
  assert (G : good b). { apply two_good; [constructor|assumption|assumption|szs|szs]. }
  pose proof (simp_fin_same hash no_redundant tab fuel TAB b b' (good_proper b G eq_refl) E) as SM. split; [apply (same_okb _ _ _ b b' SM); repeat split|].
  intros P I1 I2 O1 O2 LP LI1 LI2 LO1 LO2. rewrite <- (same_relates b b' _ _ _ SM) by (unfold b, combined; cbn [b_param b_in b_out]; len).
  unfold relates at 1. unfold b, map4. etransitivity; [apply (two_points b1 b2 np (n1 + n2) (m1 + m2) 0 [] 0 np (np + n1 + n2) 0 (np + n1) (np + n1 + n2 + m1)); [assumption|assumption|szs|szs|len]|].
  rewrite (relates_system b1), (relates_system b2) by (auto; congruence). 
  assert (EX : forall e1 e2 y, length e1 = ndiv b1 -> length e2 = ndiv b2 -> length y = 0%nat -> 
     vw b1 0 np (np + n1 + n2) (np + (n1 + n2) + (m1 + m2)) ((1 :: P ++ (I1 ++ I2) ++ O1 ++ O2) ++ e1 ++ e2 ++ y) = 1 :: P ++ I1 ++ O1 ++ e1 /\
     vw b2 0 (np + n1) (np + n1 + n2 + m1) (np + (n1 + n2) + (m1 + m2) + ndiv b1) ((1 :: P ++ (I1 ++ I2) ++ O1 ++ O2) ++ e1 ++ e2 ++ y) = 1 :: P ++ I2 ++ O2 ++ e2).
  { intros e1 e2 y L1 L2 Ly. split.
    - eapply (vw_is b1 _ _ _ _ _ [1] (I1 ++ I2 ++ O1 ++ O2 ++ e1 ++ e2 ++ y) (1 :: P) (I2 ++ O1 ++ O2 ++ e1 ++ e2 ++ y) (1 :: P ++ I1 ++ I2) (O2 ++ e1 ++ e2 ++ y) (1 :: P ++ I1 ++ I2 ++ O1 ++ O2) (e2 ++ y)); try assoc; len; congruence.
    - eapply (vw_is b2 _ _ _ _ _ [1] (I1 ++ I2 ++ O1 ++ O2 ++ e1 ++ e2 ++ y) (1 :: P ++ I1) (O1 ++ O2 ++ e1 ++ e2 ++ y) (1 :: P ++ I1 ++ I2 ++ O1) (e1 ++ e2 ++ y) (1 :: P ++ I1 ++ I2 ++ O1 ++ O2 ++ e1) y); try assoc; len; congruence. }
  split.
  - intros (e1 & e2 & y & L1 & L2 & Ly & _ & Q1 & Q2). destruct (EX e1 e2 y L1 L2 Ly) as [E1 E2]. cbn [Nat.add] in *. rewrite E1 in Q1. rewrite E2 in Q2. split; [exists e1; split; assumption|exists e2; split; assumption].
  - intros [(e1 & L1 & Q1) (e2 & L2 & Q2)]. exists e1, e2, []. destruct (EX e1 e2 [] L1 L2 eq_refl) as [E1 E2]. cbn [Nat.add] in *. rewrite E1, E2. split; [exact L1|]. split; [exact L2|]. split; [reflexivity|]. split; [constructor|]. split; assumption.
Qed.
Lemma domain_product_ok b1 b2 b' np n1 n2 m : okb np n1 m b1 -> okb np n2 m b2 -> domain_product hash no_redundant tab fuel b1 b2 = Ok b' ->
  okb np (n1 + n2) m b' /\
  forall P I1 I2 O, length P = np -> length I1 = n1 -> length I2 = n2 -> length O = m ->
    (relates b' P (I1 ++ I2) O <-> relates b1 P I1 O /\ relates b2 P I2 O).
Proof.
  intros [P1 (S1 & S2 & S3)] [P2 (T1 & T2 & T3)]. unfold domain_product. rewrite S1, S2, S3, T1, T2, T3, !Nat.eqb_refl. cbn [negb orb]. cbn zeta.
  replace (np + n1 + n2 + m + ndiv b1 + ndiv b2)%nat with (np + (n1 + n2) + m + (0 + (ndiv b1 + (ndiv b2 + 0))))%nat by lia. replace (np + n1 + n2 + m)%nat with (np + (n1 + n2) + m)%nat by lia.
  change (fresh_map np (n1 + n2) m) with (set_eq (fresh_map np (n1 + n2) m) []). rewrite fresh_add2. intros E.
  match type of E with simp_fin _ _ _ _ ?X = _ => set (b := X) in E end.
  assert (G : good b). { apply two_good; [constructor|assumption|assumption|szs|szs]. }
  pose proof (simp_fin_same hash no_redundant tab fuel TAB b b' (good_proper b G eq_refl) E) as SM. split; [apply (same_okb _ _ _ b b' SM); repeat split|].
  intros P I1 I2 O LP LI1 LI2 LO. rewrite <- (same_relates b b' _ _ _ SM) by (unfold b, combined; cbn [b_param b_in b_out]; len).
  unfold relates at 1. unfold b, map4. etransitivity; [apply (two_points b1 b2 np (n1 + n2) m 0 [] 0 np (np + n1 + n2) 0 (np + n1) (np + n1 + n2)); [assumption|assumption|szs|szs|len]|].
  rewrite (relates_system b1), (relates_system b2) by (auto; congruence). 
  assert (EX : forall e1 e2 y, length e1 = ndiv b1 -> length e2 = ndiv b2 -> length y = 0%nat -> 
     vw b1 0 np (np + n1 + n2) (np + (n1 + n2) + m) ((1 :: P ++ (I1 ++ I2) ++ O) ++ e1 ++ e2 ++ y) = 1 :: P ++ I1 ++ O ++ e1 /\
     vw b2 0 (np + n1) (np + n1 + n2) (np + (n1 + n2) + m + ndiv b1) ((1 :: P ++ (I1 ++ I2) ++ O) ++ e1 ++ e2 ++ y) = 1 :: P ++ I2 ++ O ++ e2).
  { intros e1 e2 y L1 L2 Ly. split.
    - eapply (vw_is b1 _ _ _ _ _ [1] (I1 ++ I2 ++ O ++ e1 ++ e2 ++ y) (1 :: P) (I2 ++ O ++ e1 ++ e2 ++ y) (1 :: P ++ I1 ++ I2) (e1 ++ e2 ++ y) (1 :: P ++ I1 ++ I2 ++ O) (e2 ++ y)); try assoc; len; congruence.
    - eapply (vw_is b2 _ _ _ _ _ [1] (I1 ++ I2 ++ O ++ e1 ++ e2 ++ y) (1 :: P ++ I1) (O ++ e1 ++ e2 ++ y) (1 :: P ++ I1 ++ I2) (e1 ++ e2 ++ y) (1 :: P ++ I1 ++ I2 ++ O ++ e1) y); try assoc; len; congruence. }
  split.
  - intros (e1 & e2 & y & L1 & L2 & Ly & _ & Q1 & Q2). destruct (EX e1 e2 y L1 L2 Ly) as [E1 E2]. cbn [Nat.add] in *. rewrite E1 in Q1. rewrite E2 in Q2. split; [exists e1; split; assumption|exists e2; split; assumption].
  - intros [(e1 & L1 & Q1) (e2 & L2 & Q2)]. exists e1, e2, []. destruct (EX e1 e2 [] L1 L2 eq_refl) as [E1 E2]. cbn [Nat.add] in *. rewrite E1, E2. split; [exact L1|]. split; [exact L2|]. split; [reflexivity|]. split; [constructor|]. split; assumption.
Qed.
Lemma range_product_ok b1 b2 b' np n m1 m2 : okb np n m1 b1 -> okb np n m2 b2 -> range_product hash no_redundant tab fuel b1 b2 = Ok b' ->
  okb np n (m1 + m2) b' /\
  forall P I O1 O2, length P = np -> length I = n -> length O1 = m1 -> length O2 = m2 ->
    (relates b' P I (O1 ++ O2) <-> relates b1 P I O1 /\ relates b2 P I O2).
Proof.
  intros [P1 (S1 & S2 & S3)] [P2 (T1 & T2 & T3)]. unfold range_product. assert (R1 : b_rat b1 = false) by apply P1. rewrite R1, S1, S2, S3, T1, T2, T3, !Nat.eqb_refl. cbn [negb orb andb]. cbn zeta.
  replace (np + n + m1 + m2 + ndiv b1 + ndiv b2)%nat with (np + n + (m1 + m2) + (0 + (ndiv b1 + (ndiv b2 + 0))))%nat by lia. replace (np + n + m1 + m2)%nat with (np + n + (m1 + m2))%nat by lia.
  change (fresh_map np n (m1 + m2)) with (set_eq (fresh_map np n (m1 + m2)) []). rewrite fresh_add2.
  match goal with |- simp_fin _ _ _ _ (mkb _ _ _ (b_eq ?X) _ _ _ _ _) = _ -> _ => set (b := X) end. change (mkb (b_param b) (b_in b) (b_out b) (b_eq b) (b_ineq b) (b_div b) false false false) with b. intros E.
  assert (G : good b). { apply two_good; [constructor|assumption|assumption|szs|szs]. }
  pose proof (simp_fin_same hash no_redundant tab fuel TAB b b' (good_proper b G eq_refl) E) as SM. split; [apply (same_okb _ _ _ b b' SM); repeat split|].
  intros P I O1 O2 LP LI LO1 LO2. rewrite <- (same_relates b b' _ _ _ SM) by (unfold b, combined; cbn [b_param b_in b_out]; len).
  unfold relates at 1. unfold b, map4. etransitivity; [apply (two_points b1 b2 np n (m1 + m2) 0 [] 0 np (np + n) 0 np (np + n + m1)); [assumption|assumption|szs|szs|len]|].
  rewrite (relates_system b1), (relates_system b2) by (auto; congruence). 
  assert (EX : forall e1 e2 y, length e1 = ndiv b1 -> length e2 = ndiv b2 -> length y = 0%nat -> 
     vw b1 0 np (np + n) (np + n + (m1 + m2)) ((1 :: P ++ I ++ O1 ++ O2) ++ e1 ++ e2 ++ y) = 1 :: P ++ I ++ O1 ++ e1 /\
     vw b2 0 np (np + n + m1) (np + n + (m1 + m2) + ndiv b1) ((1 :: P ++ I ++ O1 ++ O2) ++ e1 ++ e2 ++ y) = 1 :: P ++ I ++ O2 ++ e2).
  { intros e1 e2 y L1 L2 Ly. split.
    - eapply (vw_is b1 _ _ _ _ _ [1] (I ++ O1 ++ O2 ++ e1 ++ e2 ++ y) (1 :: P) (O1 ++ O2 ++ e1 ++ e2 ++ y) (1 :: P ++ I) (O2 ++ e1 ++ e2 ++ y) (1 :: P ++ I ++ O1 ++ O2) (e2 ++ y)); try assoc; len; congruence.
    - eapply (vw_is b2 _ _ _ _ _ [1] (I ++ O1 ++ O2 ++ e1 ++ e2 ++ y) (1 :: P) (O1 ++ O2 ++ e1 ++ e2 ++ y) (1 :: P ++ I ++ O1) (e1 ++ e2 ++ y) (1 :: P ++ I ++ O1 ++ O2 ++ e1) y); try assoc; len; congruence. }
  split.
  - intros (e1 & e2 & y & L1 & L2 & Ly & _ & Q1 & Q2). destruct (EX e1 e2 y L1 L2 Ly) as [E1 E2]. cbn [Nat.add] in *. rewrite E1 in Q1. rewrite E2 in Q2. split; [exists e1; split; assumption|exists e2; split; assumption].
  - intros [(e1 & L1 & Q1) (e2 & L2 & Q2)]. exists e1, e2, []. destruct (EX e1 e2 [] L1 L2 eq_refl) as [E1 E2]. cbn [Nat.add] in *. rewrite E1, E2. split; [exact L1|]. split; [exact L2|]. split; [reflexivity|]. split; [constructor|]. split; assumption.
Qed.
Lemma apply_range_ok b1 b2 b' np n k m : okb np n k b1 -> okb np k m b2 -> apply_range hash no_redundant tab fuel drd b1 b2 = Ok b' ->
  okb np n m b' /\
  forall P I O, length P = np -> length I = n -> length O = m ->
    (relates b' P I O <-> exists M, length M = k /\ relates b1 P I M /\ relates b2 P M O).
Proof.
  intros [P1 (S1 & S2 & S3)] [P2 (T1 & T2 & T3)]. unfold apply_range. rewrite S1, S2, S3, T1, T2, T3, !Nat.eqb_refl. cbn [negb orb]. cbn zeta.
  replace (np + n + m + ndiv b1 + ndiv b2 + k)%nat with (np + n + m + (0 + (ndiv b1 + (ndiv b2 + k))))%nat by lia.
  set (p5 := (np + n + m + ndiv b1 + ndiv b2)%nat). set (tot := (np + n + m + (0 + (ndiv b1 + (ndiv b2 + k))))%nat).
  assert (M1 : dm_out (dm_div (dm_in (dm_param (dm_alloc tot) b1 0) b1 np) b1 (np + n + m)) b1 p5 = map4 tot b1 0 np p5 (np + n + m)).
  { unfold map4. apply dm_block_comm; [unfold apart, p5; lia| |]; unfold dm_in, dm_param; rewrite !dm_block_len, dm_alloc_len; unfold tot, p5; lia. }
  assert (M2 : dm_in (dm_div (dm_out (dm_param (dm_alloc tot) b2 0) b2 (np + n)) b2 (np + n + m + ndiv b1)) b2 p5 = map4 tot b2 0 p5 (np + n) (np + n + m + ndiv b1)).
  { unfold map4. etransitivity; [apply dm_block_comm; [unfold apart, p5; lia| |]; unfold dm_out, dm_param; rewrite !dm_block_len, dm_alloc_len; unfold tot, p5; lia|]. unfold dm_div at 1. apply (f_equal (fun x => dm_block x (nvar b2) (ndiv b2) (np + n + m + ndiv b1))). 
    apply dm_block_comm; [unfold apart, p5; lia| |]; unfold dm_param; rewrite !dm_block_len, dm_alloc_len; unfold tot, p5; lia. }
  rewrite M1, M2. clear M1 M2.
  change (fresh_map np n m) with (set_eq (fresh_map np n m) []). rewrite (fresh_add2_divs np n m [] b1 b2 _ _ k tot eq_refl). intros E.
  match type of E with simp_drop_fin _ _ _ _ _ ?X = _ => set (b := X) in E end.
  assert (G : good b). { apply two_good; [constructor|assumption|assumption|unfold p5; szs|unfold p5; szs]. }
  pose proof (simp_drop_fin_same hash no_redundant tab fuel drd TAB DRD b b' (good_proper b G eq_refl) E) as SM. split; [apply (same_okb _ _ _ b b' SM); repeat split|].
  intros P I O LP LI LO. rewrite <- (same_relates b b' _ _ _ SM) by (unfold b, combined; cbn [b_param b_in b_out]; len).
  unfold relates at 1. unfold b, tot. etransitivity; [apply (two_points b1 b2 np n m k [] 0 np p5 0 p5 (np + n)); [assumption|assumption|unfold p5; szs|unfold p5; szs|len]|].
  assert (EX : forall e1 e2 y, length e1 = ndiv b1 -> length e2 = ndiv b2 -> length y = k -> 
     vw b1 0 np p5 (np + n + m) ((1 :: P ++ I ++ O) ++ e1 ++ e2 ++ y) = 1 :: P ++ I ++ y ++ e1 /\
     vw b2 0 p5 (np + n) (np + n + m + ndiv b1) ((1 :: P ++ I ++ O) ++ e1 ++ e2 ++ y) = 1 :: P ++ y ++ O ++ e2).
  { intros e1 e2 y L1 L2 Ly. unfold p5. split.
    - eapply (vw_is b1 _ _ _ _ _ [1] (I ++ O ++ e1 ++ e2 ++ y) (1 :: P) (O ++ e1 ++ e2 ++ y) (1 :: P ++ I ++ O ++ e1 ++ e2) [] (1 :: P ++ I ++ O) (e2 ++ y)); try assoc; len; congruence.
    - eapply (vw_is b2 _ _ _ _ _ [1] (I ++ O ++ e1 ++ e2 ++ y) (1 :: P ++ I ++ O ++ e1 ++ e2) [] (1 :: P ++ I) (e1 ++ e2 ++ y) (1 :: P ++ I ++ O ++ e1) y); try assoc; len; congruence. }
  split.
  - intros (e1 & e2 & y & L1 & L2 & Ly & _ & Q1 & Q2). destruct (EX e1 e2 y L1 L2 Ly) as [E1 E2]. rewrite E1 in Q1. rewrite E2 in Q2. exists y. split; [exact Ly|]. rewrite (relates_system b1), (relates_system b2) by (auto; congruence). split; [exists e1; split; assumption|exists e2; split; assumption].
  - intros (y & Ly & Q). rewrite (relates_system b1), (relates_system b2) in Q by (auto; congruence). destruct Q as [(e1 & L1 & Q1) (e2 & L2 & Q2)]. exists e1, e2, y. destruct (EX e1 e2 y L1 L2 Ly) as [E1 E2]. rewrite E1, E2. split; [exact L1|]. split; [exact L2|]. split; [exact Ly|]. split; [constructor|]. split; assumption.
Qed.
Lemma sum_ok b1 b2 b' np n m : okb np n m b1 -> okb np n m b2 -> sum hash no_redundant tab fuel b1 b2 = Ok b' ->
  okb np n m b' /\
  forall P I O, length P = np -> length I = n -> length O = m ->
    (relates b' P I O <-> exists O1 O2, length O1 = m /\ length O2 = m /\ relates b1 P I O1 /\ relates b2 P I O2 /\ forall i, nth i O 0 = nth i O1 0 + nth i O2 0).
Proof.
  intros [P1 (S1 & S2 & S3)] [P2 (T1 & T2 & T3)]. unfold sum. rewrite S1, S2, S3, T1, T2, T3, !Nat.eqb_refl. cbn [negb orb]. cbn zeta.
  replace (np + n + m + ndiv b1 + ndiv b2 + m + m)%nat with (np + n + m + (0 + (ndiv b1 + (ndiv b2 + 2 * m))))%nat by lia.
  set (p5 := (np + n + m + ndiv b1 + ndiv b2)%nat). set (tot := (np + n + m + (0 + (ndiv b1 + (ndiv b2 + 2 * m))))%nat).
  assert (M1 : dm_out (dm_div (dm_in (dm_param (dm_alloc tot) b1 0) b1 np) b1 (np + n + m)) b1 p5 = map4 tot b1 0 np p5 (np + n + m)).
  { unfold map4. apply dm_block_comm; [unfold apart, p5; lia| |]; unfold dm_in, dm_param; rewrite !dm_block_len, dm_alloc_len; unfold tot, p5; lia. }
  assert (M2 : dm_out (dm_div (dm_in (dm_param (dm_alloc tot) b2 0) b2 np) b2 (np + n + m + ndiv b1)) b2 (p5 + m) = map4 tot b2 0 np (p5 + m) (np + n + m + ndiv b1)).
  { unfold map4. apply dm_block_comm; [unfold apart, p5; lia| |]; unfold dm_in, dm_param; rewrite !dm_block_len, dm_alloc_len; unfold tot, p5; lia. }
  rewrite M1, M2. clear M1 M2. set (EQ := map _ (seq 0 m)).
  rewrite (fresh_add2_divs np n m EQ b1 b2 _ _ (2 * m) tot eq_refl). intros E.
  match type of E with simp_fin _ _ _ _ ?X = _ => set (b := X) in E end.
  assert (LE : rows_of (1 + tot) EQ). { unfold EQ, rows_of. rewrite Forall_map. apply Forall_forall. intros i _. apply sum_row_len. }
  assert (G : good b). { apply two_good; [exact LE|assumption|assumption|unfold p5; szs|unfold p5; szs]. }
  pose proof (simp_fin_same hash no_redundant tab fuel TAB b b' (good_proper b G eq_refl) E) as SM. split; [apply (same_okb _ _ _ b b' SM); repeat split|].
  intros P I O LP LI LO. rewrite <- (same_relates b b' _ _ _ SM) by (unfold b, combined; cbn [b_param b_in b_out]; len).
  unfold relates at 1. unfold b, tot. etransitivity; [apply (two_points b1 b2 np n m (2 * m) EQ 0 np p5 0 np (p5 + m)); [assumption|assumption|unfold p5; szs|unfold p5; szs|len]|].
  assert (EX : forall e1 e2 O1 O2, length e1 = ndiv b1 -> length e2 = ndiv b2 -> length O1 = m -> length O2 = m -> 
     vw b1 0 np p5 (np + n + m) ((1 :: P ++ I ++ O) ++ e1 ++ e2 ++ O1 ++ O2) = 1 :: P ++ I ++ O1 ++ e1 /\
     vw b2 0 np (p5 + m) (np + n + m + ndiv b1) ((1 :: P ++ I ++ O) ++ e1 ++ e2 ++ O1 ++ O2) = 1 :: P ++ I ++ O2 ++ e2 /\
     (Forall (zero_on ((1 :: P ++ I ++ O) ++ e1 ++ e2 ++ O1 ++ O2)) EQ <-> forall i, nth i O 0 = nth i O1 0 + nth i O2 0)).
  { intros e1 e2 O1 O2 L1 L2 LO1 LO2. unfold p5. split; [|split].
    - eapply (vw_is b1 _ _ _ _ _ [1] (I ++ O ++ e1 ++ e2 ++ O1 ++ O2) (1 :: P) (O ++ e1 ++ e2 ++ O1 ++ O2) (1 :: P ++ I ++ O ++ e1 ++ e2) O2 (1 :: P ++ I ++ O) (e2 ++ O1 ++ O2)); try assoc; len; congruence.
    - eapply (vw_is b2 _ _ _ _ _ [1] (I ++ O ++ e1 ++ e2 ++ O1 ++ O2) (1 :: P) (O ++ e1 ++ e2 ++ O1 ++ O2) (1 :: P ++ I ++ O ++ e1 ++ e2 ++ O1) [] (1 :: P ++ I ++ O ++ e1) (O1 ++ O2)); try assoc; len; congruence.
    - unfold EQ. rewrite Forall_map, Forall_forall. set (w := (1 :: P ++ I ++ O) ++ e1 ++ e2 ++ O1 ++ O2). assert (Lw : length w = (1 + tot)%nat) by (unfold w, tot; cbn [length app]; rewrite !app_length; lia).
      assert (ZR : forall i, (i < m)%nat -> (zero_on w (sum_row np n m (ndiv b1 + ndiv b2) tot i) <-> nth i O 0 = nth i O1 0 + nth i O2 0)).
      { intros i Hi. unfold zero_on. rewrite sum_row_dot by (auto; unfold tot; lia).
        assert (NO : nth (1 + np + n + i) w 0 = nth i O 0). { unfold w. replace ((1 :: P ++ I ++ O) ++ e1 ++ e2 ++ O1 ++ O2) with ((1 :: P ++ I) ++ O ++ (e1 ++ e2 ++ O1 ++ O2)) by assoc. rewrite app_nth2 by (len). replace (1 + np + n + i - length (1%Z :: P ++ I))%nat with i by len. apply app_nth1. lia. }
        assert (N1 : nth (1 + (np + n + m + (ndiv b1 + ndiv b2)) + i) w 0 = nth i O1 0). { unfold w. replace ((1 :: P ++ I ++ O) ++ e1 ++ e2 ++ O1 ++ O2) with ((1 :: P ++ I ++ O ++ e1 ++ e2) ++ O1 ++ O2) by assoc. rewrite app_nth2 by (len). replace (1 + (np + n + m + (ndiv b1 + ndiv b2)) + i - length (1%Z :: P ++ I ++ O ++ e1 ++ e2))%nat with i by len. apply app_nth1. lia. }
        assert (N2 : nth (1 + (np + n + m + (ndiv b1 + ndiv b2)) + m + i) w 0 = nth i O2 0). { unfold w. replace ((1 :: P ++ I ++ O) ++ e1 ++ e2 ++ O1 ++ O2) with ((1 :: P ++ I ++ O ++ e1 ++ e2 ++ O1) ++ O2) by assoc. rewrite app_nth2 by (len). f_equal. len. }
        rewrite NO, N1, N2. lia. }
      split.
      + intros H i. destruct (Nat.lt_ge_cases i m) as [Hi|Hi]; [apply ZR; [exact Hi|]; apply H; apply in_seq; lia|]. rewrite !nth_overflow by lia. reflexivity.
      + intros H i Hi. apply in_seq in Hi. apply ZR; [lia|]. apply H. }
  split.
  - intros (e1 & e2 & y & L1 & L2 & Ly & Q0 & Q1 & Q2). rewrite <- (firstn_skipn m y) in Q0, Q1, Q2. set (O1 := firstn m y) in *. set (O2 := skipn m y) in *. assert (LO1 : length O1 = m) by (unfold O1; rewrite firstn_length; lia). assert (LO2 : length O2 = m) by (unfold O2; rewrite skipn_length; lia).
    destruct (EX e1 e2 O1 O2 L1 L2 LO1 LO2) as (E1 & E2 & E3). rewrite E1 in Q1. rewrite E2 in Q2. pose proof (proj1 E3 Q0) as Q3. exists O1, O2. split; [exact LO1|]. split; [exact LO2|]. rewrite (relates_system b1), (relates_system b2) by (auto; congruence). split; [exists e1; split; assumption|]. split; [exists e2; split; assumption|exact Q3].
  - intros (O1 & O2 & LO1 & LO2 & Q1 & Q2 & Q0). rewrite (relates_system b1) in Q1 by (auto; congruence). rewrite (relates_system b2) in Q2 by (auto; congruence). destruct Q1 as (e1 & L1 & Q1), Q2 as (e2 & L2 & Q2). exists e1, e2, (O1 ++ O2). destruct (EX e1 e2 O1 O2 L1 L2 LO1 LO2) as (E1 & E2 & E3). rewrite E1, E2. split; [exact L1|]. split; [exact L2|]. split; [rewrite app_length; lia|]. split; [exact (proj2 E3 Q0)|]. split; assumption.
Qed.
End Ops.
