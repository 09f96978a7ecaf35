(** Intersection, reversal, negation and projection of basic maps. *)
From Coq Require Import ZArith List Bool Arith Lia.
From Verif Require Import BMapGauss2 BElimSpec SeqSpec SeqModel MatModel SeqProofs BMapModel BMapSpec BMapSem ReorderModel LocalModel BElimModel BElimProofs BElimVars SimpModel SimpSpec SimpBase SimpFinal SetModel SetBase SetSpec SetViews SetLift SetOps.
Import ListNotations.
Open Scope Z_scope.

Lemma pad_dot n r w : length w = (length r + n)%nat -> dot (pad n r) w = dot r (firstn (length r) w).
Proof. intros L. unfold pad. rewrite dot_app, dot_repeat0. ring. Qed.
Lemma flag_if (b : bmap) (f : bool) : mkb (b_param b) (b_in b) (b_out b) (b_eq b) (b_ineq b) (b_div b) (b_rat b) f (b_nd b) = if f then flagged b else unmark b.
Proof. destruct f; reflexivity. Qed.
(** keeping the mark of an argument *)
Lemma marked_ok c (f : bool) np ni no : good c -> b_rat c = false -> b_empty c = false -> sized np ni no c ->
  (f = true -> forall q, length q = (1 + nvar c)%nat -> hd 0 q = 1 -> ~ points c q) ->
  let b := mkb (b_param c) (b_in c) (b_out c) (b_eq c) (b_ineq c) (b_div c) (b_rat c) f (b_nd c) in
  okb np ni no b /\ forall P I O, length P = np -> length I = ni -> length O = no -> (relates b P I O <-> f = false /\ relates c P I O).
Proof.
  intros G R E S H b. pose proof (good_proper c G R) as PC. split.
  - split; [|exact S]. unfold b. rewrite flag_if. destruct f; [|unfold unmark; rewrite <- E; destruct c; exact PC]. apply flagged_proper; [exact PC|]. intros q Lq Hq D. apply (H eq_refl q Lq Hq). apply points_described; assumption.
  - intros P I O LP LI LO. unfold relates, points, member, b. cbn [b_empty b_eq b_ineq]. rewrite E. change (ndiv _) with (ndiv c). tauto.
Qed.

Section Inter.
Variables (b1 b2 : bmap) (np ni no : nat).
Hypothesis K1 : okb np ni no b1.
Hypothesis P2 : proper b2.
Hypothesis T1 : b_param b2 = np.
Hypothesis T2 : (b_in b2 <= ni)%nat.
Hypothesis T3 : (b_out b2 <= no)%nat.
Let nv := (np + ni + no)%nat.
Let tot := (nv + (0 + (ndiv b1 + (ndiv b2 + 0))))%nat.
Let o2 := (nv + ndiv b1)%nat.
Let m2 := map4 tot b2 0 np (np + ni) o2.
Let c := combined b1 b2 np ni no 0 0 [] (pad (ndiv b2)) (copy_constraint m2) false.
Lemma inter_nv : nvar b1 = nv.
Proof. destruct K1 as [_ (S1 & S2 & S3)]. unfold nvar, nv. congruence. Qed.
Lemma inter_combined : add_constraints_at b1 b2 = mkb (b_param c) (b_in c) (b_out c) (b_eq c) (b_ineq c) (b_div c) (b_rat c) (b_empty b1) (b_nd c).
Proof.
  pose proof inter_nv as NV. destruct K1 as [P1 (S1 & S2 & S3)]. assert (M : dm_div (dm_out (dm_in (dm_param (dm_alloc (total b1 + ndiv b2)) b2 0) b2 (b_param b1)) b2 (b_param b1 + b_in b1)) b2 (total b1) = m2).
  { unfold m2, map4. rewrite S1, S2. unfold total. rewrite NV. unfold tot, o2. replace (nv + ndiv b1 + ndiv b2)%nat with (nv + (0 + (ndiv b1 + (ndiv b2 + 0))))%nat by lia. reflexivity. }
  unfold add_constraints_at. cbn zeta. rewrite M. apply bmap_eq; try reflexivity; try assumption.
  - cbn [b_div set_nd]. unfold add_mapped, add_constraints, pad_map, c, combined. cbn [b_div set_div set_ineq set_eq]. change (unknown b1 b2 np ni no 0 0 0) with (@nil (list Z)). rewrite app_nil_l, app_nil_r. f_equal.
    apply map_ext_in. intros d Hd. destruct P1 as ((_ & _ & W) & _). unfold rows_of in W. rewrite Forall_forall in W. specialize (W d Hd). destruct d as [|x d]; [discriminate W|]. reflexivity.
  - apply P1.
Qed.
Ltac inn := unfold inside, tot, o2, nv; lia.
Ltac ap := unfold apart, o2, nv; lia.
Lemma inter_hyps :
  (forall r, length r = (1 + total b1)%nat -> length (pad (ndiv b2) r) = (1 + tot)%nat) /\
  (forall r, length r = (1 + total b2)%nat -> length (copy_constraint m2 r) = (1 + tot)%nat) /\
  (forall w, length w = (1 + tot)%nat -> length (firstn (1 + total b1) w) = (1 + total b1)%nat /\ hd 0 (firstn (1 + total b1) w) = hd 0 w /\ (forall k, (k < ndiv b1)%nat -> nth (1 + nvar b1 + k) (firstn (1 + total b1) w) 0 = nth (1 + nv + 0 + k) w 0)) /\
  (forall w, length w = (1 + tot)%nat -> length (vw b2 0 np (np + ni) o2 w) = (1 + total b2)%nat /\ hd 0 (vw b2 0 np (np + ni) o2 w) = hd 0 w /\ (forall k, (k < ndiv b2)%nat -> nth (1 + nvar b2 + k) (vw b2 0 np (np + ni) o2 w) 0 = nth (1 + nv + 0 + ndiv b1 + k) w 0)) /\
  (forall r w, length r = (1 + total b1)%nat -> length w = (1 + tot)%nat -> dot (pad (ndiv b2) r) w = dot r (firstn (1 + total b1) w)) /\
  (forall r w, length r = (1 + total b2)%nat -> length w = (1 + tot)%nat -> dot (copy_constraint m2 r) w = dot r (vw b2 0 np (np + ni) o2 w)) /\
  (forall r j, length r = (1 + total b1)%nat -> (j < ndiv b1)%nat -> nth (1 + nv + 0 + j) (pad (ndiv b2) r) 0 = nth (1 + nvar b1 + j) r 0) /\
  (forall r j, length r = (1 + total b1)%nat -> (j < ndiv b2)%nat -> nth (1 + nv + 0 + ndiv b1 + j) (pad (ndiv b2) r) 0 = 0) /\
  (forall r j, length r = (1 + total b2)%nat -> (j < ndiv b1)%nat -> nth (1 + nv + 0 + j) (copy_constraint m2 r) 0 = 0) /\
  (forall r j, length r = (1 + total b2)%nat -> (j < ndiv b2)%nat -> nth (1 + nv + 0 + ndiv b1 + j) (copy_constraint m2 r) 0 = nth (1 + nvar b2 + j) r 0).
Proof.
  pose proof inter_nv as NV. assert (TT : total b1 = (nv + ndiv b1)%nat) by (unfold total; rewrite NV; reflexivity).
  assert (F1 : inside tot (b_param b2) 0) by inn. assert (F2 : inside tot (b_in b2) np) by inn. assert (F3 : inside tot (b_out b2) (np + ni)) by inn. assert (F4 : inside tot (ndiv b2) o2) by inn.
  assert (A12 : apart (b_param b2) 0 (b_in b2) np) by ap. assert (A13 : apart (b_param b2) 0 (b_out b2) (np + ni)) by ap. assert (A14 : apart (b_param b2) 0 (ndiv b2) o2) by ap.
  assert (A23 : apart (b_in b2) np (b_out b2) (np + ni)) by ap. assert (A24 : apart (b_in b2) np (ndiv b2) o2) by ap. assert (A34 : apart (b_out b2) (np + ni) (ndiv b2) o2) by ap.
  split; [intros r Lr; unfold pad; rewrite app_length, repeat_length; unfold tot; lia|]. split; [intros r Lr; rewrite copy_len; apply map4_len|].
  split. { intros w Lw. split; [rewrite firstn_length; unfold tot in *; lia|]. split; [destruct w; reflexivity|]. intros k Hk. rewrite nth_first by lia. f_equal. lia. }
  split; [intros w Lw; replace (1 + nv + 0 + ndiv b1)%nat with (1 + o2)%nat by (unfold o2; lia); apply (vw_ok tot); assumption|].
  split; [intros r w Lr Lw; rewrite pad_dot by (unfold tot in *; lia); rewrite Lr; reflexivity|]. split; [intros r w Lr Lw; apply map4_dot; assumption|].
  split; [intros r j Lr Hj; unfold pad; rewrite app_nth1 by lia; f_equal; lia|].
  split; [intros r j Lr Hj; unfold pad; rewrite app_nth2 by lia; apply nth_repeat_0|].
  split; [intros r j Lr Hj; replace (1 + nv + 0 + j)%nat with (1 + (nv + j))%nat by lia; apply map4_zero; try assumption; unfold o2, nv in *; lia|].
  intros r j Lr Hj. replace (1 + nv + 0 + ndiv b1 + j)%nat with (1 + o2 + j)%nat by (unfold o2; lia). apply map4_div; assumption.
Qed.
Lemma inter_good : good c.
Proof.
  destruct inter_hyps as (H1 & H2 & H3 & H4 & H5 & H6 & H7 & H8 & H9 & H10). destruct K1 as [(W1 & A1 & D1 & I1 & _) _], P2 as (W2 & A2 & D2 & I2 & _).
  apply (c_good b1 b2 np ni no 0 0 [] _ _ (firstn (1 + total b1)) (vw b2 0 np (np + ni) o2)); try assumption. constructor.
Qed.
Lemma inter_points P I O : length P = np -> length I = ni -> length O = no ->
  (relates c P I O <-> (exists e, length e = ndiv b1 /\ system (b_eq b1) (b_ineq b1) (1 :: P ++ I ++ O ++ e)) /\ relates b2 P (firstn (b_in b2) I) (firstn (b_out b2) O)).
Proof.
  intros LP LI LO. destruct inter_hyps as (H1 & H2 & H3 & H4 & H5 & H6 & H7 & H8 & H9 & H10). pose proof inter_nv as NV. assert (TT : total b1 = (nv + ndiv b1)%nat) by (unfold total; rewrite NV; reflexivity). unfold relates at 1. etransitivity.
  { destruct K1 as [(W1 & A1 & D1 & I1 & _) _], P2 as (W2 & A2 & D2 & I2 & _). apply (c_points b1 b2 np ni no 0 0 [] _ _ (firstn (1 + total b1)) (vw b2 0 np (np + ni) o2)); try assumption. len. }
  rewrite (relates_system b2) by (try assumption; rewrite ?firstn_length; lia).
  assert (EX : forall e1 e2, length e1 = ndiv b1 -> length e2 = ndiv b2 -> 
     firstn (1 + total b1) ((1 :: P ++ I ++ O) ++ [] ++ e1 ++ e2 ++ []) = 1 :: P ++ I ++ O ++ e1 /\
     vw b2 0 np (np + ni) o2 ((1 :: P ++ I ++ O) ++ [] ++ e1 ++ e2 ++ []) = 1 :: P ++ firstn (b_in b2) I ++ firstn (b_out b2) O ++ e2).
  { intros e1 e2 L1 L2. split.
    - replace ((1 :: P ++ I ++ O) ++ [] ++ e1 ++ e2 ++ []) with ((1 :: P ++ I ++ O ++ e1) ++ e2) by assoc. replace (1 + total b1)%nat with (length (1%Z :: P ++ I ++ O ++ e1)) by (unfold nv in *; len). rewrite firstn_app, Nat.sub_diag, firstn_all, firstn_O, app_nil_r. reflexivity.
    - rewrite <- (firstn_skipn (b_in b2) I) at 1. rewrite <- (firstn_skipn (b_out b2) O) at 1. set (Ia := firstn (b_in b2) I). set (Ib := skipn (b_in b2) I). set (Oa := firstn (b_out b2) O). set (Ob := skipn (b_out b2) O).
      assert (LIa : length Ia = b_in b2) by (unfold Ia; rewrite firstn_length; lia). assert (LIb : length Ib = (ni - b_in b2)%nat) by (unfold Ib; rewrite skipn_length; lia). assert (LOa : length Oa = b_out b2) by (unfold Oa; rewrite firstn_length; lia). assert (LOb : length Ob = (no - b_out b2)%nat) by (unfold Ob; rewrite skipn_length; lia).
      eapply (vw_is b2 _ _ _ _ _ [1] (Ia ++ Ib ++ Oa ++ Ob ++ e1 ++ e2) (1 :: P) (Ib ++ Oa ++ Ob ++ e1 ++ e2) (1 :: P ++ Ia ++ Ib) (Ob ++ e1 ++ e2) (1 :: P ++ Ia ++ Ib ++ Oa ++ Ob ++ e1) []); try assoc; unfold o2, nv; len; congruence. }
  split.
  - intros (x & e1 & e2 & y & Lx & L1 & L2 & Ly & _ & Q1 & Q2). destruct x; [|discriminate Lx]. destruct y; [|discriminate Ly]. destruct (EX e1 e2 L1 L2) as [E1 E2]. rewrite E1 in Q1. rewrite E2 in Q2. split; [exists e1; split; assumption|exists e2; split; assumption].
  - intros [(e1 & L1 & Q1) (e2 & L2 & Q2)]. exists [], e1, e2, []. destruct (EX e1 e2 L1 L2) as [E1 E2]. rewrite E1, E2. split; [reflexivity|]. split; [exact L1|]. split; [exact L2|]. split; [reflexivity|]. split; [constructor|]. split; assumption.
Qed.
Lemma inter_ok : okb np ni no (add_constraints_at b1 b2) /\ forall P I O, length P = np -> length I = ni -> length O = no ->
  (relates (add_constraints_at b1 b2) P I O <-> relates b1 P I O /\ relates b2 P (firstn (b_in b2) I) (firstn (b_out b2) O)).
Proof.
  pose proof K1 as [P1 (S1 & S2 & S3)]. rewrite inter_combined. destruct (marked_ok c (b_empty b1) np ni no inter_good eq_refl eq_refl) as [OK Q]; [repeat split| |].
  - intros E q Lq Hq H. destruct P1 as (_ & _ & _ & _ & _ & Hn). destruct q as [|h q]; [discriminate Lq|]. cbn [hd] in Hq. subst h. cbn [length] in Lq. change (nvar c) with nv in Lq. unfold nv in Lq.
    assert (SP : q = firstn np q ++ firstn ni (skipn np q) ++ skipn (np + ni) q). { replace (skipn (np + ni) q) with (skipn ni (skipn np q)) by (rewrite skipn_plus; f_equal; lia). rewrite !firstn_skipn. reflexivity. }
    rewrite SP in H. apply inter_points in H; [|rewrite ?firstn_length, ?skipn_length; lia|rewrite ?firstn_length, ?skipn_length; lia|rewrite ?firstn_length, ?skipn_length; lia]. destruct H as [(e & Le & Se) _].
    apply (Hn E _ ) in Se; [exact Se| |reflexivity]. cbn [length]. rewrite !app_length, !firstn_length, !skipn_length. unfold total. pose proof inter_nv. unfold nv in *. lia.
  - split; [exact OK|]. intros P I O LP LI LO. rewrite Q by assumption. rewrite inter_points by assumption. unfold relates at 2. unfold points, member, described. cbn [app].
    assert (AS : forall e, P ++ I ++ O ++ e = (P ++ I ++ O) ++ e) by (intros e; rewrite <- !app_assoc; reflexivity). split.
    + intros (E & (e & Le & Se) & H). split; [|exact H]. split; [exact E|]. exists e. split; [exact Le|]. cbn [app]. rewrite <- AS. exact Se.
    + intros ((E & e & Le & Se) & H). split; [exact E|]. split; [|exact H]. exists e. split; [exact Le|]. rewrite AS. exact Se.
Qed.
End Inter.
