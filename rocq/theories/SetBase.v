(** Combining the constraints of two basic maps. *)
From Coq Require Import ZArith List Bool Arith Lia.
From Verif Require Import SeqSpec SeqModel MatModel SeqProofs BMapModel BMapSpec BMapSem ReorderModel LocalModel BElimModel BElimProofs BElimVars SimpModel SimpSpec SimpBase SimpFinal SetModel.
Import ListNotations.
Open Scope Z_scope.

(** ** maps that may be marked empty in any form *)
Definition unmark (b : bmap) : bmap := mkb (b_param b) (b_in b) (b_out b) (b_eq b) (b_ineq b) (b_div b) (b_rat b) false (b_nd b).
Definition honest (b : bmap) : Prop := b_empty b = true -> forall v, length v = (1 + total b)%nat -> hd 0 v = 1 -> ~ system (b_eq b) (b_ineq b) v.
Definition proper (b : bmap) : Prop :=
  wf b /\ acyclic b /\ denoms (b_div b) /\ implied b /\ b_rat b = false /\ honest b.

Lemma proper_unmark b : proper b -> good (unmark b).
Proof. intros (W & A & D & I & R & _). split; [exact W|]. split; [exact A|]. split; [exact D|]. split; [exact I|]. split; [cbn; congruence|]. intros E. discriminate E. Qed.
Lemma proper_good b : proper b -> b_empty b = false -> good b.
Proof. intros P E. pose proof (proper_unmark b P) as G. unfold unmark in G. rewrite <- E in G. destruct b; exact G. Qed.
Lemma good_proper b : good b -> b_rat b = false -> proper b.
Proof.
  intros (W & A & D & I & R & B) RT. repeat (split; [assumption|]). intros E v Lv Hv [S1 _]. destruct (B E) as (B1 & _ & B3). apply (B3 v); [unfold total, ndiv in Lv; rewrite B1 in Lv; cbn [length] in Lv; lia|split; [lia|auto]|exact S1].
Qed.
(** membership of an integer point *)
Lemma points_described b p : proper b -> length p = (1 + nvar b)%nat -> hd 0 p = 1 -> (points b p <-> described (b_eq b) (b_ineq b) (ndiv b) p).
Proof.
  intros P Lp Hp. unfold points, member. split; [intros [_ H]; exact H|]. intros H. split; [|exact H]. destruct (b_empty b) eqn:E; [|reflexivity]. exfalso. destruct H as (e & Le & Se). destruct P as (_ & _ & _ & _ & _ & Hn). apply (Hn E (p ++ e)); [rewrite app_length; unfold total; lia| |exact Se]. destruct p; [discriminate Lp|exact Hp].
Qed.
Lemma pres_proper b b' : b_rat b = false -> pres b b' -> proper b'.
Proof. intros R (SS & G & _). apply good_proper; [exact G|]. destruct SS as (_ & _ & _ & ->). exact R. Qed.

Lemma tl_len (d : list Z) n : length d = S n -> length (tl d) = n.
Proof. destruct d; [discriminate|]. cbn. lia. Qed.
Lemma div_len b0 j : wf b0 -> (j < ndiv b0)%nat -> length (nth j (b_div b0) []) = (2 + total b0)%nat.
Proof. intros (_ & _ & W) H. unfold rows_of in W. rewrite Forall_forall in W. apply W. apply nth_In. exact H. Qed.
Lemma nth_repeat_0 n m : nth m (repeat 0 n) 0 = 0.
Proof. destruct (Nat.lt_ge_cases m n); [apply nth_repeat|apply nth_overflow; rewrite repeat_length; lia]. Qed.
Lemma rows_map n m (c : list Z -> list Z) l : (forall r, length r = n -> length (c r) = m) -> rows_of n l -> rows_of m (map c l).
Proof. intros H R. unfold rows_of in *. rewrite Forall_map. eapply Forall_impl; [|exact R]. exact H. Qed.
Lemma skipn_plus {A} (l : list A) : forall y x, skipn x (skipn y l) = skipn (x + y) l.
Proof. induction l as [|a l IH]; intros y x; [rewrite !skipn_nil; reflexivity|]. destruct y; [rewrite Nat.add_0_r; reflexivity|]. rewrite Nat.add_succ_r. cbn [skipn]. apply IH. Qed.

(** ** the combination of two systems *)
Section Combine.
Variables (b1 b2 : bmap) (np ni no pre post : nat) (EQ : list (list Z)) (c1 c2 : list Z -> list Z) (view1 view2 : list Z -> list Z).
Let nv := (np + ni + no)%nat.
Let tot := (nv + (pre + (ndiv b1 + (ndiv b2 + post))))%nat.
Let o1 := (1 + nv + pre)%nat.
Let o2 := (o1 + ndiv b1)%nat.
Definition unknown (n : nat) : list (list Z) := repeat (repeat 0 (2 + tot)) n.
Definition cdiv (c : list Z -> list Z) (d : list Z) : list Z := hd 0 d :: c (tl d).
Definition combined (nd : bool) : bmap :=
  mkb np ni no (EQ ++ map c1 (b_eq b1) ++ map c2 (b_eq b2)) (map c1 (b_ineq b1) ++ map c2 (b_ineq b2))
    (unknown pre ++ map (cdiv c1) (b_div b1) ++ map (cdiv c2) (b_div b2) ++ unknown post) false false nd.
Hypothesis LE : rows_of (1 + tot) EQ.
Hypothesis W1 : wf b1.
Hypothesis W2 : wf b2.
Hypothesis A1 : acyclic b1.
Hypothesis A2 : acyclic b2.
Hypothesis D1 : denoms (b_div b1).
Hypothesis D2 : denoms (b_div b2).
Hypothesis I1 : implied b1.
Hypothesis I2 : implied b2.
Hypothesis L1 : forall r, length r = (1 + total b1)%nat -> length (c1 r) = (1 + tot)%nat.
Hypothesis L2 : forall r, length r = (1 + total b2)%nat -> length (c2 r) = (1 + tot)%nat.
Hypothesis V1 : forall w, length w = (1 + tot)%nat -> length (view1 w) = (1 + total b1)%nat /\ hd 0 (view1 w) = hd 0 w /\ (forall k, (k < ndiv b1)%nat -> nth (1 + nvar b1 + k) (view1 w) 0 = nth (o1 + k) w 0).
Hypothesis V2 : forall w, length w = (1 + tot)%nat -> length (view2 w) = (1 + total b2)%nat /\ hd 0 (view2 w) = hd 0 w /\ (forall k, (k < ndiv b2)%nat -> nth (1 + nvar b2 + k) (view2 w) 0 = nth (o2 + k) w 0).
Hypothesis DOT1 : forall r w, length r = (1 + total b1)%nat -> length w = (1 + tot)%nat -> dot (c1 r) w = dot r (view1 w).
Hypothesis DOT2 : forall r w, length r = (1 + total b2)%nat -> length w = (1 + tot)%nat -> dot (c2 r) w = dot r (view2 w).
Hypothesis K11 : forall r j, length r = (1 + total b1)%nat -> (j < ndiv b1)%nat -> nth (o1 + j) (c1 r) 0 = nth (1 + nvar b1 + j) r 0.
Hypothesis K12 : forall r j, length r = (1 + total b1)%nat -> (j < ndiv b2)%nat -> nth (o2 + j) (c1 r) 0 = 0.
Hypothesis K21 : forall r j, length r = (1 + total b2)%nat -> (j < ndiv b1)%nat -> nth (o1 + j) (c2 r) 0 = 0.
Hypothesis K22 : forall r j, length r = (1 + total b2)%nat -> (j < ndiv b2)%nat -> nth (o2 + j) (c2 r) 0 = nth (1 + nvar b2 + j) r 0.

Variable nd : bool.
Let b := combined nd.
Lemma c_ndiv : ndiv b = (pre + (ndiv b1 + (ndiv b2 + post)))%nat.
Proof. unfold ndiv, b, combined, unknown. cbn [b_div]. rewrite !app_length, !map_length, !repeat_length. reflexivity. Qed.
Lemma c_total : total b = tot.
Proof. unfold total. rewrite c_ndiv. reflexivity. Qed.
Lemma cdiv_length c n d m : (forall r, length r = n -> length (c r) = m) -> length d = S n -> length (cdiv c d) = S m.
Proof. intros H L. unfold cdiv. cbn [length]. rewrite (H (tl d)); [reflexivity|]. destruct d; [discriminate L|]. cbn in *. lia. Qed.
Lemma unknown_rows n : rows_of (2 + tot) (unknown n).
Proof. unfold rows_of, unknown. apply Forall_forall. intros r Hr. apply repeat_spec in Hr. subst r. apply repeat_length. Qed.
Lemma c_wf : wf b.
Proof.
  unfold wf. rewrite c_total. unfold b, combined. cbn [b_eq b_ineq b_div]. destruct W1 as (X1 & X2 & X3), W2 as (Y1 & Y2 & Y3). split; [|split].
  - apply Forall_app. split; [exact LE|]. apply Forall_app. split; eapply rows_map; eauto.
  - apply Forall_app. split; eapply rows_map; eauto.
  - apply Forall_app. split; [apply unknown_rows|]. apply Forall_app. split; [|apply Forall_app; split; [|apply unknown_rows]].
    + apply (rows_map (2 + total b1)); [|exact X3]. intros r Lr. apply (cdiv_length c1 (1 + total b1)); [exact L1|exact Lr].
    + apply (rows_map (2 + total b2)); [|exact Y3]. intros r Lr. apply (cdiv_length c2 (1 + total b2)); [exact L2|exact Lr].
Qed.
Lemma c_denoms : denoms (b_div b).
Proof.
  unfold denoms, b, combined. cbn [b_div]. assert (U : forall n, Forall (fun d => 0 <= hd 0 d) (unknown n)) by (intros n; apply Forall_forall; intros r Hr; apply repeat_spec in Hr; subst r; cbn; lia).
  rewrite !Forall_app, !Forall_map. unfold cdiv. cbn [hd]. split; [apply U|]. split; [exact D1|]. split; [exact D2|apply U].
Qed.
Lemma c_system w : length w = (1 + tot)%nat -> (system (b_eq b) (b_ineq b) w <-> Forall (zero_on w) EQ /\ system (b_eq b1) (b_ineq b1) (view1 w) /\ system (b_eq b2) (b_ineq b2) (view2 w)).
Proof.
  intros Lw. unfold system, b, combined. cbn [b_eq b_ineq]. rewrite !Forall_app, !Forall_map. destruct W1 as (X1 & X2 & _), W2 as (Y1 & Y2 & _).
  assert (Q : forall (P P' : list Z -> Prop) n l, rows_of n l -> (forall r, length r = n -> (P r <-> P' r)) -> (Forall P l <-> Forall P' l)).
  { intros P P' n l R H. unfold rows_of in R. rewrite !Forall_forall in *. split; intros HH r Hr; apply (H r); auto. }
  rewrite (Q (fun x => zero_on w (c1 x)) (zero_on (view1 w)) _ _ X1) by (intros r Lr; unfold zero_on; rewrite DOT1 by assumption; reflexivity).
  rewrite (Q (fun x => zero_on w (c2 x)) (zero_on (view2 w)) _ _ Y1) by (intros r Lr; unfold zero_on; rewrite DOT2 by assumption; reflexivity).
  rewrite (Q (fun x => nonneg_on w (c1 x)) (nonneg_on (view1 w)) _ _ X2) by (intros r Lr; unfold nonneg_on; rewrite DOT1 by assumption; reflexivity).
  rewrite (Q (fun x => nonneg_on w (c2 x)) (nonneg_on (view2 w)) _ _ Y2) by (intros r Lr; unfold nonneg_on; rewrite DOT2 by assumption; reflexivity).
  tauto.
Qed.
(** the definition of a local variable of the combination *)
Lemma c_div k : (k < ndiv b)%nat ->
  (exists j, (j < ndiv b1)%nat /\ k = (pre + j)%nat /\ nth k (b_div b) [] = cdiv c1 (nth j (b_div b1) [])) \/
  (exists j, (j < ndiv b2)%nat /\ k = (pre + ndiv b1 + j)%nat /\ nth k (b_div b) [] = cdiv c2 (nth j (b_div b2) [])) \/
  hd 0 (nth k (b_div b) []) = 0.
Proof.
  rewrite c_ndiv. intros Hk. unfold b, combined. cbn [b_div]. assert (LP : forall n, length (unknown n) = n) by (intros n; apply repeat_length).
  assert (UK : forall n i, hd 0 (nth i (unknown n) []) = 0). { intros n i. destruct (Nat.lt_ge_cases i n) as [Hi|Hi]; [|rewrite nth_overflow; [reflexivity|rewrite LP; lia]]. unfold unknown. rewrite (nth_indep _ [] (repeat 0 (2 + tot))) by (rewrite repeat_length; lia). rewrite nth_repeat. reflexivity. }
  destruct (Nat.lt_ge_cases k pre) as [H|H]; [right; right; rewrite app_nth1 by (rewrite LP; lia); apply UK|]. rewrite app_nth2 by (rewrite LP; lia). rewrite LP.
  destruct (Nat.lt_ge_cases (k - pre) (ndiv b1)) as [H1|H1].
  - left. exists (k - pre)%nat. split; [exact H1|]. split; [lia|]. rewrite app_nth1 by (rewrite map_length; exact H1). rewrite (nth_indep _ [] (cdiv c1 [])) by (rewrite map_length; exact H1). apply map_nth.
  - right. rewrite app_nth2 by (rewrite map_length; exact H1). rewrite map_length. fold (ndiv b1). destruct (Nat.lt_ge_cases (k - pre - ndiv b1) (ndiv b2)) as [H2|H2].
    + left. exists (k - pre - ndiv b1)%nat. split; [exact H2|]. split; [lia|]. rewrite app_nth1 by (rewrite map_length; exact H2). rewrite (nth_indep _ [] (cdiv c2 [])) by (rewrite map_length; exact H2). apply map_nth.
    + right. rewrite app_nth2 by (rewrite map_length; exact H2). apply UK.
Qed.
Lemma c_acyclic : acyclic b.
Proof.
  destruct A1 as [r1 R1], A2 as [r2 R2].
  exists (fun k => if Nat.ltb k pre then 0%nat else if Nat.ltb k (pre + ndiv b1) then S (r1 (k - pre)%nat) else if Nat.ltb k (pre + ndiv b1 + ndiv b2) then S (r2 (k - pre - ndiv b1)%nat) else 0%nat).
  intros k j Hk Hj Hd Hn. change (nvar b) with nv in Hn. destruct (c_div k Hk) as [(i & Hi & Ek & Ed)|[(i & Hi & Ek & Ed)|Z0]]; [| |contradiction]; rewrite Ed in *.
  - unfold cdiv in Hd, Hn. cbn [hd] in Hd. cbn [Nat.add nth] in Hn. change (S (nv + j)) with (1 + nv + j)%nat in Hn. subst k. destruct (Nat.ltb_spec (pre + i) pre); [lia|]. destruct (Nat.ltb_spec (pre + i) (pre + ndiv b1)); [|lia]. replace (pre + i - pre)%nat with i by lia.
    assert (Lt : length (tl (nth i (b_div b1) [])) = (1 + total b1)%nat) by (apply tl_len; rewrite div_len; auto).
    destruct (Nat.ltb_spec j pre); [lia|]. destruct (Nat.ltb_spec j (pre + ndiv b1)) as [J|J].
    + apply le_n_S. apply (R1 i (j - pre)%nat); [exact Hi|lia|exact Hd|]. replace (1 + nv + j)%nat with (o1 + (j - pre))%nat in Hn by (unfold o1; lia). rewrite K11 in Hn by (auto; lia). destruct (nth i (b_div b1) []); [discriminate Lt|exact Hn].
    + destruct (Nat.ltb_spec j (pre + ndiv b1 + ndiv b2)); [|lia]. exfalso. apply Hn. replace (1 + nv + j)%nat with (o2 + (j - pre - ndiv b1))%nat by (unfold o2, o1; lia). apply K12; [exact Lt|lia].
  - unfold cdiv in Hd, Hn. cbn [hd] in Hd. cbn [Nat.add nth] in Hn. change (S (nv + j)) with (1 + nv + j)%nat in Hn. subst k. destruct (Nat.ltb_spec (pre + ndiv b1 + i) pre); [lia|]. destruct (Nat.ltb_spec (pre + ndiv b1 + i) (pre + ndiv b1)); [lia|]. destruct (Nat.ltb_spec (pre + ndiv b1 + i) (pre + ndiv b1 + ndiv b2)); [|lia]. replace (pre + ndiv b1 + i - pre - ndiv b1)%nat with i by lia.
    assert (Lt : length (tl (nth i (b_div b2) [])) = (1 + total b2)%nat) by (apply tl_len; rewrite div_len; auto).
    destruct (Nat.ltb_spec j pre); [lia|]. destruct (Nat.ltb_spec j (pre + ndiv b1)) as [J|J].
    + exfalso. apply Hn. replace (1 + nv + j)%nat with (o1 + (j - pre))%nat by (unfold o1; lia). apply K21; [exact Lt|lia].
    + destruct (Nat.ltb_spec j (pre + ndiv b1 + ndiv b2)); [|lia]. apply le_n_S. apply (R2 i (j - pre - ndiv b1)%nat); [exact Hi|lia|exact Hd|]. replace (1 + nv + j)%nat with (o2 + (j - pre - ndiv b1))%nat in Hn by (unfold o2, o1; lia). rewrite K22 in Hn by (auto; lia). destruct (nth i (b_div b2) []); [discriminate Lt|exact Hn].
Qed.
Lemma c_implied : implied b.
Proof.
  intros w Lw Hw Sw. rewrite c_total in Lw. apply (c_system w Lw) in Sw as (_ & S1 & S2). destruct (V1 w Lw) as (LV1 & HV1 & NV1), (V2 w Lw) as (LV2 & HV2 & NV2).
  pose proof (I1 _ LV1 ltac:(congruence) S1) as Q1. pose proof (I2 _ LV2 ltac:(congruence) S2) as Q2. change (nvar b) with nv. intros k Hk. fold (ndiv b) in Hk. destruct (c_div k Hk) as [(i & Hi & Ek & Ed)|[(i & Hi & Ek & Ed)|Z0]]; [| |left; exact Z0]; rewrite Ed.
  - assert (Lt : length (tl (nth i (b_div b1) [])) = (1 + total b1)%nat) by (apply tl_len; rewrite div_len; auto). specialize (Q1 i Hi). unfold division, cdiv in *. cbn [hd tl]. rewrite DOT1 by assumption. replace (1 + nv + k)%nat with (o1 + i)%nat by (unfold o1; lia). rewrite <- NV1 by exact Hi. exact Q1.
  - assert (Lt : length (tl (nth i (b_div b2) [])) = (1 + total b2)%nat) by (apply tl_len; rewrite div_len; auto). specialize (Q2 i Hi). unfold division, cdiv in *. cbn [hd tl]. rewrite DOT2 by assumption. replace (1 + nv + k)%nat with (o2 + i)%nat by (unfold o2, o1; lia). rewrite <- NV2 by exact Hi. exact Q2.
Qed.
Lemma c_good : good b.
Proof.
  split; [exact c_wf|]. split; [exact c_acyclic|]. split; [exact c_denoms|]. split; [exact c_implied|]. split; [intros F; discriminate F|intros F; discriminate F].
Qed.
Lemma c_points p : length p = (1 + nv)%nat ->
  (points b p <-> exists x e1 e2 y, length x = pre /\ length e1 = ndiv b1 /\ length e2 = ndiv b2 /\ length y = post /\
     Forall (zero_on (p ++ x ++ e1 ++ e2 ++ y)) EQ /\ system (b_eq b1) (b_ineq b1) (view1 (p ++ x ++ e1 ++ e2 ++ y)) /\ system (b_eq b2) (b_ineq b2) (view2 (p ++ x ++ e1 ++ e2 ++ y))).
Proof.
  intros Lp. unfold points, member, described. rewrite c_ndiv. cbn [b_empty b combined]. split.
  - intros (_ & e & Le & Se). exists (firstn pre e), (firstn (ndiv b1) (skipn pre e)), (firstn (ndiv b2) (skipn (pre + ndiv b1) e)), (skipn (pre + ndiv b1 + ndiv b2) e).
    assert (E : e = firstn pre e ++ firstn (ndiv b1) (skipn pre e) ++ firstn (ndiv b2) (skipn (pre + ndiv b1) e) ++ skipn (pre + ndiv b1 + ndiv b2) e).
    { replace (skipn (pre + ndiv b1 + ndiv b2) e) with (skipn (ndiv b2) (skipn (pre + ndiv b1) e)) by (rewrite skipn_plus; f_equal; lia). rewrite (firstn_skipn (ndiv b2)). replace (skipn (pre + ndiv b1) e) with (skipn (ndiv b1) (skipn pre e)) by (rewrite skipn_plus; f_equal; lia). rewrite !firstn_skipn. reflexivity. }
    rewrite <- E. rewrite !firstn_length, !skipn_length. repeat (split; [lia|]). apply c_system in Se; [exact Se|]. rewrite app_length. unfold tot. lia.
  - intros (x & e1 & e2 & y & Lx & Le1 & Le2 & Ly & S). split; [reflexivity|]. exists (x ++ e1 ++ e2 ++ y). split; [rewrite !app_length; lia|]. apply c_system; [rewrite !app_length; unfold tot; lia|exact S].
Qed.
End Combine.
