(** The tableau of basic_map_collect_diff: adding constraints and integer divisions. *)
From Coq Require Import ZArith List Bool Arith Lia.
From Verif Require Import SeqSpec SeqModel MatModel SeqProofs BMapLists BMapModel BMapSpec BMapSem ReorderModel LocalModel LocalSpec LocalProofs BElimModel BElimSpec BElimProofs BElimVars BElimCols SimpModel SimpSpec SimpBase SimpFinal SetModel SetSpec SetBase SetLift SetOps SetViews BMapGauss2 SubModel SubSpec.
Import ListNotations.
Open Scope Z_scope.

Lemma neg_len l : length (seq_neg l) = length l. Proof. apply map_length. Qed.
(** ** expanding constraints *)
Lemma expand_loop_length off : forall es v dm, length (expand_loop v off es dm) = length v.
Proof. induction es as [|e es IH]; intros v dm; [reflexivity|]. destruct dm; [reflexivity|]. cbn [expand_loop]. rewrite IH. apply zupd_length. Qed.
Lemma expand_loop_dot off w : forall es v dm, Forall (fun p => (off + p < length v)%nat) dm ->
  dot (expand_loop v off es dm) w = dot v w + dot es (map (fun p => nth (off + p) w 0) dm).
Proof.
  induction es as [|e es IH]; intros v dm F; [cbn; lia|]. destruct dm as [|p dm]; [cbn; lia|]. inversion F as [|? ? H1 H2]. subst. cbn [expand_loop map]. rewrite IH by (rewrite zupd_length; exact H2). rewrite dot_zupd by exact H1. cbn [dot]. lia.
Qed.
Lemma expand_loop_cons off x : forall es v dm, expand_loop (x :: v) (S off) es dm = x :: expand_loop v off es dm.
Proof. induction es as [|e es IH]; intros v dm; [reflexivity|]. destruct dm as [|p dm]; [reflexivity|]. cbn [expand_loop Nat.add zupd nth]. apply IH. Qed.
Lemma expand_loop_nth off j : forall es v dm, Forall (fun p => j <> (off + p)%nat) dm -> nth j (expand_loop v off es dm) 0 = nth j v 0.
Proof.
  induction es as [|e es IH]; intros v dm F; [reflexivity|]. destruct dm as [|p dm]; [reflexivity|]. inversion F as [|? ? H1 H2]. subst. cbn [expand_loop]. rewrite IH by exact H2. rewrite nth_zupd. destruct (Nat.eqb_spec j (off + p)); [contradiction|reflexivity].
Qed.
Lemma expand_length size dim c dm : (1 + dim <= length c)%nat -> (1 + dim <= size)%nat -> length (expand_constraint size dim c dm) = size.
Proof. intros H1 H2. unfold expand_constraint. rewrite expand_loop_length, app_length, firstn_length, repeat_length. lia. Qed.
Lemma expand_dot size dim c dm w : (1 + dim <= length c)%nat -> (1 + dim <= size)%nat -> (1 + dim <= length w)%nat -> Forall (fun p => (1 + dim + p < size)%nat) dm ->
  dot (expand_constraint size dim c dm) w = dot c (select dim dm w).
Proof.
  intros H1 H2 H3 F. unfold expand_constraint. rewrite expand_loop_dot.
  - unfold select. rewrite (dot_cat c). rewrite firstn_length, Nat.min_l by exact H3. f_equal. rewrite dot_app, dot_repeat0. rewrite firstn_length, Nat.min_l by exact H1. lia.
  - eapply Forall_impl; [|exact F]. cbn beta. intros p Hp. rewrite app_length, firstn_length, repeat_length. lia.
Qed.

(** ** tables *)
Definition weak (t : table) : Prop := wf (fst t) /\ b_rat (fst t) = false /\ (snd t = true -> forall v, ~ solves (fst t) v).
Section Tab.
Variable emp : nat -> bmap -> bool.
Hypothesis EMP : sound_emptiness emp.
Lemma solves_add b r v : solves (add_ineq b r) v <-> solves b v /\ nonneg_on v r.
Proof.
  unfold solves, system, add_ineq. cbn [set_ineq b_eq b_ineq]. change (total (set_ineq b (b_ineq b ++ [r]))) with (total b). rewrite Forall_app. split; [intros (L & H & E & I & R); inversion R; tauto|intros ((L & H & E & I) & R); repeat (split; [assumption|]); auto].
Qed.
Lemma tab_add_weak s t r : weak t -> length r = (1 + total (fst t))%nat -> weak (tab_add_ineq emp s t r).
Proof.
  intros (W & R & S) L. unfold weak, tab_add_ineq. cbn [fst snd]. assert (W' : wf (add_ineq (fst t) r)). { destruct W as (We & Wi & Wd). split; [exact We|]. split; [|exact Wd]. unfold rows_of, add_ineq. cbn [set_ineq b_ineq]. apply Forall_app. split; [exact Wi|constructor; [exact L|constructor]]. }
  split; [exact W'|]. split; [exact R|]. intros H v Hv. apply orb_true_iff in H as [H|H]; [apply solves_add in Hv; exact (S H v (proj1 Hv))|]. exact (EMP s _ W' R H v Hv).
Qed.
Lemma insert_total b d : total (insert_div b d) = S (total b) /\ ndiv (insert_div b d) = S (ndiv b) /\ nvar (insert_div b d) = nvar b.
Proof. assert (N : ndiv (insert_div b d) = S (ndiv b)) by (unfold ndiv, insert_div, pad_map; cbn; rewrite app_length, map_length; cbn; lia). split; [unfold total; rewrite N; change (nvar (insert_div b d)) with (nvar b); lia|auto]. Qed.
Lemma solves_insert b d v : wf b -> (solves (insert_div b d) v <-> exists u e, v = u ++ [e] /\ solves b u).
Proof.
  intros (We & Wi & _). unfold solves. destruct (insert_total b d) as (T & _).
  assert (SY : forall u e, length u = (1 + total b)%nat -> (system (b_eq (insert_div b d)) (b_ineq (insert_div b d)) (u ++ [e]) <-> system (b_eq b) (b_ineq b) u)).
  { intros u e Lu. unfold system, insert_div, pad_map. cbn. rewrite !Forall_map. unfold rows_of in *. rewrite !Forall_forall in *. unfold zero_on, nonneg_on, pad. cbn [repeat].
    split; intros [H1 H2]; (split; intros x Hx; [specialize (H1 x Hx); specialize (We x Hx)|specialize (H2 x Hx); specialize (Wi x Hx)]); [rewrite dot_app2 in H1 by lia|rewrite dot_app2 in H2 by lia|rewrite dot_app2 by lia|rewrite dot_app2 by lia]; cbn [dot] in *; lia. }
  rewrite T. split.
  - intros (L & H & S). exists (firstn (1 + total b) v), (nth (1 + total b) v 0). assert (E : v = firstn (1 + total b) v ++ [nth (1 + total b) v 0]). { rewrite <- (firstn_skipn (1 + total b) v) at 1. f_equal. assert (LS : length (skipn (1 + total b) v) = 1%nat) by (rewrite skipn_length; lia). rewrite <- (Nat.add_0_r (1 + total b)) at 2. rewrite <- nth_skipn. destruct (skipn (1 + total b) v) as [|z [|z' t]]; [discriminate LS|reflexivity|discriminate LS]. }
    split; [exact E|]. assert (LF : length (firstn (1 + total b) v) = (1 + total b)%nat) by (rewrite firstn_length; lia). split; [exact LF|]. split; [destruct v; [discriminate H|exact H]|]. rewrite E in S. apply SY in S; assumption.
  - intros (u & e & -> & L & H & S). split; [rewrite app_length; cbn; lia|]. split; [destruct u; [discriminate L|exact H]|]. apply SY; assumption.
Qed.
Lemma insert_div_nth b d : wf b -> nth (ndiv b) (b_div (insert_div b d)) [] = d ++ [0] /\ forall k, (k < ndiv b)%nat -> nth k (b_div (insert_div b d)) [] = nth k (b_div b) [] ++ [0].
Proof.
  intros _. unfold insert_div, pad_map. cbn. split.
  - rewrite app_nth2 by (rewrite map_length; unfold ndiv; lia). rewrite map_length. unfold ndiv. rewrite Nat.sub_diag. reflexivity.
  - intros k Hk. rewrite app_nth1 by (rewrite map_length; exact Hk). rewrite (nth_indep _ [] (pad 1 [])) by (rewrite map_length; exact Hk). rewrite map_nth. reflexivity.
Qed.
Lemma insert_wf b d : wf b -> length d = (2 + total b)%nat -> wf (insert_div b d).
Proof.
  intros (We & Wi & Wd) L. destruct (insert_total b d) as (T & _). unfold wf. rewrite T. unfold insert_div, pad_map, rows_of in *. cbn. rewrite !Forall_map.
  assert (PL : forall (r : list Z), length (pad 1 r) = S (length r)) by (intros r; unfold pad; rewrite app_length; cbn; lia).
  split; [eapply Forall_impl; [|exact We]; cbn beta; intros r Hr; rewrite PL; lia|]. split; [eapply Forall_impl; [|exact Wi]; cbn beta; intros r Hr; rewrite PL; lia|]. apply Forall_app. rewrite Forall_map. split; [eapply Forall_impl; [|exact Wd]; cbn beta; intros r Hr; rewrite PL; lia|]. constructor; [|constructor]. rewrite app_length. cbn. lia.
Qed.

(** a table for a piece of the first argument *)
Definition table_ok (np ni no : nat) (t : table) : Prop :=
  okb np ni no (fst t) /\ ordered (fst t) /\ b_empty (fst t) = false /\ (snd t = true -> forall v, ~ solves (fst t) v).
Lemma table_weak np ni no t : table_ok np ni no t -> weak t.
Proof. intros ((P & _) & _ & _ & S). split; [apply P|]. split; [apply P|exact S]. Qed.
Lemma tab_add_ineq_ok np ni no s t r : table_ok np ni no t -> length r = (1 + total (fst t))%nat ->
  table_ok np ni no (tab_add_ineq emp s t r) /\ total (fst (tab_add_ineq emp s t r)) = total (fst t) /\ b_div (fst (tab_add_ineq emp s t r)) = b_div (fst t) /\ forall v, solves (fst (tab_add_ineq emp s t r)) v <-> solves (fst t) v /\ nonneg_on v r.
Proof.
  intros T L. pose proof (tab_add_weak s t r (table_weak _ _ _ _ T) L) as (W' & R' & S'). destruct T as ((P & Z) & O & E & S). split; [|split; [reflexivity|split; [reflexivity|intros v; apply solves_add]]].
  split; [|split; [exact O|split; [exact E|exact S']]]. split; [|exact Z]. destruct P as (W & A & D & I & RR & H). split; [exact W'|]. split; [exact A|]. split; [exact D|]. split; [|split; [exact RR|intros F; cbn in F; congruence]].
  intros v Lv Hv Sv. apply (I v Lv Hv). assert (Q : solves (add_ineq (fst t) r) v) by (split; [exact Lv|split; [exact Hv|exact Sv]]). apply solves_add in Q. apply Q.
Qed.
Lemma div_ineqs b d u e : wf b -> length d = (2 + total b)%nat -> length u = (1 + total b)%nat -> hd 0 u = 1 ->
  let b' := insert_div b d in
  length (ineq_for_div b' (ndiv b)) = (1 + total b')%nat /\ length (ineq_for_div2 b' (ndiv b)) = (1 + total b')%nat /\
  (nonneg_on (u ++ [e]) (ineq_for_div b' (ndiv b)) /\ nonneg_on (u ++ [e]) (ineq_for_div2 b' (ndiv b)) <-> hd 0 d * e <= dot (tl d) u < hd 0 d * e + hd 0 d).
Proof.
  intros W L Lu Hu. cbn zeta. destruct (insert_total b d) as (T & N & V). unfold ineq_for_div, ineq_for_div2. rewrite (proj1 (insert_div_nth b d W)). rewrite T, V. destruct d as [|d0 d]; [discriminate L|]. cbn [app hd tl]. assert (Ld : length d = (1 + total b)%nat) by (cbn in L; lia).
  assert (LE : length (d ++ [0]) = (2 + total b)%nat) by (rewrite app_length; cbn; lia). unfold total in *. split; [rewrite zupd_length; lia|]. split; [rewrite !zupd_length, neg_len; lia|].
  assert (NU : nth (1 + nvar b + ndiv b) (u ++ [e]) 0 = e) by (rewrite app_nth2 by lia; rewrite Lu; replace (1 + nvar b + ndiv b - (1 + (nvar b + ndiv b)))%nat with 0%nat by lia; reflexivity).
  assert (ND : nth (1 + nvar b + ndiv b) (d ++ [0]) 0 = 0) by (rewrite app_nth2 by lia; rewrite Ld; replace (1 + nvar b + ndiv b - (1 + (nvar b + ndiv b)))%nat with 0%nat by lia; reflexivity).
  assert (DD : dot (d ++ [0]) (u ++ [e]) = dot d u) by (rewrite dot_app2 by lia; cbn; lia).
  assert (NS : nth (1 + nvar b + ndiv b) (seq_neg (d ++ [0])) 0 = 0) by (unfold seq_neg; etransitivity; [exact (map_nth Z.opp (d ++ [0]) 0 _)|rewrite ND; reflexivity]).
  assert (HU : nth 0 (u ++ [e]) 0 = 1) by (destruct u; [discriminate Lu|exact Hu]).
  unfold nonneg_on. rewrite dot_zupd by lia. rewrite ND, NU, DD. set (r2 := zupd (seq_neg (d ++ [0])) (1 + nvar b + ndiv b) d0). assert (L2 : length r2 = (2 + (nvar b + ndiv b))%nat) by (unfold r2; rewrite zupd_length, neg_len; lia). rewrite dot_zupd by lia. rewrite HU. assert (DR : dot r2 (u ++ [e]) = - dot d u + (d0 - 0) * e) by (unfold r2; rewrite dot_zupd by (rewrite neg_len; lia); rewrite NS, NU, dot_seq_neg, DD; reflexivity).
  assert (N2 : nth (1 + nvar b + ndiv b) r2 0 = d0). { unfold r2. rewrite nth_zupd, Nat.eqb_refl. destruct (Nat.ltb_spec (1 + nvar b + ndiv b) (length (seq_neg (d ++ [0])))) as [|Q]; [reflexivity|]. rewrite neg_len in Q. lia. }
  rewrite N2, DR. lia.
Qed.
(** isl_tab_add_div *)
Lemma tab_add_div_ok np ni no s t d : table_ok np ni no t -> length d = (2 + total (fst t))%nat -> 0 < hd 0 d ->
  let t' := tab_add_div emp s t d in
  table_ok np ni no t' /\ total (fst t') = S (total (fst t)) /\ ndiv (fst t') = S (ndiv (fst t)) /\
  (forall v, solves (fst t') v <-> exists u e, v = u ++ [e] /\ solves (fst t) u /\ hd 0 d * e <= dot (tl d) u < hd 0 d * e + hd 0 d).
Proof.
  intros T L D0. cbn zeta. pose proof T as ((P & Zs) & O & E & S). pose proof P as (W & A & D & I & R & H). set (b := fst t) in *. unfold tab_add_div. cbn zeta. fold b. set (b' := insert_div b d). destruct (insert_total b d) as (TT & NN & VV). fold b' in TT, NN, VV.
  assert (W0 : weak (b', snd t)). { split; [apply insert_wf; assumption|]. split; [exact R|]. cbn [fst snd]. intros F v Hv. apply (solves_insert b d v W) in Hv as (u & e & _ & Hu). exact (S F u Hu). }
  assert (X : exists u : list Z, length u = (1 + total b)%nat /\ hd 0 u = 1) by (exists (1 :: repeat 0 (total b)); cbn; rewrite repeat_length; auto). destruct X as (u0 & Lu0 & Hu0).
  destruct (div_ineqs b d u0 0 W L Lu0 Hu0) as (L1 & L2 & _). fold b' in L1, L2. clear u0 Lu0 Hu0.
  pose proof (tab_add_weak s (b', snd t) _ W0 L1) as W1. pose proof (tab_add_weak s _ _ W1 L2) as W2. set (t1 := tab_add_ineq emp s (b', snd t) _) in *. set (t2 := tab_add_ineq emp s t1 _) in *.
  assert (SV : forall v, solves (fst t2) v <-> exists u e, v = u ++ [e] /\ solves b u /\ hd 0 d * e <= dot (tl d) u < hd 0 d * e + hd 0 d).
  { intros v. unfold t2, t1, tab_add_ineq. cbn [fst]. rewrite !solves_add. unfold b' at 1. rewrite (solves_insert b d v W). split.
    - intros (((u & e & -> & Su) & N1) & N2). exists u, e. split; [reflexivity|]. split; [exact Su|]. apply (div_ineqs b d u e W L (proj1 Su) (proj1 (proj2 Su))). split; assumption.
    - intros (u & e & -> & Su & B). apply (div_ineqs b d u e W L (proj1 Su) (proj1 (proj2 Su))) in B as (N1 & N2). split; [split; [exists u, e; auto|exact N1]|exact N2]. }
  assert (DV : b_div (fst t2) = b_div b') by reflexivity. assert (NV2 : nvar (fst t2) = nvar b) by reflexivity. assert (ND2 : ndiv (fst t2) = Datatypes.S (ndiv b)) by exact NN. assert (TT2 : total (fst t2) = Datatypes.S (total b)) by exact TT.
  destruct (insert_div_nth b d W) as (ID1 & ID2). fold b' in ID1, ID2.
  assert (O2 : ordered (fst t2)).
  { intros k j Hk Hj Hd. rewrite DV in *. rewrite NV2. rewrite ND2 in Hk. destruct (Nat.eq_dec k (ndiv b)) as [->|NE].
    - rewrite ID1. unfold total in L. destruct (Nat.eq_dec j (ndiv b)) as [->|]; [rewrite app_nth2 by lia; replace (2 + nvar b + ndiv b - length d)%nat with 0%nat by lia; reflexivity|apply nth_overflow; rewrite app_length; cbn; lia].
    - assert (KL : (k < ndiv b)%nat) by lia. rewrite ID2 in Hd by exact KL. rewrite ID2 by exact KL. pose proof (div_len b k W KL) as Lk. unfold total in Lk. destruct (Nat.lt_ge_cases (2 + nvar b + j) (length (nth k (b_div b) []))) as [LL|LL].
      + rewrite app_nth1 by exact LL. apply O; [exact KL|exact Hj|]. destruct (nth k (b_div b) []); [discriminate Lk|exact Hd].
      + rewrite app_nth2 by exact LL. destruct (2 + nvar b + j - _)%nat as [|[|]]; reflexivity. }
  destruct W2 as (Wf & Rf & Sf). split; [|split; [exact TT2|split; [exact ND2|exact SV]]]. split; [|split; [exact O2|split; [exact E|exact Sf]]]. split; [|exact Zs].
  split; [exact Wf|]. split; [apply ordered_acyclic; exact O2|]. split.
  { rewrite DV. unfold denoms, b', insert_div, pad_map. cbn. apply Forall_app. rewrite Forall_map. split; [|constructor; [|constructor]]; [|destruct d; cbn in *; lia]. eapply Forall_impl; [|exact D]. cbn beta. intros r Hr. destruct r; cbn in *; lia. }
  split; [|split; [exact Rf|intros F; change (b_empty (fst t2)) with (b_empty b) in F; congruence]].
  intros v Lv Hv Sv. assert (Q : solves (fst t2) v) by (split; [exact Lv|split; [exact Hv|exact Sv]]). apply SV in Q as (u & e & -> & (Lu & Hu & Su) & B). pose proof (I u Lu Hu Su) as Dv. intros k Hk. rewrite DV. fold (ndiv (fst t2)) in Hk. rewrite ND2 in Hk. rewrite NV2. unfold total in Lu. destruct (Nat.eq_dec k (ndiv b)) as [->|NE].
  - rewrite ID1. right. replace (hd 0 (d ++ [0])) with (hd 0 d) by (destruct d; [discriminate L|reflexivity]). replace (tl (d ++ [0])) with (tl d ++ [0]) by (destruct d; [discriminate L|reflexivity]). rewrite dot_app2 by (rewrite (tl_len d (1 + total b)) by exact L; unfold total; lia). rewrite app_nth2 by lia. replace (1 + nvar b + ndiv b - length u)%nat with 0%nat by lia. cbn [dot nth]. lia.
  - assert (KL : (k < ndiv b)%nat) by lia. rewrite ID2 by exact KL. specialize (Dv k KL). pose proof (div_len b k W KL) as Lk. rewrite app_nth1 by lia. destruct Dv as [Dz|Dv].
    + left. destruct (nth k (b_div b) []); [discriminate Lk|exact Dz].
    + right. replace (hd 0 (nth k (b_div b) [] ++ [0])) with (hd 0 (nth k (b_div b) [])) by (destruct (nth k (b_div b) []); [discriminate Lk|reflexivity]). replace (tl (nth k (b_div b) [] ++ [0])) with (tl (nth k (b_div b) []) ++ [0]) by (destruct (nth k (b_div b) []); [discriminate Lk|reflexivity]).
      rewrite dot_app2 by (rewrite (tl_len _ (1 + total b)) by exact Lk; unfold total; lia). cbn [dot]. lia.
Qed.
End Tab.
