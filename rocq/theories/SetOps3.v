(** Operations on a single basic map: reversal, negation, projection. *)
From Coq Require Import ZArith List Bool Arith Lia.
From Verif Require Import BMapGauss2 BElimSpec SeqSpec SeqModel MatModel SeqProofs BMapModel BMapSpec BMapSem ReorderModel LocalModel BElimModel BElimProofs BElimVars SimpModel SimpSpec SimpBase SimpFinal SetModel SetBase SetSpec SetViews SetLift SetOps SetOps2.
Import ListNotations.
Open Scope Z_scope.

Section Single.
Variables (b : bmap) (np ni no pre : nat) (c view : list Z -> list Z).
Let nv := (np + ni + no)%nat.
Let tot := (nv + pre + ndiv b)%nat.
Hypothesis P : proper b.
Hypothesis L1 : forall r, length r = (1 + total b)%nat -> length (c r) = (1 + tot)%nat.
Hypothesis V1 : forall w, length w = (1 + tot)%nat -> length (view w) = (1 + total b)%nat /\ hd 0 (view w) = hd 0 w /\ (forall k, (k < ndiv b)%nat -> nth (1 + nvar b + k) (view w) 0 = nth (1 + nv + pre + k) w 0).
Hypothesis DOT1 : forall r w, length r = (1 + total b)%nat -> length w = (1 + tot)%nat -> dot (c r) w = dot r (view w).
Hypothesis K11 : forall r j, length r = (1 + total b)%nat -> (j < ndiv b)%nat -> nth (1 + nv + pre + j) (c r) 0 = nth (1 + nvar b + j) r 0.
Let t := fresh_map 0 0 0.
Let c2 (r : list Z) := hd 0 r :: repeat 0 tot.
Let view2 (w : list Z) := [hd 0 w].
Let s := combined b t np ni no pre 0 [] c c2 false.
Lemma s_tot : (nv + (pre + (ndiv b + (ndiv t + 0))))%nat = tot.
Proof. unfold tot. change (ndiv t) with 0%nat. lia. Qed.
Lemma single_hyps : 
  (forall r, length r = (1 + total t)%nat -> length (c2 r) = (1 + tot)%nat) /\
  (forall w, length w = (1 + tot)%nat -> length (view2 w) = (1 + total t)%nat /\ hd 0 (view2 w) = hd 0 w /\ (forall k, (k < ndiv t)%nat -> nth (1 + nvar t + k) (view2 w) 0 = nth (1 + nv + pre + ndiv b + k) w 0)) /\
  (forall r w, length r = (1 + total t)%nat -> length w = (1 + tot)%nat -> dot (c2 r) w = dot r (view2 w)) /\ proper t.
Proof.
  split; [intros r _; unfold c2; cbn [length]; rewrite repeat_length; reflexivity|]. split; [intros w _; split; [reflexivity|]; split; [reflexivity|]; intros k Hk; inversion Hk|]. split.
  - intros r w Lr Lw. unfold c2, view2. destruct r as [|x [|? ?]]; try discriminate Lr. destruct w as [|y w]; [discriminate Lw|]. cbn [dot hd]. rewrite dot_repeat0. ring.
  - split; [repeat split; constructor|]. split; [exists (fun _ => 0%nat); intros k j Hk; inversion Hk|]. split; [constructor|]. split; [intros v _ _ _ k Hk; inversion Hk|]. split; [reflexivity|]. intros E. discriminate E.
Qed.
Lemma single_good : good s.
Proof.
  assert (ST : (np + ni + no + (pre + (ndiv b + (ndiv t + 0))))%nat = tot) by exact s_tot. destruct single_hyps as (H2 & H4 & H6 & PT). destruct P as (W1 & A1 & D1 & I1 & _), PT as (W2 & A2 & D2 & I2 & _).
  apply (c_good b t np ni no pre 0 [] c c2 view view2); try assumption; try rewrite ST; try exact L1; try exact V1; try exact DOT1; try exact K11; try exact H2; try exact H4; try exact H6; try (intros r j _ Hj; inversion Hj; fail). 1: constructor.
  intros r j Lr Hj. destruct r as [|x [|? ?]]; try discriminate Lr. unfold c2. cbn [hd Nat.add nth]. apply nth_repeat_0.
Qed.
Lemma single_points p : length p = (1 + nv)%nat -> (points s p <-> exists x e, length x = pre /\ length e = ndiv b /\ system (b_eq b) (b_ineq b) (view (p ++ x ++ e))).
Proof.
  intros Lp. assert (ST : (np + ni + no + (pre + (ndiv b + (ndiv t + 0))))%nat = tot) by exact s_tot. destruct single_hyps as (H2 & H4 & H6 & PT). destruct P as (W1 & A1 & D1 & I1 & _), PT as (W2 & A2 & D2 & I2 & _). etransitivity.
  { apply (c_points b t np ni no pre 0 [] c c2 view view2); try assumption; try rewrite ST; try exact L1; try exact V1; try exact DOT1; try exact K11; try exact H2; try exact H4; try exact H6; try (intros r j _ Hj; inversion Hj; fail). }
  split.
  - intros (x & e1 & e2 & y & Lx & Le1 & Le2 & Ly & _ & S & _). destruct e2; [|discriminate Le2]. destruct y; [|discriminate Ly]. rewrite !app_nil_r in S. exists x, e1. auto.
  - intros (x & e & Lx & Le & S). exists x, e, [], []. rewrite !app_nil_r. split; [exact Lx|]. split; [exact Le|]. split; [reflexivity|]. split; [reflexivity|]. split; [constructor|]. split; [exact S|]. split; constructor.
Qed.
Definition moved (f nd : bool) : bmap := mkb np ni no (map c (b_eq b)) (map c (b_ineq b)) (repeat (repeat 0 (2 + tot)) pre ++ map (cdiv c) (b_div b)) false f nd.
Lemma moved_is : moved false false = s.
Proof.
  unfold moved, s, combined. cbn [t b_eq b_ineq b_div fresh_map map]. rewrite !app_nil_r. unfold unknown. fold nv. rewrite s_tot. cbn [repeat]. rewrite ?app_nil_r. reflexivity.
Qed.
Lemma moved_ok nd : okb np ni no (moved (b_empty b) nd) /\ forall p, length p = (1 + nv)%nat -> hd 0 p = 1 ->
  (points (moved (b_empty b) nd) p <-> b_empty b = false /\ exists x e, length x = pre /\ length e = ndiv b /\ system (b_eq b) (b_ineq b) (view (p ++ x ++ e))).
Proof.
  assert (NP : b_empty b = true -> forall q, length q = (1 + nv)%nat -> hd 0 q = 1 -> ~ points s q).
  { intros E q Lq Hq H. apply single_points in H; [|exact Lq]. destruct H as (x & e & Lx & Le & S). assert (Lw : length (q ++ x ++ e) = (1 + tot)%nat) by (rewrite !app_length; unfold tot; lia). destruct (V1 _ Lw) as (LV & HV & _). destruct P as (_ & _ & _ & _ & _ & Hn). apply (Hn E (view (q ++ x ++ e)) LV); [|exact S]. rewrite HV. destruct q; [discriminate Lq|exact Hq]. }
  pose proof (good_proper s single_good eq_refl) as PS. split.
  - split; [|repeat split]. destruct (b_empty b) eqn:E.
    + change (proper (flagged (moved false nd))). apply flagged_proper; [change (proper (moved false false)); rewrite moved_is; exact PS|]. intros q Lq Hq D. apply (NP eq_refl q Lq Hq). rewrite <- moved_is. split; [reflexivity|exact D].
    + change (proper (moved false false)). rewrite moved_is. exact PS.
  - intros p Lp Hp. rewrite <- single_points by exact Lp. rewrite <- moved_is. unfold points, member. cbn [moved b_empty b_eq b_ineq]. change (ndiv (moved (b_empty b) nd)) with (ndiv (moved false false)). tauto.
Qed.
End Single.

Lemma blocks4 (l : list Z) n1 n2 n3 n4 : length l = (1 + n1 + n2 + n3 + n4)%nat ->
  exists h x1 x2 x3 x4, l = h :: x1 ++ x2 ++ x3 ++ x4 /\ length x1 = n1 /\ length x2 = n2 /\ length x3 = n3 /\ length x4 = n4.
Proof.
  destruct l as [|h l]; [discriminate|]. cbn [length]. intros L. exists h, (firstn n1 l), (firstn n2 (skipn n1 l)), (firstn n3 (skipn (n1 + n2) l)), (skipn (n1 + n2 + n3) l). rewrite !firstn_length, !skipn_length. split; [|repeat split; lia]. f_equal.
  replace (skipn (n1 + n2 + n3) l) with (skipn n3 (skipn (n1 + n2) l)) by (rewrite skipn_plus; f_equal; lia). rewrite (firstn_skipn n3). replace (skipn (n1 + n2) l) with (skipn n2 (skipn n1 l)) by (rewrite skipn_plus; f_equal; lia). rewrite !firstn_skipn. reflexivity.
Qed.
Lemma firstn_exact {A} (a r : list A) n : length a = n -> firstn n (a ++ r) = a.
Proof. intros <-. rewrite firstn_app, Nat.sub_diag, firstn_all, firstn_O, app_nil_r. reflexivity. Qed.
Lemma skipn_exact {A} (a r : list A) n : length a = n -> skipn n (a ++ r) = r.
Proof. intros <-. rewrite skipn_app, Nat.sub_diag, skipn_all. reflexivity. Qed.
Lemma swap_row_blocks h (x1 x2 x3 x4 : list Z) n1 n2 n3 : length x1 = n1 -> length x2 = n2 -> length x3 = n3 ->
  swap_vars_row (1 + n1) n2 n3 (h :: x1 ++ x2 ++ x3 ++ x4) = h :: x1 ++ x3 ++ x2 ++ x4.
Proof.
  intros E1 E2 E3. unfold swap_vars_row. replace (h :: x1 ++ x2 ++ x3 ++ x4) with ((h :: x1) ++ x2 ++ x3 ++ x4) by reflexivity. rewrite (firstn_exact (h :: x1) (x2 ++ x3 ++ x4) (1 + n1)) by (cbn [length]; lia). rewrite (skipn_exact (h :: x1) (x2 ++ x3 ++ x4) (1 + n1)) by (cbn [length]; lia). rewrite (firstn_exact x2) by exact E2.
  replace ((h :: x1) ++ x2 ++ x3 ++ x4) with ((h :: x1 ++ x2) ++ x3 ++ x4) by assoc. rewrite (skipn_exact (h :: x1 ++ x2)) by (len). rewrite (firstn_exact x3) by exact E3. replace ((h :: x1 ++ x2) ++ x3 ++ x4) with ((h :: x1 ++ x2 ++ x3) ++ x4) by assoc. rewrite skipn_exact by (len). reflexivity.
Qed.
Lemma neg_row_blocks h (x1 x2 x3 x4 : list Z) n1 n2 n3 : length x1 = n1 -> length x2 = n2 -> length x3 = n3 ->
  neg_row (1 + n1 + n2) n3 (h :: x1 ++ x2 ++ x3 ++ x4) = h :: x1 ++ x2 ++ map Z.opp x3 ++ x4.
Proof.
  intros E1 E2 E3. unfold neg_row. replace (h :: x1 ++ x2 ++ x3 ++ x4) with ((h :: x1 ++ x2) ++ x3 ++ x4) by assoc. rewrite firstn_exact by (len). rewrite (skipn_exact (h :: x1 ++ x2)) by (len). rewrite (firstn_exact x3) by exact E3. replace ((h :: x1 ++ x2) ++ x3 ++ x4) with ((h :: x1 ++ x2 ++ x3) ++ x4) by assoc. rewrite skipn_exact by (len). assoc.
Qed.
Lemma dot_blocks h x1 x2 x3 x4 k y1 y2 y3 y4 : length x1 = length y1 -> length x2 = length y2 -> length x3 = length y3 ->
  dot (h :: x1 ++ x2 ++ x3 ++ x4) (k :: y1 ++ y2 ++ y3 ++ y4) = h * k + dot x1 y1 + dot x2 y2 + dot x3 y3 + dot x4 y4.
Proof. intros E1 E2 E3. cbn [dot]. rewrite !dot_app2 by assumption. ring. Qed.
Lemma dot_opp x : forall y, dot (map Z.opp x) y = - dot x y.
Proof. induction x as [|a x IH]; intros [|c y]; cbn [map dot]; try reflexivity. rewrite IH. ring. Qed.
Lemma dot_opp_r x y : dot x (map Z.opp y) = - dot x y.
Proof. rewrite dot_comm, dot_opp, dot_comm. reflexivity. Qed.
Lemma nth_block4 h (x1 x2 x3 x4 : list Z) k : nth (1 + length x1 + length x2 + length x3 + k) (h :: x1 ++ x2 ++ x3 ++ x4) 0 = nth k x4 0.
Proof. cbn [Nat.add nth]. rewrite app_nth2 by lia. rewrite app_nth2 by lia. rewrite app_nth2 by lia. f_equal. lia. Qed.

(** ** isl_basic_map_swap_vars and isl_basic_map_neg *)
Lemma div_rows_moved b f : proper b -> map (fun d => hd 0 d :: f (tl d)) (b_div b) = map (cdiv f) (b_div b).
Proof. reflexivity. Qed.
Lemma swap_blocks_hyps b n1 n2 n3 : (n1 + n2 + n3)%nat = nvar b ->
  let c := swap_vars_row (1 + n1) n2 n3 in let view := swap_vars_row (1 + n1) n3 n2 in let tot := (nvar b + 0 + ndiv b)%nat in
  (forall r, length r = (1 + total b)%nat -> length (c r) = (1 + tot)%nat) /\
  (forall w, length w = (1 + tot)%nat -> length (view w) = (1 + total b)%nat /\ hd 0 (view w) = hd 0 w /\ (forall k, (k < ndiv b)%nat -> nth (1 + nvar b + k) (view w) 0 = nth (1 + nvar b + 0 + k) w 0)) /\
  (forall r w, length r = (1 + total b)%nat -> length w = (1 + tot)%nat -> dot (c r) w = dot r (view w)) /\
  (forall r j, length r = (1 + total b)%nat -> (j < ndiv b)%nat -> nth (1 + nvar b + 0 + j) (c r) 0 = nth (1 + nvar b + j) r 0).
Proof.
  intros N c view tot. assert (B : forall r, length r = (1 + total b)%nat -> exists h x1 x2 x3 x4, r = h :: x1 ++ x2 ++ x3 ++ x4 /\ length x1 = n1 /\ length x2 = n2 /\ length x3 = n3 /\ length x4 = ndiv b) by (intros r Lr; apply blocks4; unfold total in Lr; lia).
  assert (B' : forall r : list Z, length r = (1 + tot)%nat -> exists h x1 x2 x3 x4, r = h :: x1 ++ x3 ++ x2 ++ x4 /\ length x1 = n1 /\ length x2 = n2 /\ length x3 = n3 /\ length x4 = ndiv b).
  { intros r Lr. destruct (blocks4 r n1 n3 n2 (ndiv b)) as (h & x1 & x2 & x3 & x4 & E & L); [unfold tot in Lr; lia|]. exists h, x1, x3, x2, x4. tauto. }
  unfold total, tot, c, view. split; [|split; [|split]].
  - intros r Lr. destruct (B r Lr) as (h & x1 & x2 & x3 & x4 & -> & E1 & E2 & E3 & E4). rewrite swap_row_blocks by assumption. len.
  - intros w Lw. destruct (B' w Lw) as (h & x1 & x2 & x3 & x4 & -> & E1 & E2 & E3 & E4). rewrite swap_row_blocks by assumption. split; [len|]. split; [reflexivity|]. intros k Hk. replace (1 + nvar b + k)%nat with (1 + length x1 + length x2 + length x3 + k)%nat by lia. rewrite nth_block4. replace (1 + nvar b + 0 + k)%nat with (1 + length x1 + length x3 + length x2 + k)%nat by lia. rewrite nth_block4. reflexivity.
  - intros r w Lr Lw. destruct (B r Lr) as (h & x1 & x2 & x3 & x4 & -> & E1 & E2 & E3 & E4). destruct (B' w Lw) as (k & y1 & y2 & y3 & y4 & -> & F1 & F2 & F3 & F4). rewrite !swap_row_blocks by assumption. rewrite !dot_blocks by congruence. ring.
  - intros r j Lr Hj. destruct (B r Lr) as (h & x1 & x2 & x3 & x4 & -> & E1 & E2 & E3 & E4). rewrite swap_row_blocks by assumption. replace (1 + nvar b + j)%nat with (1 + length x1 + length x2 + length x3 + j)%nat by lia. rewrite nth_block4. replace (1 + nvar b + 0 + j)%nat with (1 + length x1 + length x3 + length x2 + j)%nat by lia. rewrite nth_block4. reflexivity.
Qed.
Lemma neg_hyps b n1 n2 n3 : (n1 + n2 + n3)%nat = nvar b ->
  let c := neg_row (1 + n1 + n2) n3 in let tot := (nvar b + 0 + ndiv b)%nat in
  (forall r, length r = (1 + total b)%nat -> length (c r) = (1 + tot)%nat) /\
  (forall w, length w = (1 + tot)%nat -> length (c w) = (1 + total b)%nat /\ hd 0 (c w) = hd 0 w /\ (forall k, (k < ndiv b)%nat -> nth (1 + nvar b + k) (c w) 0 = nth (1 + nvar b + 0 + k) w 0)) /\
  (forall r w, length r = (1 + total b)%nat -> length w = (1 + tot)%nat -> dot (c r) w = dot r (c w)) /\
  (forall r j, length r = (1 + total b)%nat -> (j < ndiv b)%nat -> nth (1 + nvar b + 0 + j) (c r) 0 = nth (1 + nvar b + j) r 0).
Proof.
  intros N c tot. assert (TT : tot = total b) by (unfold tot, total; lia). assert (B : forall r, length r = (1 + total b)%nat -> exists h x1 x2 x3 x4, r = h :: x1 ++ x2 ++ x3 ++ x4 /\ length x1 = n1 /\ length x2 = n2 /\ length x3 = n3 /\ length x4 = ndiv b) by (intros r Lr; apply blocks4; unfold total in Lr; lia).
  rewrite TT. assert (K : forall r j, length r = (1 + total b)%nat -> (j < ndiv b)%nat -> nth (1 + nvar b + j) (c r) 0 = nth (1 + nvar b + j) r 0).
  { intros r j Lr Hj. destruct (B r Lr) as (h & x1 & x2 & x3 & x4 & -> & E1 & E2 & E3 & E4). unfold c. rewrite neg_row_blocks by assumption. replace (1 + nvar b + j)%nat with (1 + length x1 + length x2 + length (map Z.opp x3) + j)%nat at 1 by (rewrite map_length; lia). rewrite nth_block4. replace (1 + nvar b + j)%nat with (1 + length x1 + length x2 + length x3 + j)%nat by lia. rewrite nth_block4. reflexivity. }
  assert (L : forall r, length r = (1 + total b)%nat -> length (c r) = (1 + total b)%nat /\ hd 0 (c r) = hd 0 r).
  { intros r Lr. destruct (B r Lr) as (h & x1 & x2 & x3 & x4 & -> & E1 & E2 & E3 & E4). unfold c. rewrite neg_row_blocks by assumption. split; [|reflexivity]. cbn [length]. rewrite !app_length, map_length. unfold total. lia. }
  replace (1 + nvar b + 0)%nat with (1 + nvar b)%nat by lia. split; [intros r Lr; apply L; exact Lr|]. split; [intros w Lw; destruct (L w Lw) as [L1 L2]; split; [exact L1|]; split; [exact L2|]; intros k Hk; apply K; assumption|]. split; [|exact K].
  intros r w Lr Lw. destruct (B r Lr) as (h & x1 & x2 & x3 & x4 & -> & E1 & E2 & E3 & E4). destruct (B w Lw) as (k & y1 & y2 & y3 & y4 & -> & F1 & F2 & F3 & F4). unfold c. rewrite !neg_row_blocks by assumption. rewrite !dot_blocks by (rewrite ?map_length; congruence). rewrite dot_opp, dot_opp_r. ring.
Qed.

Lemma swap_system P I O e np ni no : length P = np -> length I = ni -> length O = no ->
  swap_vars_row (1 + np) no ni ((1 :: P ++ O ++ I) ++ [] ++ e) = 1 :: P ++ I ++ O ++ e.
Proof. intros LP LI LO. replace ((1 :: P ++ O ++ I) ++ [] ++ e) with (1 :: P ++ O ++ I ++ e) by assoc. apply swap_row_blocks; assumption. Qed.
(** from a marked system to the points *)
Lemma relates_marked b P I O : proper b -> length P = b_param b -> length I = b_in b -> length O = b_out b ->
  (relates b P I O <-> b_empty b = false /\ exists e, length e = ndiv b /\ system (b_eq b) (b_ineq b) (1 :: P ++ I ++ O ++ e)).
Proof.
  intros PR LP LI LO. rewrite <- relates_system by assumption. split; [intros H; split; [apply H|exact H]|tauto].
Qed.
Lemma swap_moved_ok b np ni no nd : okb np ni no b ->
  let b2 := moved b np ni no 0 (swap_vars_row (1 + np) ni no) (b_empty b) nd in
  okb np ni no b2 /\ forall P I O, length P = np -> length I = ni -> length O = no -> (points b2 (1 :: P ++ O ++ I) <-> relates b P I O).
Proof.
  intros [PB (S1 & S2 & S3)] b2. assert (NV : (np + ni + no)%nat = nvar b) by (unfold nvar; congruence). destruct (swap_blocks_hyps b np ni no NV) as (H1 & H2 & H3 & H4). rewrite <- NV in *.
  destruct (moved_ok b np ni no 0 (swap_vars_row (1 + np) ni no) (swap_vars_row (1 + np) no ni) PB) with (nd := nd) as [OK Q]; [exact H1|rewrite <- NV; exact H2|exact H3|rewrite <- NV; exact H4|]. split; [exact OK|].
  intros P I O LP LI LO. unfold b2. etransitivity; [apply Q; [len|reflexivity]|]. rewrite relates_marked by (try assumption; congruence). split.
  - intros (E & x & e & Lx & Le & S). destruct x; [|discriminate Lx]. rewrite swap_system in S by assumption. split; [exact E|]. exists e. auto.
  - intros (E & e & Le & S). split; [exact E|]. exists [], e. rewrite swap_system by assumption. auto.
Qed.
Lemma swap_vars_ok b b' np ni no : okb np ni no b -> swap_vars b (1 + np) ni no = Ok b' ->
  okb np ni no b' /\ forall P I O, length P = np -> length I = ni -> length O = no -> (points b' (1 :: P ++ O ++ I) <-> relates b P I O).
Proof.
  intros K. pose proof K as [PB (S1 & S2 & S3)]. unfold swap_vars. destruct (Nat.eqb_spec ni 0) as [E0|E0]; cbn [orb].
  { intros [= <-]. split; [exact K|]. intros P I O LP LI LO. rewrite E0 in LI. destruct I; [|discriminate LI]. unfold relates. cbn [app]. rewrite app_nil_r. reflexivity. }
  destruct (Nat.eqb_spec no 0) as [E1|E1].
  { intros [= <-]. split; [exact K|]. intros P I O LP LI LO. rewrite E1 in LO. destruct O; [|discriminate LO]. unfold relates. cbn [app]. rewrite app_nil_r. reflexivity. }
  cbn zeta. match goal with |- context [gauss ?x] => set (b2 := x) end. assert (EB : b2 = moved b np ni no 0 (swap_vars_row (1 + np) ni no) (b_empty b) (b_nd b)).
  { apply bmap_eq; try assumption; try reflexivity. apply PB. }
  destruct (gauss b2) as [[b3 p3]| | |] eqn:EG; cbn [bind fst]; try discriminate. intros [= <-]. destruct (swap_moved_ok b np ni no (b_nd b) K) as [[P2 SZ] Q]. cbn zeta in Q. rewrite <- EB in P2, SZ, Q.
  pose proof (gauss_same b2 b3 p3 P2 EG) as SG. pose proof (same_trans _ _ _ SG (finalize_same b3 (proj1 (proj2 SG)))) as SF. split; [apply (same_okb _ _ _ b2); assumption|].
  intros P I O LP LI LO. rewrite <- Q by assumption. destruct SF as (_ & _ & SF). symmetry. apply SF; [|reflexivity]. destruct SZ as (Z1 & Z2 & Z3). unfold nvar. len.
Qed.
Section Ops.
Variables (sid : bmap -> bool) (hash : row -> nat) (no_redundant : bmap -> bool) (tab : bmap -> bool * list kind) (fuel : nat) (drd : bmap -> res bmap).
Hypothesis TAB : sound_tab tab.
Hypothesis DRD : forall b b', proper b -> drd b = Ok b' -> same b b'.
Lemma reset_okb b np ni no np' ni' no' : okb np ni no b -> (np + ni + no = np' + ni' + no')%nat ->
  okb np' ni' no' (reset_dims sid b np' ni' no') /\ forall q, length q = (1 + np + ni + no)%nat -> hd 0 q = 1 -> (points (reset_dims sid b np' ni' no') q <-> points b q).
Proof.
  intros [PB (S1 & S2 & S3)] N. destruct (reset_dims_ok sid b np' ni' no' PB) as (PR & R1 & R2 & R3 & Q); [unfold nvar; lia|]. split; [split; [exact PR|split; [exact R1|split; [exact R2|exact R3]]]|]. intros q Lq Hq. apply Q; [unfold nvar; lia|exact Hq].
Qed.
Lemma reverse_ok b b' np ni no : okb np ni no b -> reverse sid b = Ok b' ->
  okb np no ni b' /\ forall P I O, length P = np -> length I = ni -> length O = no -> (relates b' P O I <-> relates b P I O).
Proof.
  intros K. pose proof K as [PB (S1 & S2 & S3)]. unfold reverse. rewrite S1, S2, S3. destruct (swap_vars b (1 + np) ni no) as [b1| | |] eqn:E; cbn [bind]; try discriminate. intros [= <-]. destruct (swap_vars_ok b b1 np ni no K E) as [K1 Q1]. destruct (reset_okb b1 np ni no np no ni K1) as [K2 Q2]; [lia|]. split; [exact K2|].
  intros P I O LP LI LO. unfold relates at 1. rewrite Q2 by (first [reflexivity|len]). apply Q1; assumption.
Qed.
Lemma neg_ok b b' np ni no : okb np ni no b -> neg b = Ok b' ->
  okb np ni no b' /\ forall P I O, length P = np -> length I = ni -> length O = no -> (relates b' P I O <-> relates b P I (map Z.opp O)).
Proof.
  intros K. pose proof K as [PB (S1 & S2 & S3)]. unfold neg. rewrite S1, S2, S3. cbn zeta. match goal with |- context [gauss ?x] => set (b2 := x) end.
  assert (EB : b2 = moved b np ni no 0 (neg_row (1 + np + ni) no) (b_empty b) (b_nd b)) by (apply bmap_eq; try assumption; try reflexivity; apply PB).
  assert (NV : (np + ni + no)%nat = nvar b) by (unfold nvar; congruence). destruct (neg_hyps b np ni no NV) as (H1 & H2 & H3 & H4). rewrite <- NV in *.
  destruct (moved_ok b np ni no 0 (neg_row (1 + np + ni) no) (neg_row (1 + np + ni) no) PB) with (nd := b_nd b) as [[P2 SZ] Q]; [exact H1|rewrite <- NV; exact H2|exact H3|rewrite <- NV; exact H4|].
  destruct (gauss b2) as [[b3 p3]| | |] eqn:EG; cbn [bind fst]; try discriminate. intros [= <-]. rewrite <- EB in P2, SZ, Q.
  pose proof (gauss_same b2 b3 p3 P2 EG) as SG. pose proof (same_trans _ _ _ SG (finalize_same b3 (proj1 (proj2 SG)))) as SF. split; [apply (same_okb _ _ _ b2); assumption|].
  intros P I O LP LI LO. rewrite (relates_marked b) by (rewrite ?map_length; try assumption; congruence). pose proof SZ as (Z1 & Z2 & Z3). rewrite <- (same_relates b2 _ P I O SF) by congruence. unfold relates. etransitivity; [apply Q; [len|reflexivity]|].
  assert (VW : forall e, neg_row (1 + np + ni) no ((1 :: P ++ I ++ O) ++ [] ++ e) = 1 :: P ++ I ++ map Z.opp O ++ e) by (intros e; replace ((1 :: P ++ I ++ O) ++ [] ++ e) with (1 :: P ++ I ++ O ++ e) by assoc; apply neg_row_blocks; assumption). split.
  - intros (E & x & e & Lx & Le & S). destruct x; [|discriminate Lx]. rewrite VW in S. split; [exact E|]. exists e. auto.
  - intros (E & e & Le & S). split; [exact E|]. exists [], e. rewrite VW. auto.
Qed.
(** a set as a map without output dimensions *)
Lemma from_domain_ok s d np n : okb np 0 n s -> from_domain sid s = Ok d ->
  okb np n 0 d /\ forall P D, length P = np -> length D = n -> (relates d P D [] <-> relates s P [] D).
Proof.
  intros K. pose proof K as [PB (S1 & S2 & S3)]. unfold from_domain, from_range. rewrite S1, S3. destruct (reset_okb s np 0 n np 0 n K eq_refl) as [K1 Q1]. intros E. destruct (reverse_ok _ d np 0 n K1 E) as [K2 Q2]. split; [exact K2|].
  intros P D LP LD. rewrite (Q2 P [] D) by auto. unfold relates. apply Q1; [len|reflexivity].
Qed.
Lemma intersect_domain_ok b s b' np ni no : okb np ni no b -> okb np 0 ni s -> intersect_domain sid hash no_redundant tab fuel b s = Ok b' ->
  okb np ni no b' /\ forall P I O, length P = np -> length I = ni -> length O = no -> (relates b' P I O <-> relates b P I O /\ relates s P [] I).
Proof.
  intros K Ks. pose proof K as [PB (S1 & S2 & S3)]. pose proof Ks as [Ps (T1 & T2 & T3)]. unfold intersect_domain. rewrite S1, T1, S2, T3, !Nat.eqb_refl. cbn [negb andb]. rewrite andb_false_r. destruct (from_domain sid s) as [d| | |] eqn:E; cbn [bind]; try discriminate. destruct (from_domain_ok s d np ni Ks E) as [[Pd (D1 & D2 & D3)] Q]. intros E2.
  destruct (inter_ok b d np ni no K Pd D1) as [[PC SZ] Q1]; [lia|lia|]. pose proof (simp_fin_same hash no_redundant tab fuel TAB _ b' PC E2) as SM. split; [apply (same_okb _ _ _ _ b' SM SZ)|].
  intros P I O LP LI LO. destruct SZ as (Z1 & Z2 & Z3). rewrite <- (same_relates _ b' _ _ _ SM) by congruence. rewrite Q1 by assumption. rewrite D2, D3. cbn [firstn]. rewrite firstn_all2 by lia. rewrite Q by assumption. reflexivity.
Qed.
Lemma plain_universe_points b p : proper b -> plain_universe b = true -> length p = (1 + nvar b)%nat -> hd 0 p = 1 -> points b p.
Proof.
  intros PB U Lp Hp. unfold plain_universe in U. apply andb_prop in U. destruct U as [U1 U2]. apply Nat.eqb_eq in U1, U2. apply points_described; auto. exists (repeat 0 (ndiv b)). split; [apply repeat_length|]. destruct (b_eq b); [|discriminate U1]. destruct (b_ineq b); [|discriminate U2]. split; constructor.
Qed.
Lemma intersect_range_ok b s b' np ni no : okb np ni no b -> okb np 0 no s -> intersect_range hash no_redundant tab fuel b s = Ok b' ->
  okb np ni no b' /\ forall P I O, length P = np -> length I = ni -> length O = no -> (relates b' P I O <-> relates b P I O /\ relates s P [] O).
Proof.
  intros K Ks. pose proof K as [PB (S1 & S2 & S3)]. pose proof Ks as [Ps (T1 & T2 & T3)]. unfold intersect_range. rewrite S1, T1, S3, T3, !Nat.eqb_refl. cbn [negb andb]. rewrite andb_false_r. destruct (plain_universe s) eqn:U.
  { intros [= <-]. split; [exact K|]. intros P I O LP LI LO. split; [|tauto]. intros H. split; [exact H|]. apply plain_universe_points; auto. unfold nvar. len. }
  intros E2. destruct (inter_ok b s np ni no K Ps T1) as [[PC SZ] Q1]; [lia|lia|]. pose proof (simp_fin_same hash no_redundant tab fuel TAB _ b' PC E2) as SM. split; [apply (same_okb _ _ _ _ b' SM SZ)|].
  intros P I O LP LI LO. destruct SZ as (Z1 & Z2 & Z3). rewrite <- (same_relates _ b' _ _ _ SM) by congruence. rewrite Q1 by assumption. rewrite T2, T3. cbn [firstn]. rewrite firstn_all2 by lia. reflexivity.
Qed.
Lemma intersect_ordered_ok b1 b2 b' np ni no : okb np ni no b1 -> proper b2 -> b_param b2 = np -> (b_in b2 = ni /\ b_out b2 = no \/ b_in b2 = 0%nat /\ b_out b2 = 0%nat /\ b_empty b2 = false) -> intersect_ordered hash no_redundant tab fuel b1 b2 = Ok b' ->
  okb np ni no b' /\ forall P I O, length P = np -> length I = ni -> length O = no -> (relates b' P I O <-> relates b1 P I O /\ relates b2 P (firstn (b_in b2) I) (firstn (b_out b2) O)).
Proof.
  intros K Ps T1 T. pose proof K as [PB (S1 & S2 & S3)]. unfold intersect_ordered. destruct (negb _ && _); [discriminate|]. destruct (b_empty b1) eqn:E1.
  { intros [= <-]. split; [exact K|]. intros P I O LP LI LO. unfold relates at 1 2, points, member. rewrite E1. intuition discriminate. }
  destruct (b_empty b2) eqn:E2.
  { intros [= <-]. destruct T as [[T2 T3]|(_ & _ & T4)]; [|discriminate]. split; [split; [exact Ps|repeat split; assumption]|]. intros P I O LP LI LO. unfold relates at 1 3, points, member. rewrite E2. intuition discriminate. }
  intros E. destruct (inter_ok b1 b2 np ni no K Ps T1) as [[PC SZ] Q1]; [lia|lia|]. pose proof (simp_fin_same hash no_redundant tab fuel TAB _ b' PC E) as SM. split; [apply (same_okb _ _ _ _ b' SM SZ)|].
  intros P I O LP LI LO. destruct SZ as (Z1 & Z2 & Z3). rewrite <- (same_relates _ b' _ _ _ SM) by congruence. apply Q1; assumption.
Qed.
Lemma intersect_ok b1 b2 b' np ni no : okb np ni no b1 -> okb np ni no b2 -> intersect hash no_redundant tab fuel b1 b2 = Ok b' ->
  okb np ni no b' /\ forall P I O, length P = np -> length I = ni -> length O = no -> (relates b' P I O <-> relates b1 P I O /\ relates b2 P I O).
Proof.
  intros K1 K2. pose proof K1 as [P1 (S1 & S2 & S3)]. pose proof K2 as [P2 (T1 & T2 & T3)]. unfold intersect. rewrite S1, T1, Nat.eqb_refl. cbn [negb]. rewrite S2, S3, T2, T3. replace (Nat.eqb (ni + no) 0 && negb (Nat.eqb (ni + no) 0)) with false by (destruct (Nat.eqb _ _); reflexivity).
  intros E. destruct (intersect_ordered_ok b1 b2 b' np ni no K1 P2 T1) as [K Q]; [auto|exact E|]. split; [exact K|]. intros P I O LP LI LO. rewrite Q by assumption. rewrite T2, T3, !firstn_all2 by lia. reflexivity.
Qed.
(** intersecting with conditions on the parameters *)
Lemma intersect_params_ok b1 b2 b' np ni no : okb np ni no b1 -> okb np 0 0 b2 -> b_empty b2 = false -> intersect hash no_redundant tab fuel b1 b2 = Ok b' ->
  okb np ni no b' /\ forall P I O, length P = np -> length I = ni -> length O = no -> (relates b' P I O <-> relates b1 P I O /\ relates b2 P [] []).
Proof.
  intros K1 K2 E2. pose proof K1 as [P1 (S1 & S2 & S3)]. pose proof K2 as [P2 (T1 & T2 & T3)]. unfold intersect. rewrite S1, T1, Nat.eqb_refl. cbn [negb]. rewrite T2, T3. cbn [Nat.add Nat.eqb negb]. rewrite andb_false_r.
  intros E. destruct (intersect_ordered_ok b1 b2 b' np ni no K1 P2 T1) as [K Q]; [auto|exact E|]. split; [exact K|]. intros P I O LP LI LO. rewrite Q by assumption. rewrite T2, T3. reflexivity.
Qed.
Lemma apply_domain_ok b1 b2 b' np n k m : okb np k m b1 -> okb np k n b2 -> apply_domain sid hash no_redundant tab fuel drd b1 b2 = Ok b' ->
  okb np n m b' /\
  forall P I O, length P = np -> length I = n -> length O = m ->
    (relates b' P I O <-> exists M, length M = k /\ relates b2 P M I /\ relates b1 P M O).
Proof.
  intros K1 K2. unfold apply_domain. destruct (_ || _); [discriminate|]. destruct (reverse sid b1) as [r| | |] eqn:E1; cbn [bind]; try discriminate. destruct (reverse_ok b1 r np k m K1 E1) as [Kr Qr]. destruct (apply_range hash no_redundant tab fuel drd r b2) as [a| | |] eqn:E2; cbn [bind]; try discriminate.
  destruct (apply_range_ok hash no_redundant tab fuel drd TAB DRD r b2 a np m k n Kr K2 E2) as [Ka Qa]. intros E3. destruct (reverse_ok a b' np m n Ka E3) as [K' Q']. split; [exact K'|]. intros P I O LP LI LO. rewrite (Q' P O I) by assumption. rewrite Qa by assumption.
  split; intros (M & LM & H1 & H2); exists M; (split; [exact LM|]); rewrite (Qr P M O) in * by assumption; auto.
Qed.
End Ops.
