(** Projection of basic maps. *)
From Coq Require Import ZArith List Bool Arith Lia.
From Verif Require Import BMapGauss2 BElimSpec SeqSpec SeqModel MatModel SeqProofs BMapModel BMapSpec BMapSem ReorderModel LocalModel BElimModel BElimProofs BElimVars SimpModel SimpSpec SimpBase SimpFinal SetModel SetBase SetSpec SetViews SetLift SetOps SetOps2 SetOps3.
Import ListNotations.
Open Scope Z_scope.

Lemma set_to_empty_proper b : proper b -> b_empty b = true -> proper (set_to_empty b) /\ b_empty (set_to_empty b) = true /\ nvar (set_to_empty b) = nvar b /\ sized (b_param b) (b_in b) (b_out b) (set_to_empty b).
Proof.
  intros PB E. pose proof PB as (W & A & D & I & R & Hn). assert (NE : (length (b_eq b) + length (b_ineq b))%nat <> 0%nat).
  { intros H. apply (Hn E (1 :: repeat 0 (total b))); [cbn [length]; rewrite repeat_length; reflexivity|reflexivity|]. destruct (b_eq b); [|cbn in H; lia]. destruct (b_ineq b); [|cbn in H; lia]. split; constructor. }
  unfold set_to_empty. rewrite E. destruct (Nat.eqb_spec (length (b_eq b) + length (b_ineq b)) 0); [contradiction|]. cbn [andb]. split; [|repeat split].
  split; [|split; [|split; [|split; [|split]]]].
  - split; [|split; constructor]. constructor; [|constructor]. unfold total, ndiv. cbn [nvar b_param b_in b_out b_div length]. rewrite repeat_length. unfold nvar. cbn. lia.
  - exists (fun _ => 0%nat). intros k j Hk. inversion Hk.
  - constructor.
  - intros v _ _ _ k Hk. inversion Hk.
  - exact R.
  - intros _ v Lv Hv [H _]. inversion H as [|x l H1 _]; subst. unfold total, ndiv in Lv. cbn [b_div length] in Lv. rewrite Nat.add_0_r in Lv. apply (one_row (nvar b) v); [exact Lv|lia|exact H1].
Qed.
Section Project.
Variables (b : bmap) (np ni no pos n : nat).
Let nv := (np + ni + no)%nat.
Hypothesis PB : proper b.
Hypothesis NV : nvar b = (nv + n)%nat.
Hypothesis FIT : (pos + n <= nvar b)%nat.
Let rest := (nvar b - (pos + n))%nat.
Let bx := with_dims b pos n rest.
Let m := map4 (total b) bx 0 (nvar b - n) pos (nvar b).
Lemma bx_nvar : nvar bx = nvar b.
Proof. unfold bx. rewrite with_dims_nvar. unfold rest. lia. Qed.
Lemma proj_hyps : let c := copy_constraint m in let view := vw bx 0 (nvar b - n) pos (nvar b) in let tot := (nv + n + ndiv b)%nat in
  (forall r, length r = (1 + total b)%nat -> length (c r) = (1 + tot)%nat) /\
  (forall w, length w = (1 + tot)%nat -> length (view w) = (1 + total b)%nat /\ hd 0 (view w) = hd 0 w /\ (forall k, (k < ndiv b)%nat -> nth (1 + nvar b + k) (view w) 0 = nth (1 + nv + n + k) w 0)) /\
  (forall r w, length r = (1 + total b)%nat -> length w = (1 + tot)%nat -> dot (c r) w = dot r (view w)) /\
  (forall r j, length r = (1 + total b)%nat -> (j < ndiv b)%nat -> nth (1 + nv + n + j) (c r) 0 = nth (1 + nvar b + j) r 0).
Proof.
  intros c view tot. pose proof bx_nvar as NX. assert (TT : tot = total b) by (unfold tot, total; lia). assert (TX : total bx = total b) by (unfold total; rewrite NX; reflexivity). rewrite TT. change (ndiv b) with (ndiv bx).
  replace (1 + nv + n)%nat with (1 + nvar b)%nat by lia.
  assert (F1 : inside (total b) (b_param bx) 0) by (unfold inside, bx, total; cbn; lia). assert (F2 : inside (total b) (b_in bx) (nvar b - n)) by (unfold inside, bx, total; cbn; lia). assert (F3 : inside (total b) (b_out bx) pos) by (unfold inside, bx, total, rest; cbn; lia). assert (F4 : inside (total b) (ndiv bx) (nvar b)) by (unfold inside, bx, total, ndiv; cbn; lia).
  assert (A12 : apart (b_param bx) 0 (b_in bx) (nvar b - n)) by (unfold apart, bx; cbn; lia). assert (A13 : apart (b_param bx) 0 (b_out bx) pos) by (unfold apart, bx; cbn; lia). assert (A14 : apart (b_param bx) 0 (ndiv bx) (nvar b)) by (unfold apart, bx; cbn; lia).
  assert (A23 : apart (b_in bx) (nvar b - n) (b_out bx) pos) by (unfold apart, bx, rest; cbn; lia). assert (A24 : apart (b_in bx) (nvar b - n) (ndiv bx) (nvar b)) by (unfold apart, bx; cbn; lia). assert (A34 : apart (b_out bx) pos (ndiv bx) (nvar b)) by (unfold apart, bx, rest; cbn; lia).
  split; [intros r Lr; unfold c; rewrite copy_len; apply map4_len|]. split; [intros w Lw; pose proof (vw_ok (total b) bx 0 (nvar b - n) pos (nvar b) F1 F2 F3 F4 w Lw) as V; rewrite NX, TX in V; exact V|]. split; [intros r w Lr Lw; apply map4_dot; try assumption; rewrite TX; exact Lr|].
  intros r j Lr Hj. rewrite <- TX in Lr. pose proof (map4_div (total b) bx 0 (nvar b - n) pos (nvar b) F1 F2 F3 F4 r j Lr Hj) as V. rewrite NX in V. exact V.
Qed.
Lemma proj_move : (pos + n)%nat <> nvar b -> insert_div_rows (move_last b pos n) n np ni no = moved b np ni no n (copy_constraint m) false false.
Proof.
  intros NE. unfold move_last. destruct (Nat.eqb_spec (pos + n) (nvar b)); [contradiction|]. cbn zeta.
  assert (M : dm_div (dm_block (dm_block (dm_block (dm_alloc (total b)) 0 pos 0) pos n (nvar b - n)) (pos + n) (nvar b - (pos + n)) pos) b (nvar b) = m).
  { unfold m, map4, dm_div, dm_out, dm_in, dm_param. rewrite bx_nvar. reflexivity. }
  rewrite M. unfold insert_div_rows, moved. apply bmap_eq; try reflexivity. cbn [b_div]. f_equal.
  replace (total (add_mapped (fresh_map (b_param b) (b_in b) (b_out b)) b m)) with (np + ni + no + n + ndiv b)%nat; [reflexivity|]. unfold total. change (nvar (add_mapped _ b m)) with (nvar b). unfold ndiv at 2, add_mapped, add_constraints. cbn [b_div set_div fresh_map app]. rewrite map_length. fold (ndiv b). unfold nv in *. lia.
Qed.
Lemma proj_stay : (pos + n)%nat = nvar b -> insert_div_rows (move_last b pos n) n np ni no = moved b np ni no n (fun r => r) (b_empty b) false.
Proof.
  intros E. unfold move_last. destruct (Nat.eqb_spec (pos + n) (nvar b)); [|contradiction]. unfold insert_div_rows, moved. apply bmap_eq; try reflexivity; cbn [b_eq b_ineq b_div b_rat]; try (rewrite map_id; reflexivity); [|apply PB].
  replace (total b) with (np + ni + no + n + ndiv b)%nat by (unfold total, nv in *; lia). f_equal. rewrite <- (map_id (b_div b)) at 1. apply map_ext_in. intros d Hd. destruct PB as ((_ & _ & W) & _). unfold rows_of in W. rewrite Forall_forall in W. specialize (W d Hd). destruct d as [|x d]; [discriminate W|]. reflexivity.
Qed.
Lemma project_points : let b' := insert_div_rows (move_last b pos n) n np ni no in
  okb np ni no b' /\ forall A C, length A = pos -> length C = rest -> (points b' (1 :: A ++ C) <-> exists X, length X = n /\ points b (1 :: A ++ X ++ C)).
Proof.
  intros b'. unfold b'. assert (AS : forall (A X C e : list Z), (1 :: A ++ X ++ C) ++ e = 1 :: A ++ X ++ C ++ e) by (intros; assoc). destruct (Nat.eq_dec (pos + n) (nvar b)) as [E|E].
  - rewrite (proj_stay E). destruct (moved_ok b np ni no n (fun r => r) (fun r => r) PB) with (nd := false) as [OK Q].
    + intros r Lr. unfold total in Lr. unfold nv in *. lia.
    + intros w Lw. split; [unfold total, nv in *; lia|]. split; [reflexivity|]. intros k Hk. f_equal. unfold nv in *. lia.
    + intros r w _ _. reflexivity.
    + intros r j _ _. f_equal. unfold nv in *. lia.
    + split; [exact OK|]. intros A C LA LC. etransitivity; [apply Q; [unfold rest, nv in *; len|reflexivity]|]. assert (EC : C = []) by (destruct C; [reflexivity|cbn [length] in LC; unfold rest in LC; lia]). subst C. unfold points, member, described. split.
      * intros (EM & x & e & Lx & Le & S). exists x. split; [exact Lx|]. split; [exact EM|]. exists e. split; [exact Le|]. rewrite !app_nil_r in *. rewrite app_assoc in S. exact S.
      * intros (x & Lx & EM & e & Le & S). split; [exact EM|]. exists x, e. split; [exact Lx|]. split; [exact Le|]. rewrite !app_nil_r in *. rewrite app_assoc. exact S.
  - rewrite (proj_move E). destruct proj_hyps as (H1 & H2 & H3 & H4). set (view := vw bx 0 (nvar b - n) pos (nvar b)) in *.
    pose proof (single_good b np ni no n (copy_constraint m) view PB H1 H2 H3 H4) as G. rewrite <- moved_is in G. split; [split; [apply good_proper; [exact G|reflexivity]|repeat split]|].
    intros A C LA LC. rewrite (moved_is b np ni no n (copy_constraint m)). etransitivity; [apply (single_points b np ni no n (copy_constraint m) view PB H3); unfold rest, nv in *; len|].
    assert (VW : forall x e, length x = n -> length e = ndiv b -> view ((1 :: A ++ C) ++ x ++ e) = (1 :: A ++ x ++ C) ++ e).
    { intros x e Lx Le. rewrite AS. unfold view. pose proof bx_nvar. eapply (vw_is bx _ _ _ _ _ [1] (C ++ x ++ e) (1 :: A ++ C) e (1 :: A) (x ++ e) (1 :: A ++ C ++ x) []); try assoc; unfold rest in *; len; assumption. }
    assert (PD : forall x, length x = n -> (points b (1 :: A ++ x ++ C) <-> described (b_eq b) (b_ineq b) (ndiv b) (1 :: A ++ x ++ C))).
    { intros x Lx. apply points_described; [exact PB| |reflexivity]. unfold rest in *. len. }
    split.
    + intros (x & e & Lx & Le & S). exists x. split; [exact Lx|]. apply PD; [exact Lx|]. exists e. split; [exact Le|]. rewrite <- VW by assumption. exact S.
    + intros (x & Lx & H). apply PD in H; [|exact Lx]. destruct H as (e & Le & S). exists x, e. split; [exact Lx|]. split; [exact Le|]. rewrite VW by assumption. exact S.
Qed.
End Project.
Section Ops.
Variables (sid : bmap -> bool) (hash : row -> nat) (no_redundant : bmap -> bool) (tab : bmap -> bool * list kind) (fuel : nat) (drd : bmap -> res bmap).
Hypothesis TAB : sound_tab tab.
Hypothesis DRD : forall b b', proper b -> drd b = Ok b' -> same b b'.
Lemma project_out_ok b t first n b' : proper b -> project_out hash no_redundant tab fuel drd b t first n = Ok b' ->
  (first + n <= dim_count b t \/ n = 0)%nat /\ okb (less t DParam n (b_param b)) (less t DIn n (b_in b)) (less t DOut n (b_out b)) b' /\
  forall A C, length A = (dim_offset b t + first)%nat -> (length A + n + length C)%nat = nvar b ->
    (points b' (1 :: A ++ C) <-> exists X, length X = n /\ points b (1 :: A ++ X ++ C)).
Proof.
  intros PB. unfold project_out. destruct (Nat.eqb_spec n 0) as [N0|N0].
  { intros [= <-]. subst n. split; [auto|]. split; [split; [exact PB|destruct t; cbn; rewrite ?Nat.sub_0_r; repeat split]|]. intros A C LA LC. split; [intros H; exists []; split; [reflexivity|exact H]|intros (X & LX & H); destruct X; [exact H|discriminate LX]]. }
  set (b0 := if b_empty b then set_to_empty b else b).
  assert (K0 : okb (b_param b) (b_in b) (b_out b) b0 /\ forall q, points b0 q <-> points b q).
  { unfold b0. destruct (b_empty b) eqn:E.
    - destruct (set_to_empty_proper b PB E) as (P0 & E0 & N & S0). split; [split; assumption|]. intros q. unfold points, member. rewrite E, E0. intuition discriminate.
    - split; [split; [exact PB|repeat split]|]. tauto. }
  destruct K0 as [[P0 (S1 & S2 & S3)] Q0]. assert (R0 : b_rat b0 = false) by apply P0. rewrite R0. assert (DC : dim_count b0 t = dim_count b t) by (destruct t; cbn; assumption). assert (DO : dim_offset b0 t = dim_offset b t) by (destruct t; cbn; congruence). rewrite DC, DO, S1, S2, S3. assert (NN : nvar b0 = nvar b) by (unfold nvar; congruence).
  destruct (Nat.ltb_spec (dim_count b t) (first + n)) as [LT|LT]; [discriminate|]. cbn zeta. intros E. split; [auto|].
  assert (NV : nvar b0 = (less t DParam n (b_param b) + less t DIn n (b_in b) + less t DOut n (b_out b) + n)%nat) by (rewrite NN; unfold nvar; destruct t; cbn [less dim_count] in *; lia).
  assert (FIT : (dim_offset b t + first + n <= nvar b0)%nat) by (rewrite NN; unfold nvar; destruct t; cbn [dim_offset dim_count] in *; lia).
  destruct (project_points b0 _ _ _ (dim_offset b t + first) n P0 NV FIT) as [[PC SZ] Q]. pose proof (simp_drop_fin_same hash no_redundant tab fuel drd TAB DRD _ b' PC E) as SM. split; [apply (same_okb _ _ _ _ b' SM SZ)|].
  intros A C LA LC. destruct SM as (_ & _ & SM). rewrite <- SM; [|destruct SZ as (Z1 & Z2 & Z3); unfold nvar; rewrite Z1, Z2, Z3; rewrite NN in NV; cbn [length]; rewrite app_length; lia|reflexivity]. rewrite Q; [|exact LA|rewrite NN; lia]. split; intros (X & LX & H); exists X; (split; [exact LX|]); apply Q0; exact H.
Qed.
Lemma domain_ok b d np ni no : okb np ni no b -> domain sid hash no_redundant tab fuel drd b = Ok d ->
  okb np 0 ni d /\ forall P I, length P = np -> length I = ni -> (relates d P [] I <-> exists O, length O = no /\ relates b P I O).
Proof.
  intros [PB (S1 & S2 & S3)]. unfold domain. destruct (project_out hash no_redundant tab fuel drd b DOut 0 (b_out b)) as [b1| | |] eqn:E; cbn [bind]; try discriminate. intros [= <-]. destruct (project_out_ok b DOut 0 (b_out b) b1 PB E) as (_ & K & Q). cbn [less dim_offset] in *. rewrite S1, S2, S3, Nat.sub_diag in *.
  destruct (reset_okb sid b1 np ni 0 np 0 ni K) as [K1 Q1]; [lia|]. split; [exact K1|]. intros P I LP LI. unfold relates. rewrite Q1 by (first [reflexivity|len]). cbn [app]. specialize (Q (P ++ I) []). rewrite app_nil_r in Q. rewrite Q by (rewrite ?app_length; unfold nvar; cbn [length]; lia). setoid_rewrite app_nil_r. setoid_rewrite <- app_assoc. reflexivity.
Qed.
Lemma range_ok b d np ni no : okb np ni no b -> range sid hash no_redundant tab fuel drd b = Ok d ->
  okb np 0 no d /\ forall P O, length P = np -> length O = no -> (relates d P [] O <-> exists I, length I = ni /\ relates b P I O).
Proof.
  intros K. pose proof K as [PB (S1 & S2 & S3)]. unfold range. rewrite S2. destruct (Nat.eqb_spec ni 0) as [N0|N0].
  { intros [= <-]. rewrite N0 in *. split; [exact K|]. intros P O LP LO. split; [intros H; exists []; auto|intros (I & LI & H); destruct I; [exact H|discriminate LI]]. }
  destruct (reverse sid b) as [r| | |] eqn:E; cbn [bind]; try discriminate. destruct (reverse_ok sid b r np ni no K E) as [Kr Qr]. intros E2. destruct (domain_ok r d np no ni Kr E2) as [Kd Qd]. split; [exact Kd|]. intros P O LP LO. rewrite Qd by assumption.
  split; intros (I & LI & H); exists I; (split; [exact LI|]); apply (Qr P I O); assumption.
Qed.
End Ops.
