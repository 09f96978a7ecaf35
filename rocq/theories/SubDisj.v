(** The syntactic disjointness test, the point of a singleton and the
    membership test. *)
From Coq Require Import ZArith List Bool Arith Lia.
From Verif Require Import SeqSpec SeqModel MatModel SeqProofs BMapLists BMapModel BMapSpec BMapSem BMapGauss BMapGauss2 ReorderModel LocalModel LocalSpec LocalProofs BElimModel BElimSpec BElimProofs BElimVars SimpModel SimpSpec SimpBase SimpFinal SetModel SetSpec SetBase SetLift SetOps SetOps3 SubModel SubSpec SubBase SubDivs.
Import ListNotations.
Open Scope Z_scope.

(** ** reducing a row using equalities *)
Lemma last_non_zero_some p : forall i k, last_non_zero_from i p = Some k -> nth k p 0 <> 0 /\ (k < i)%nat.
Proof.
  induction i as [|i IH]; intros k; cbn [last_non_zero_from]; [discriminate|]. destruct (Z.eqb_spec (nth i p 0) 0) as [E|E]; cbn [negb]; [intros H; apply IH in H as [A B]; split; [exact A|lia]|intros [= <-]; split; [exact E|lia]].
Qed.
Lemma elim_row_in : forall eqs len d acc r, elim_row eqs len d acc = Some r -> (List.In r eqs /\ last_var len r = Some d) \/ acc = Some r.
Proof.
  induction eqs as [|e eqs IH]; intros len d acc r; cbn [elim_row]; [auto|]. intros H. apply IH in H as [[A B]|H]; [left; split; [right; exact A|exact B]|]. destruct (last_var len e) as [d'|] eqn:E; [|auto]. destruct (Nat.eqb_spec d' d) as [->|]; [|auto]. injection H as <-. left. split; [left; reflexivity|exact E].
Qed.
Lemma reduced_loop_ok eqs tot : rows_of (1 + tot) eqs -> forall n src dst copied v, (n <= tot)%nat -> length dst = (1 + tot)%nat -> reduced_loop n eqs tot src dst copied = Some v ->
  length v = (1 + tot)%nat /\ exists c, 0 < c /\ forall x, Forall (zero_on x) eqs -> dot v x = c * dot dst x.
Proof.
  intros R. induction n as [|d IH]; intros src dst copied v Hn L; cbn [reduced_loop]; [destruct copied; [intros [= <-]|discriminate]; split; [exact L|]; exists 1; split; [lia|]; intros; lia|].
  destruct (_ =? 0); [apply IH; [lia|exact L]|]. destruct (elim_row eqs tot d None) as [r|] eqn:E; [|apply IH; [lia|exact L]].
  apply elim_row_in in E as [[I LV]|E]; [|discriminate]. unfold rows_of in R. rewrite Forall_forall in R. pose proof (R r I) as Lr. unfold last_var, seq_last_non_zero in LV. apply last_non_zero_some in LV as [NZ _].
  assert (NZ' : nth (1 + d) r 0 <> 0). { intros Q. apply NZ. destruct (Nat.lt_ge_cases d (length (firstn tot (tl r)))) as [H|H]; [|apply nth_overflow; exact H]. transitivity (nth d (tl r) 0); [rewrite <- (firstn_skipn tot (tl r)) at 2; rewrite app_nth1 by exact H; reflexivity|]. destruct r; [destruct d; reflexivity|exact Q]. }
  destruct (elim_ok dst r (1 + d) 1 ltac:(lia) ltac:(lia) NZ') as (a & b & Ha & CB & _). intros H. assert (LL : length (fst (seq_elim dst r (1 + d) 1)) = (1 + tot)%nat) by (destruct CB as [CL _]; lia).
  destruct (IH src _ true v ltac:(lia) LL H) as (Lv & c & Hc & D). split; [exact Lv|]. exists (c * a). split; [lia|]. intros x Hx. rewrite (D x Hx). rewrite (combination_dot a dst b r _ x ltac:(lia) CB). rewrite Forall_forall in Hx. specialize (Hx r I). unfold zero_on in Hx. rewrite Hx. lia.
Qed.
Lemma first_none p : seq_first_non_zero p = None -> forall i, nth i p 0 = 0.
Proof.
  unfold seq_first_non_zero. generalize 0%nat. induction p as [|x p IH]; intros k; cbn [first_non_zero_from]; [intros _ i; destruct i; reflexivity|]. destruct (Z.eqb_spec x 0) as [->|]; cbn [negb]; [|discriminate]. intros H i. destruct i; [reflexivity|]. apply (IH _ H).
Qed.
Lemma constant_dot v x : is_constant v = true -> hd 0 x = 1 -> dot v x = nth 0 v 0.
Proof.
  unfold is_constant. destruct (seq_first_non_zero (tl v)) eqn:E; [discriminate|]. intros _ H. pose proof (first_none _ E) as N. destruct v as [|a v]; [reflexivity|]. destruct x as [|y x]; [discriminate H|]. cbn in *. subst y. rewrite (dot_nth0 v N). lia.
Qed.
Lemma contradicts_ok eqs tot r x : rows_of (1 + tot) eqs -> length r = (1 + tot)%nat -> hd 0 x = 1 -> Forall (zero_on x) eqs ->
  (eq_contradicts eqs tot r = true -> ~ zero_on x r) /\ (ineq_contradicts eqs tot r = true -> ~ nonneg_on x r).
Proof.
  intros R L H Z. unfold eq_contradicts, ineq_contradicts, reduced_using_equalities, zero_on, nonneg_on. destruct (reduced_loop tot eqs tot r r false) as [v|] eqn:E; [|split; discriminate].
  destruct (reduced_loop_ok eqs tot R tot r r false v (Nat.le_refl _) L E) as (_ & c & Hc & D). specialize (D x Z). split; intros Q; apply andb_prop in Q as [Q1 Q2]; rewrite (constant_dot v x Q2 H) in D; intros Q3.
  - rewrite Q3 in D. destruct (Z.eqb_spec (nth 0 v 0) 0); [discriminate|lia].
  - apply Z.ltb_lt in Q1. nia.
Qed.
Lemma plain_disjoint_ok np ni no b1 b2 q : okb np ni no b1 -> okb np ni no b2 -> plain_disjoint b1 b2 = true -> length q = (1 + (np + ni + no))%nat -> hd 0 q = 1 -> points b1 q -> points b2 q -> False.
Proof.
  intros (P1 & Z1) (P2 & Z2). unfold plain_disjoint. destruct (Nat.eqb_spec (ndiv b1) 0) as [N1|]; [|discriminate]. destruct (Nat.eqb_spec (ndiv b2) 0) as [N2|]; [|discriminate]. cbn [negb orb]. destruct (Nat.eqb (length (b_eq b1)) 0 && _); [discriminate|]. destruct (Nat.eqb (nvar b1) 0); [discriminate|].
  intros H L HQ (_ & e1 & Le1 & E1 & I1) (_ & e2 & Le2 & E2 & I2). destruct e1; [|cbn in Le1; lia]. destruct e2; [|cbn in Le2; lia]. rewrite app_nil_r in *.
  assert (T1 : total b1 = nvar b1) by (unfold total; lia). assert (T2 : total b2 = nvar b1) by (unfold total; rewrite N2, (sized_nvar np ni no b1 Z1), (sized_nvar np ni no b2 Z2); lia).
  destruct P1 as ((W11 & W12 & _) & _). destruct P2 as ((W21 & W22 & _) & _). rewrite T1 in *. rewrite T2 in *. unfold rows_of in W11, W12, W21, W22. apply orb_prop in H as [H|H]; [apply orb_prop in H as [H|H]|].
  - apply existsb_exists in H as (r & Hr & C). rewrite Forall_forall in W21, E2. apply (proj1 (contradicts_ok (b_eq b1) (nvar b1) r q W11 (W21 r Hr) HQ E1) C). apply E2. exact Hr.
  - apply existsb_exists in H as (r & Hr & C). rewrite Forall_forall in W22, I2. apply (proj2 (contradicts_ok (b_eq b1) (nvar b1) r q W11 (W22 r Hr) HQ E1) C). apply I2. exact Hr.
  - apply existsb_exists in H as (r & Hr & C). rewrite Forall_forall in W12, I1. apply (proj2 (contradicts_ok (b_eq b2) (nvar b1) r q W21 (W12 r Hr) HQ E2) C). apply I1. exact Hr.
Qed.

(** ** the point of a singleton *)
Lemma zero_forall l : forallb (Z.eqb 0) l = true -> forall i, nth i l 0 = 0.
Proof. intros H. induction l as [|a l IH]; intros i; [destruct i; reflexivity|]. cbn [forallb] in H. apply andb_prop in H as [A B]. apply Z.eqb_eq in A. destruct i; cbn; [lia|apply IH; exact B]. Qed.
Lemma unit_row_dot (r : list Z) i x : (S i < length r)%nat -> (forall k, nth k (firstn i (tl r)) 0 = 0) -> (forall k, nth k (skipn (2 + i) r) 0 = 0) -> dot r x = nth 0 r 0 * nth 0 x 0 + nth (1 + i) r 0 * nth (1 + i) x 0.
Proof.
  intros L A B. destruct r as [|r0 r]; [cbn in L; lia|]. cbn [tl length] in *. change (skipn (2 + i) (r0 :: r)) with (skipn (1 + i) r) in B. destruct x as [|x0 x]; [rewrite dot_nil_r; change (nth (1 + i) [] 0) with 0; change (nth 0 [] 0) with 0; lia|]. change (r0 * x0 + dot r x = r0 * x0 + nth i r 0 * nth i x 0).
  enough (dot r x = nth i r 0 * nth i x 0) by lia. clear L x0 r0. revert r x A B. induction i as [|i IH]; intros r x A B.
  - destruct r as [|a r]; [cbn [dot nth]; lia|]. destruct x as [|y x]; [cbn [dot nth]; lia|]. cbn [dot nth]. cbn [skipn Nat.add] in B. rewrite (dot_nth0 r B). lia.
  - destruct r as [|a r]; [cbn [dot nth]; lia|]. destruct x as [|y x]; [rewrite dot_nil_r; cbn [nth]; lia|]. cbn [dot nth]. pose proof (A 0%nat) as A0. cbn in A0. rewrite (IH r x); [lia|intros k; apply (A (Datatypes.S k))|exact B].
Qed.
Lemma extract_loop_ok dim : forall eqs j point p, Forall (fun r => length r = (1 + dim)%nat) eqs -> (j + length eqs <= dim)%nat -> length point = (1 + dim)%nat -> nth 0 point 0 = 1 -> extract_loop dim j eqs point = Ok p ->
  length p = (1 + dim)%nat /\ nth 0 p 0 = 1 /\ (forall i, (dim - j <= i)%nat -> nth (1 + i) p 0 = nth (1 + i) point 0) /\ Forall (zero_on p) eqs /\
  (forall x, nth 0 x 0 = 1 -> Forall (zero_on x) eqs -> forall i, (dim - j - length eqs <= i < dim - j)%nat -> nth (1 + i) x 0 = nth (1 + i) p 0).
Proof.
  induction eqs as [|r eqs IH]; intros j point p F HJ L H; cbn [extract_loop].
  - intros [= <-]. split; [exact L|]. split; [exact H|]. split; [reflexivity|]. split; [constructor|]. cbn [length]. intros; lia.
  - cbn [length] in HJ. set (i := (dim - 1 - j)%nat). set (a := nth (1 + i) r 0). inversion F as [|? ? Lr F']; subst. destruct (forallb (Z.eqb 0) (firstn i (tl r))) eqn:C1; [|discriminate]. cbn [negb]. destruct (Z.eqb a 1 || Z.eqb a (-1)) eqn:C2; [|discriminate]. cbn [negb]. destruct (forallb (Z.eqb 0) (skipn (2 + i) r)) eqn:C3; [|discriminate]. cbn [negb].
    pose proof (zero_forall _ C1) as Z1. pose proof (zero_forall _ C3) as Z2. assert (DR : forall x, dot r x = nth 0 r 0 * nth 0 x 0 + a * nth (1 + i) x 0) by (intros x; apply unit_row_dot; [lia|exact Z1|exact Z2]).
    assert (A1 : a = 1 \/ a = -1) by (apply orb_prop in C2 as [C2|C2]; apply Z.eqb_eq in C2; auto). rewrite H. assert (M1 : Z.abs (Z.quot a (Z.gcd 1 a)) = 1) by (destruct A1 as [->| ->]; reflexivity). rewrite M1.
    assert (PE : map (Z.mul 1) (firstn (1 + i) point) ++ skipn (1 + i) point = point). { rewrite <- (firstn_skipn (1 + i) point) at 3. f_equal. rewrite <- (map_id (firstn (1 + i) point)) at 2. apply map_ext. intros; lia. }
    rewrite PE, H. assert (M2 : - Z.quot 1 a = - a) by (destruct A1 as [->| ->]; reflexivity). rewrite M2. set (point' := zupd point (1 + i) (- a * nth 0 r 0)). intros E.
    destruct (IH (Datatypes.S j) point' p F' ltac:(lia)) as (Lp & Hp & KP & ZP & UQ); [unfold point'; rewrite zupd_length; exact L|unfold point'; rewrite nth_zupd; cbn; exact H|exact E|].
    assert (VI : nth (1 + i) p 0 = - a * nth 0 r 0). { rewrite KP by lia. unfold point'. rewrite nth_zupd, Nat.eqb_refl. replace (Nat.ltb (1 + i) (length point)) with true by (symmetry; apply Nat.ltb_lt; lia). reflexivity. }
    split; [exact Lp|]. split; [exact Hp|]. split; [|split].
    + intros k Hk. rewrite KP by lia. unfold point'. rewrite nth_zupd. replace (Nat.eqb (1 + k) (1 + i)) with false by (symmetry; apply Nat.eqb_neq; lia). reflexivity.
    + constructor; [|exact ZP]. unfold zero_on. rewrite DR, Hp, VI. destruct A1 as [->| ->]; lia.
    + intros x Hx Fx k Hk. inversion Fx as [|? ? Z0 Fx']; subst. cbn [length] in Hk. destruct (Nat.eq_dec k i) as [->|NE]; [|apply UQ; [exact Hx|exact Fx'|lia]]. unfold zero_on in Z0. rewrite DR, Hx in Z0. rewrite VI. destruct A1 as [E1|E1]; rewrite E1 in *; lia.
Qed.
Lemma extract_point_ok np ni no b p : okb np ni no b -> plain_singleton b = true -> b_empty b = false -> extract_point b = Ok p ->
  length p = (1 + (np + ni + no))%nat /\ hd 0 p = 1 /\ forall x, length x = (1 + (np + ni + no))%nat -> hd 0 x = 1 -> (points b x <-> x = p).
Proof.
  intros (P & Z) S E0 E. unfold plain_singleton in S. apply andb_prop in S as [S S3]. apply andb_prop in S as [S1 S2]. apply Nat.eqb_eq in S1, S2, S3. assert (T : total b = (np + ni + no)%nat) by (unfold total; rewrite (sized_nvar np ni no b Z); lia). unfold extract_point in E. destruct P as ((W1 & _) & _).
  destruct (extract_loop_ok (total b) (b_eq b) 0 (1 :: repeat 0 (total b)) p W1 ltac:(lia) ltac:(cbn; rewrite repeat_length; reflexivity) eq_refl E) as (Lp & Hp & _ & ZP & UQ).
  split; [lia|]. split; [destruct p; exact Hp|]. intros x Lx Hx. split.
  - intros (_ & e & Le & Ex & _). rewrite S1 in Le. destruct e; [|discriminate]. rewrite app_nil_r in Ex. apply (nth_ext x p 0 0); [lia|]. intros k Hk. destruct k as [|k]; [rewrite Hp; destruct x; [discriminate Hx|exact Hx]|]. apply UQ; [destruct x; [discriminate Hx|exact Hx]|exact Ex|lia].
  - intros ->. split; [exact E0|]. exists []. split; [cbn; lia|]. rewrite app_nil_r. split; [exact ZP|]. destruct (b_ineq b); [constructor|discriminate S2].
Qed.
Lemma contains_ok b v : contains b v = true <-> length v = (1 + total b)%nat /\ system (b_eq b) (b_ineq b) v.
Proof.
  unfold contains. destruct (Nat.eqb_spec (1 + total b) (length v)) as [E|E]; cbn [negb]; [|split; [discriminate|intros [A _]; lia]]. rewrite andb_true_iff, !forallb_forall. unfold system. rewrite !Forall_forall. unfold zero_on, nonneg_on. split.
  - intros [A B]. split; [lia|]. split; intros r Hr; [specialize (A r Hr); rewrite inner_ok, dot_comm in A; apply Z.eqb_eq; exact A|]. specialize (B r Hr). rewrite inner_ok, dot_comm in B. destruct (Z.ltb_spec (dot r v) 0); [discriminate|assumption].
  - intros (_ & A & B). split; intros r Hr; [specialize (A r Hr)|specialize (B r Hr)]; rewrite inner_ok, dot_comm; [apply Z.eqb_eq; assumption|]. destruct (Z.ltb_spec (dot r v) 0); [lia|reflexivity].
Qed.
Lemma contains_point_ok np ni no b p : okb np ni no b -> ordered b -> LocalSpec.known (b_div b) -> length p = (1 + (np + ni + no))%nat -> hd 0 p = 1 ->
  exists c, contains_point b p = Ok c /\ (c = true <-> points b p).
Proof.
  intros (P & Z) O K L H. unfold contains_point. pose proof (sized_nvar np ni no b Z) as NV. assert (PD : points b p <-> described (b_eq b) (b_ineq b) (ndiv b) p) by (apply points_described; [exact P|rewrite NV; exact L|exact H]). destruct (Nat.eqb_spec (ndiv b) 0) as [N|N].
  - eexists. split; [reflexivity|]. rewrite PD, contains_ok. split.
    + intros [_ S]. exists []. split; [cbn; lia|]. rewrite app_nil_r. exact S.
    + intros (e & Le & S). destruct e; [|cbn in Le; lia]. rewrite app_nil_r in S. split; [unfold total; lia|exact S].
  - pose proof (p_wf_divs np ni no b P Z O K) as WD. rewrite NV. assert (H0 : nth 0 p 0 = 1) by (destruct p; [discriminate H|exact H]). destruct (extend_point_ok _ (b_div b) p WD K L H0) as (w & -> & SW & FW). cbn [bind]. eexists. split; [reflexivity|]. rewrite PD, contains_ok. pose proof SW as (Lw & _). split.
    + intros [_ S]. exists (skipn (length p) w). split; [rewrite skipn_length; unfold ndiv; lia|]. rewrite <- FW at 1. rewrite L. rewrite firstn_skipn. exact S.
    + intros (e & Le & S). assert (EW : p ++ e = w).
      { apply (sat_unique (np + ni + no) (b_div b)); [exact WD|exact K| |exact SW|rewrite FW, firstn_app, L, Nat.sub_diag; cbn [firstn]; rewrite app_nil_r, <- L; apply firstn_all]. apply (bounds_sat np ni no b P K); [rewrite app_length; lia|destruct p; [discriminate L|exact H]|]. destruct P as (_ & _ & _ & I & _). intros i Hi. pose proof (I (p ++ e)) as Q. rewrite NV in Q. destruct (Q ltac:(rewrite app_length; unfold total; rewrite NV; lia) ltac:(destruct p; [discriminate L|exact H]) S i Hi) as [Q0|Q0]; [exfalso; pose proof (K i Hi) as K0; destruct (nth i (b_div b) []); cbn in *; lia|exact Q0]. }
      rewrite <- EW. split; [rewrite app_length; unfold total; rewrite NV; lia|exact S].
Qed.
