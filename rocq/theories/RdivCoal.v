(** coalesce_divs keeps the points: local variables a and c are replaced by
    a + m c, where a lies between bounds at distance m - 1. *)
From Coq Require Import ZArith List Bool Arith Lia Permutation.
From Verif Require GistFull.
From Verif Require Import SeqModel SeqSpec SeqProofs MatModel BMapModel BMapSpec BMapSem BMapLists BMapNorm BMapGauss BMapGauss2 BMapOrder BDupModel BDupProofs BElimModel BElimSpec BElimSort BElimCols
  BElimProofs BElimFM BElimVars LocalModel SimpModel SimpSpec SimpBase SimpDrop SimpDivs SimpShift SimpDups SimpIneq SimpFinal SetBase SetLift RdivModel RdivSpec RdivStep RdivElim RdivMore.
Import ListNotations.
Open Scope Z_scope.

(** ** forgetting the definition of a local variable *)
Lemma marked_nth b d k : (d < ndiv b)%nat -> nth k (b_div (mark_div_unknown b d)) [] = if Nat.eqb k d then mark_unknown (nth d (b_div b) []) else nth k (b_div b) [].
Proof. intros Hd. unfold mark_div_unknown. cbn [set_div b_div]. apply nth_lset_l. exact Hd. Qed.
Lemma marked_ndiv b d : ndiv (mark_div_unknown b d) = ndiv b.
Proof. unfold mark_div_unknown, ndiv. cbn [set_div b_div]. apply lset_length. Qed.
Lemma mark_hd r : hd 0 (mark_unknown r) = 0.
Proof. destruct r; reflexivity. Qed.
Lemma marked_hd b d k : (d < ndiv b)%nat -> hd 0 (nth k (b_div (mark_div_unknown b d)) []) <> 0 -> k <> d /\ nth k (b_div (mark_div_unknown b d)) [] = nth k (b_div b) [].
Proof. intros Hd. rewrite marked_nth by exact Hd. destruct (Nat.eqb_spec k d) as [->|N]; [rewrite mark_hd; congruence|auto]. Qed.
Lemma Forall_lset1 {A} (P : A -> Prop) l a : Forall P l -> P a -> forall i, Forall P (lset l i a).
Proof. intros F Pa. induction F as [|x l Px F IH]; intros [|i]; cbn; constructor; auto. Qed.
Lemma mark_div_pres b d : good b -> (d < ndiv b)%nat -> pres b (mark_div_unknown b d) /\ (ordered b -> ordered (mark_div_unknown b d)).
Proof.
  intros G Hd. pose proof G as (W & A & D & I & R & B). pose proof W as (We & Wi & Wd). pose proof (marked_ndiv b d) as ND. set (b' := mark_div_unknown b d) in *. assert (NV : nvar b' = nvar b) by reflexivity. assert (NT : total b' = total b) by (unfold total; congruence).
  split.
  - apply pres_same; auto.
    + repeat split. exact ND.
    + split; [rewrite NT; exact We|]. split; [rewrite NT; exact Wi|]. rewrite NT. apply Forall_lset1; [exact Wd|]. unfold mark_unknown. rewrite zupd_length. apply rows_nth; [exact Wd|exact Hd].
    + destruct A as [rank A]. exists rank. intros k j. rewrite ND, NV. intros Hk Hj Hh. destruct (marked_hd b d k Hd Hh) as [_ E]. fold b' in E. rewrite E in *. apply A; assumption.
    + apply Forall_lset1; [exact D|]. rewrite mark_hd. lia.
    + intros v _ _. reflexivity.
    + intros _ v _ _ _ DV k Hk. change (length (b_div b')) with (ndiv b') in Hk. rewrite ND in Hk. specialize (DV k Hk). unfold b'. rewrite marked_nth by exact Hd. destruct (Nat.eqb_spec k d); [left; apply mark_hd|exact DV].
  - intros O k j. rewrite ND, NV. intros Hk Hj Hh. destruct (marked_hd b d k Hd Hh) as [_ E]. fold b' in E. rewrite E in *. apply O; assumption.
Qed.
Lemma ldrop_lset {A} (l : list A) x : forall i, ldrop (lset l i x) i = ldrop l i.
Proof. unfold ldrop. induction l as [|y l IH]; intros [|i]; [reflexivity|reflexivity|reflexivity|]. cbn [lset firstn skipn app]. f_equal. apply IH. Qed.
Lemma map_lset {A B} (f : A -> B) l x : forall i, map f (lset l i x) = lset (map f l) i (f x).
Proof. induction l as [|y l IH]; intros [|i]; cbn; congruence. Qed.
Lemma drop_marked b d : drop_div (mark_div_unknown b d) d = drop_div b d.
Proof. unfold drop_div, mark_div_unknown. cbn [set_div b_param b_in b_out b_eq b_ineq b_div b_rat b_empty b_nd]. rewrite map_lset, ldrop_lset. reflexivity. Qed.

(** ** one row *)
Lemma coalesced_dot b d1 d2 rl ru r v : (d1 < ndiv b)%nat -> (d2 < ndiv b)%nat -> d1 <> d2 -> length r = (1 + total b)%nat -> length rl = (1 + total b)%nat -> length ru = (1 + total b)%nat -> length v = (1 + total b)%nat -> hd 0 v = 1 ->
  nth (dpos b d1) rl 0 = 1 -> nth (dpos b d2) rl 0 = 0 -> nth (dpos b d1) ru 0 = -1 -> nth (dpos b d2) ru 0 = 0 ->
  let m := hd 0 rl + hd 0 ru + 1 in dot rl v + dot ru v = m - 1 -> 0 <= dot rl v -> 0 <= dot ru v -> coalesce_row b d1 d2 m r = true ->
  let w := zupd v (dpos b d2) (nth (dpos b d1) v 0 + m * nth (dpos b d2) v 0) in (0 <= dot r v <-> 0 <= dot (coalesced_row b d1 d2 m rl ru r) w).
Proof.
  intros H1 H2 N Lr Ll Lu Lv Hv A1 C1 A2 C2 m Sm F1 F2 K w. assert (TT : total b = (nvar b + ndiv b)%nat) by reflexivity. set (A := dpos b d1) in *. set (C := dpos b d2) in *. assert (HA : (A < 1 + total b)%nat) by (unfold A, dpos; lia). assert (HC : (C < 1 + total b)%nat) by (unfold C, dpos; lia). assert (AC : A <> C) by (unfold A, C, dpos; lia).
  assert (WC : nth C w 0 = nth A v 0 + m * nth C v 0). { unfold w. rewrite BMapGauss2.nth_zupd, Nat.eqb_refl. destruct (Nat.ltb_spec C (length v)); [reflexivity|lia]. }
  assert (WA : nth A w 0 = nth A v 0). { unfold w. rewrite BMapGauss2.nth_zupd. destruct (Nat.eqb_spec A C); [lia|reflexivity]. }
  assert (GEN : forall x, length x = (1 + total b)%nat -> dot (zupd (zupd x C (nth A x 0)) A 0) w = dot x v - nth C x 0 * nth C v 0 + nth A x 0 * m * nth C v 0).
  { intros x Lx. rewrite dot_zupd by (rewrite zupd_length; lia). rewrite dot_zupd by lia. rewrite WC, WA. assert (X : nth A (zupd x C (nth A x 0)) 0 = nth A x 0) by (rewrite BMapGauss2.nth_zupd; destruct (Nat.eqb_spec A C); [lia|reflexivity]). rewrite X.
    unfold w. rewrite dot_upd by lia. ring. }
  unfold coalesce_row in K. fold A C in K. unfold coalesced_row. fold A C. set (al := nth A r 0) in *. set (ga := nth C r 0) in *.
  destruct (Z.eqb_spec al 0) as [Z1|Z1].
  - destruct (Z.eqb_spec ga 0) as [Z2|Z2].
    + unfold w. rewrite dot_upd by lia. fold ga. rewrite Z2. rewrite Z.mul_0_r, Z.add_0_r. reflexivity.
    + cbn [orb] in K. assert (Q : forall y k, length y = (1 + total b)%nat -> nth A y 0 = k -> nth C y 0 = 0 -> ga = k -> 0 <= dot y v < m -> (0 <= dot r v <-> 0 <= dot (zupd (zupd (seq_combine true m r 1 y) C (nth A (seq_combine true m r 1 y) 0)) A 0) w)).
      { intros y k Ly Ya Yc Gk Dy. destruct (combine_ok true m r 1 y ltac:(congruence)) as [LX NX]. rewrite GEN by congruence. rewrite !NX by lia. rewrite dot_combine by congruence. fold al ga. rewrite Ya, Yc, Z1. replace (_ - _ + _) with (m * dot r v + dot y v) by (rewrite Gk; ring). nia. }
      apply orb_true_iff in K as [K|K]; apply Z.eqb_eq in K; rewrite K; cbn [Z.ltb Z.compare].
      * apply (Q rl 1); auto. lia.
      * apply (Q ru (-1)); auto. lia.
  - apply andb_true_iff in K as [K1 K2]. apply Z.eqb_eq in K2. destruct (Z.eqb_spec ga 0) as [Z2|Z2]; [discriminate K1|]. rewrite GEN by exact Lr. fold al ga. rewrite <- K2. replace (_ - _ + _) with (dot r v) by ring. reflexivity.
Qed.
Lemma coalesced_len b d1 d2 m rl ru r n : length r = n -> length rl = n -> length ru = n -> length (coalesced_row b d1 d2 m rl ru r) = n.
Proof.
  intros L1 L2 L3. unfold coalesced_row. destruct (_ =? 0); [exact L1|]. rewrite !zupd_length. destruct (_ =? 0); [|exact L1].
  destruct (0 <? _); [destruct (combine_ok true m r 1 rl) as [X _]|destruct (combine_ok true m r 1 ru) as [X _]]; congruence.
Qed.
Lemma coalesced_zero b d1 d2 m rl ru r : coalesce_row b d1 d2 m r = true -> nth (dpos b d1) (coalesced_row b d1 d2 m rl ru r) 0 = 0.
Proof.
  unfold coalesce_row, coalesced_row. intros K. destruct (Z.eqb_spec (nth (dpos b d1) r 0) 0) as [Z1|Z1].
  - destruct (Z.eqb_spec (nth (dpos b d2) r 0) 0); [exact Z1|]. rewrite BMapGauss2.nth_zupd, Nat.eqb_refl. match goal with |- context [Nat.ltb ?a ?b] => destruct (Nat.ltb_spec a b) as [X|X]; [reflexivity|] end. cbn [andb]. apply nth_overflow. exact X.
  - destruct (Z.eqb_spec (nth (dpos b d2) r 0) 0); [discriminate K|]. rewrite BMapGauss2.nth_zupd, Nat.eqb_refl. match goal with |- context [Nat.ltb ?a ?b] => destruct (Nat.ltb_spec a b) as [X|X]; [reflexivity|] end. cbn [andb]. apply nth_overflow. exact X.
Qed.

(** ** the whole change *)
Lemma nth_mapseq {A} (f : nat -> A) n j d : (j < n)%nat -> nth j (map f (seq 0 n)) d = f j.
Proof. intros H. rewrite (nth_indep _ d (f 0%nat)) by (rewrite map_length, seq_length; exact H). rewrite map_nth, seq_nth by exact H. reflexivity. Qed.
Lemma all_zero l i : forallb (fun x => x =? 0) l = true -> nth i l 0 = 0.
Proof. intros H. rewrite forallb_forall in H. destruct (Nat.lt_ge_cases i (length l)) as [L|L]; [|apply nth_overflow; exact L]. apply Z.eqb_eq, H, nth_In. exact L. Qed.
Lemma find_map_some {A B} (f : A -> option B) l y : find_map f l = Some y -> exists x, In x l /\ f x = Some y.
Proof. induction l as [|x l IH]; cbn [find_map]; [discriminate|]. destruct (f x) as [z|] eqn:E; [intros [= <-]; exists x; split; [left; reflexivity|exact E]|]. intros H. destruct (IH H) as (x' & I & E'). exists x'. split; [right; exact I|exact E']. Qed.
Lemma not_in_unused b d : not_in_divs b d = true -> unused b d.
Proof.
  unfold not_in_divs. rewrite forallb_forall. intros H k Hk _ Hh. specialize (H (nth k (b_div b) []) ltac:(apply nth_In; exact Hk)). apply orb_true_iff in H as [H|H]; apply Z.eqb_eq in H; [congruence|exact H].
Qed.
(** what the search finds *)
Record coalescible (b : bmap) (pairs : list nat) (d1 d2 l u : nat) : Prop := {
  co_d1 : (d1 < ndiv b)%nat; co_d2 : (d2 < ndiv b)%nat; co_ne : d1 <> d2; co_p1 : nth d1 pairs 0%nat <> 0%nat; co_p2 : nth d2 pairs 0%nat <> 0%nat;
  co_l : (l < length (b_ineq b))%nat; co_u : (u < length (b_ineq b))%nat; co_cl : icoef b d1 l = 1; co_cu : icoef b d1 u = -1; co_op : is_opposite b l u = true;
  co_zl : icoef b d2 l = 0; co_s : 0 <= hd 0 (nth l (b_ineq b) []) + hd 0 (nth u (b_ineq b) []);
  co_n1 : not_in_divs b d1 = true; co_n2 : not_in_divs b d2 = true;
  co_rows : forall j, (j < length (b_ineq b))%nat -> j <> l -> j <> u -> coalesce_row b d1 d2 (hd 0 (nth l (b_ineq b) []) + hd 0 (nth u (b_ineq b) []) + 1) (nth j (b_ineq b) []) = true }.
Lemma find_coalesce_ok b pairs d1 d2 l u : find_coalesce b pairs = Some (d1, d2, l, u) -> coalescible b pairs d1 d2 l u.
Proof.
  intros H. apply find_map_some in H as (i & Ii & H). apply in_seq in Ii. destruct (Nat.eqb_spec (nth i pairs 0%nat) 0) as [|P1]; [discriminate H|].
  apply find_map_some in H as (x & Ix & H). apply in_seq in Ix. destruct (Z.eqb_spec (icoef b i x) 1) as [Cx|]; [|discriminate H]. cbn [negb] in H.
  apply find_map_some in H as (y & Iy & H). apply in_seq in Iy. destruct (Z.eqb_spec (icoef b i y) (-1)) as [Cy|]; [|discriminate H]. cbn [negb] in H.
  destruct (div_find_coalesce b pairs i x y) as [c|] eqn:E; [|discriminate H]. injection H as <- <- <- <-. unfold div_find_coalesce in E.
  destruct (Nat.leb (ndiv b) 1); [discriminate E|]. destruct (forallb _ (firstn i _)) eqn:Z1; [|discriminate E]. destruct (forallb _ (skipn (dpos b i + 1) _)) eqn:Z2; [|discriminate E]. cbn [negb] in E.
  destruct (is_opposite b x y) eqn:Op; [|discriminate E]. destruct (not_in_divs b i) eqn:N1; [|discriminate E]. cbn [negb] in E. destruct (Z.ltb_spec (hd 0 (nth x (b_ineq b) []) + hd 0 (nth y (b_ineq b) [])) 0) as [|S]; [discriminate E|].
  apply find_some in E as [Ic E]. apply in_seq in Ic. rewrite !andb_true_iff, !negb_true_iff in E. destruct E as (((E1 & E2) & E3) & E4). apply Nat.eqb_neq in E1. apply Nat.eqb_neq in E2. rewrite forallb_forall in E4.
  split; auto; try lia.
  - unfold icoef. destruct (Nat.lt_ge_cases c i) as [L|L].
    + pose proof (all_zero _ c Z1) as Z. rewrite GistFull.nth_firstn_lt in Z by exact L. rewrite nth_skipn in Z. exact Z.
    + pose proof (all_zero _ (c - i - 1)%nat Z2) as Z. rewrite nth_skipn in Z. unfold dpos in *. replace (1 + nvar b + i + 1 + (c - i - 1))%nat with (1 + nvar b + c)%nat in Z by lia. exact Z.
  - intros j Hj N2 N3. specialize (E4 j ltac:(apply in_seq; lia)). rewrite !orb_true_iff, !Nat.eqb_eq in E4. destruct E4 as [[X|X]|X]; [congruence|congruence|exact X].
Qed.
Lemma division_upd d e v p t : (p < length v)%nat -> (hd 0 d <> 0 -> nth (1 + p) d 0 = 0) -> (division d e (zupd v p t) <-> division d e v).
Proof. intros Hp Z. unfold division. destruct (Z.eq_dec (hd 0 d) 0) as [E|E]; [tauto|]. rewrite dot_upd by exact Hp. replace (nth p (tl d) 0) with 0 by (rewrite nth_tl; symmetry; exact (Z E)). rewrite Z.mul_0_r, Z.add_0_r. tauto. Qed.
Lemma coalesce_pres b pairs d1 d2 l u : good b -> ordered b -> good_pairs b pairs -> coalescible b pairs d1 d2 l u -> pres b (coalesce_divs b d1 d2 l u) /\ ordered (coalesce_divs b d1 d2 l u).
Proof.
  intros G O GP CO. destruct CO as [H1 H2 Ne P1 P2 Hl Hu Cl Cu Op Zl S N1 N2 RW]. assert (TT : total b = (nvar b + ndiv b)%nat) by reflexivity. destruct (good_int b d1 G H1) as [RF EF]. pose proof G as ((We & Wi & Wd) & _).
  set (rl := nth l (b_ineq b) []) in *. set (ru := nth u (b_ineq b) []) in *. set (m := hd 0 rl + hd 0 ru + 1) in *. destruct (GP d1 P1) as (_ & U1 & F1). destruct (GP d2 P2) as (_ & U2 & F2).
  assert (Ll : length rl = (1 + total b)%nat) by (apply rows_nth; assumption). assert (Lu : length ru = (1 + total b)%nat) by (apply rows_nth; assumption). assert (LU : l <> u) by (intros ->; lia).
  assert (Zu : nth (dpos b d2) ru 0 = 0). { pose proof (is_opposite_ok b l u (proj1 G) Hl Hu Op) as T. fold rl ru in T. unfold icoef in Zl. fold rl in Zl. unfold dpos in *. cbn [Nat.add] in *. rewrite <- nth_tl in Zl |- *. rewrite T, nth_seq_neg in Zl. lia. }
  set (g := fun j => coalesced_row b d1 d2 m rl ru (nth j (b_ineq b) [])). set (n := length (b_ineq b)) in *. set (idx := filter (fun j => negb (Nat.eqb j l || Nat.eqb j u)) (seq 0 n)).
  assert (IX : forall j, In j idx <-> (j < n)%nat /\ j <> l /\ j <> u). { intros j. unfold idx. rewrite filter_In, in_seq, negb_true_iff, orb_false_iff, !Nat.eqb_neq. lia. }
  assert (PS : Permutation (seq 0 n) (l :: u :: idx)).
  { apply NoDup_Permutation; [apply seq_NoDup| |].
    - constructor; [intros [X|X]; [lia|apply IX in X; lia]|]. constructor; [intros X; apply IX in X; lia|]. apply NoDup_filter, seq_NoDup.
    - intros j. rewrite in_seq. cbn [In]. rewrite IX. destruct (Nat.eq_dec j l), (Nat.eq_dec j u); subst; split; intros; try lia; auto. }
  unfold coalesce_divs. fold rl ru m. fold n. set (li := map _ (seq 0 n)). destruct (drop_two_ok (set_ineq b li) l u) as [PD ED]; [cbn [set_ineq b_ineq]; unfold li; rewrite map_length, seq_length; lia|cbn [set_ineq b_ineq]; unfold li; rewrite map_length, seq_length; lia|exact LU|].
  rewrite ED. set (li' := b_ineq (drop_two (set_ineq b li) l u)) in *. cbn [set_ineq b_ineq] in PD.
  assert (NL : forall j, (j < n)%nat -> nth j li [] = if Nat.eqb j l || Nat.eqb j u then nth j (b_ineq b) [] else g j).
  { intros j Hj. unfold li. rewrite nth_mapseq by exact Hj. reflexivity. }
  assert (PL : Permutation li' (map g idx)).
  { apply (Permutation_cons_inv (a := nth u li [])), (Permutation_cons_inv (a := nth l li [])). rewrite <- PD. rewrite !NL by assumption. unfold li. rewrite PS. cbn [map]. rewrite !Nat.eqb_refl, orb_true_r. cbn [orb]. do 2 apply perm_skip.
    apply Permutation_refl'. apply map_ext_in. intros j Hj. apply IX in Hj. cbv zeta. destruct (Nat.eqb_spec j l); [lia|]. destruct (Nat.eqb_spec j u); [lia|]. reflexivity. }
  (* both marked unknown *)
  destruct (mark_div_pres b d2 G H2) as [PM2 OM2]. specialize (OM2 O). set (b1 := mark_div_unknown b d2) in *. assert (ND1 : ndiv b1 = ndiv b) by apply marked_ndiv. destruct (mark_div_pres b1 d1 (proj1 (proj2 PM2)) ltac:(lia)) as [PM1 OM1]. specialize (OM1 OM2).
  set (b2 := mark_div_unknown b1 d1) in *. assert (ND2 : ndiv b2 = ndiv b) by (unfold b2; rewrite marked_ndiv; exact ND1). pose proof (proj1 (proj2 PM1)) as G2. assert (NT2 : total b2 = total b) by (unfold total; rewrite ND2; reflexivity).
  assert (DV2 : forall k, hd 0 (nth k (b_div b2) []) <> 0 -> k <> d1 /\ k <> d2 /\ nth k (b_div b2) [] = nth k (b_div b) []).
  { intros k Hk. destruct (marked_hd b1 d1 k ltac:(lia) Hk) as [X1 X2]. fold b2 in X2. rewrite X2 in Hk. destruct (marked_hd b d2 k H2 Hk) as [X3 X4]. fold b1 in X4. rewrite X4 in X2. auto. }
  assert (FX : forall j, In j idx -> length (g j) = (1 + total b)%nat) by (intros j Hj; apply IX in Hj; apply coalesced_len; try assumption; apply rows_nth; [exact Wi|apply Hj]).
  assert (W3 : wf (set_ineq b2 li')). { pose proof (proj1 G2) as (A1 & _ & A3). split; [exact A1|]. split; [|exact A3]. cbn [set_ineq b_ineq]. change (total (set_ineq b2 li')) with (total b2). rewrite NT2. apply (Forall_perm _ _ _ PL). apply Forall_map. apply Forall_forall. exact FX. }
  assert (RD : forall v, length v = (1 + total b)%nat -> hd 0 v = 1 -> 0 <= dot rl v -> 0 <= dot ru v -> (Forall (nonneg_on v) (b_ineq b) <-> Forall (nonneg_on (zupd v (dpos b d2) (nth (dpos b d1) v 0 + m * nth (dpos b d2) v 0))) li')).
  { intros v Lv Hv Q1 Q2. rewrite (Forall_perm _ _ _ PL). rewrite Forall_map. assert (SMM : dot rl v + dot ru v = m - 1) by (unfold rl, ru; rewrite opposite_dots by (try assumption; apply G); fold rl ru; unfold m; lia).
    assert (EQV : forall j, In j idx -> (0 <= dot (nth j (b_ineq b) []) v <-> 0 <= dot (g j) (zupd v (dpos b d2) (nth (dpos b d1) v 0 + m * nth (dpos b d2) v 0)))) by (intros j Hj; apply IX in Hj; apply coalesced_dot; try assumption; [apply rows_nth; [exact Wi|apply Hj]|apply RW; lia]).
    split; intros F; apply Forall_forall.
    - intros j Hj. unfold nonneg_on. apply (EQV j Hj). apply IX in Hj. pose proof (proj1 (Forall_forall _ _) F (nth j (b_ineq b) []) ltac:(apply nth_In; apply Hj)) as X. exact X.
    - intros r Hr. apply (In_nth _ _ []) in Hr as (j & Hj & <-). unfold nonneg_on. destruct (Nat.eq_dec j l) as [->|J1]; [exact Q1|]. destruct (Nat.eq_dec j u) as [->|J2]; [exact Q2|]. apply EQV; [apply IX; auto|]. apply (proj1 (Forall_forall _ _) F j). apply IX. auto. }
  assert (EQD : forall v t k d, (d = d1 \/ d = d2) -> length v = (1 + total b)%nat -> (k < ndiv b)%nat -> forall e, (division (nth k (b_div b2) []) e (zupd v (dpos b d) t) <-> division (nth k (b_div b2) []) e v)).
  { intros v t k d Hd Lv Hk e. apply division_upd; [rewrite Lv; unfold dpos; destruct Hd; subst; lia|]. intros Hh. destruct (DV2 k Hh) as (X1 & X2 & X3). rewrite X3 in *. destruct Hd as [->| ->]; [apply U1|apply U2]; assumption. }
  assert (EQE : forall v t d, (d = d1 \/ d = d2) -> length v = (1 + total b)%nat -> (Forall (zero_on v) (b_eq b) <-> Forall (zero_on (zupd v (dpos b d) t)) (b_eq b))).
  { intros v t d Hd Lv. split; intros F; apply Forall_forall; intros r Hr; pose proof (proj1 (Forall_forall _ _) F r Hr) as X; unfold zero_on in *; [rewrite dot_upd|rewrite dot_upd in X]; try (rewrite Lv; unfold dpos; destruct Hd; subst; lia);
      assert (Z : nth (dpos b d) r 0 = 0) by (destruct Hd as [->| ->]; [apply (proj1 (Forall_forall _ _) F1 r Hr)|apply (proj1 (Forall_forall _ _) F2 r Hr)]); rewrite Z in *; lia. }
  assert (HL : forall v, Forall (nonneg_on v) (b_ineq b) -> 0 <= dot rl v /\ 0 <= dot ru v) by (intros v F; split; apply (proj1 (Forall_forall _ _) F); apply nth_In; assumption).
  assert (FN : forall v d t, firstn (1 + nvar b) (zupd v (dpos b d) t) = firstn (1 + nvar b) v) by (intros; apply SimpShift.firstn_zupd; unfold dpos; lia).
  assert (HZ : forall (v : list Z) d t, hd 0 (zupd v (dpos b d) t) = hd 0 v) by (intros [|x v] d t; reflexivity).
  assert (P3 : pres b2 (set_ineq b2 li')).
  { apply pres_map; auto; try apply G2.
    - repeat split.
    - intros v Lv [_ Hv] [Se Si]. rewrite NT2 in *. specialize (Hv RF). destruct (HL v Si) as [Q1 Q2]. exists (zupd v (dpos b d2) (nth (dpos b d1) v 0 + m * nth (dpos b d2) v 0)). split; [rewrite zupd_length; exact Lv|]. split; [apply FN|]. split; [apply (EQE v _ d2); auto|]. apply (RD v Lv Hv Q1 Q2). exact Si.
    - intros v Lv [_ Hv] [Se Si]. rewrite NT2 in *. specialize (Hv RF). set (A := dpos b d1) in *. set (C := dpos b d2) in *. assert (HA : (A < length v)%nat) by (rewrite Lv; unfold A, dpos; lia). assert (HC : (C < length v)%nat) by (rewrite Lv; unfold C, dpos; lia). assert (AC : A <> C) by (unfold A, C, dpos; lia).
      set (d := nth C v 0). set (f := dot rl v - nth A v 0). set (c := (d + f) / m). set (a := d - m * c). assert (Hm : 0 < m) by (unfold m; lia). pose proof (Z.div_mod (d + f) m ltac:(lia)) as DM. pose proof (Z.mod_pos_bound (d + f) m Hm) as MB. fold c in DM.
      set (v1 := zupd v A a). set (w := zupd v1 C c). assert (L1 : length v1 = (1 + total b)%nat) by (unfold v1; rewrite zupd_length; exact Lv). assert (Lw : length w = (1 + total b)%nat) by (unfold w; rewrite zupd_length; exact L1). assert (Hw : hd 0 w = 1) by (unfold w, v1, A, C; rewrite !HZ; exact Hv).
      assert (WA : nth A w 0 = a). { unfold w. rewrite BMapGauss2.nth_zupd. destruct (Nat.eqb_spec A C); [lia|]. cbn [andb]. unfold v1. rewrite BMapGauss2.nth_zupd, Nat.eqb_refl. destruct (Nat.ltb_spec A (length v)); [reflexivity|lia]. }
      assert (WC : nth C w 0 = c). { unfold w. rewrite BMapGauss2.nth_zupd, Nat.eqb_refl. destruct (Nat.ltb_spec C (length v1)); [reflexivity|lia]. }
      assert (DL : dot rl w = f + a). { unfold w. rewrite dot_upd by lia. unfold icoef in Zl, Cl. fold rl A C in Zl, Cl. rewrite Zl. unfold v1. rewrite dot_upd by lia. rewrite Cl. unfold f. ring. }
      assert (SMM : dot rl w + dot ru w = m - 1) by (unfold rl, ru; rewrite opposite_dots by (try assumption; apply G); fold rl ru; unfold m; lia). assert (Q1 : 0 <= dot rl w) by (unfold a in DL; nia). assert (Q2 : 0 <= dot ru w) by (unfold a in DL; nia).
      exists w. split; [exact Lw|]. split; [unfold w, v1, A, C; rewrite !FN; reflexivity|]. split.
      + split; [unfold w, v1; apply (EQE (zupd v A a) c d2); [auto|exact L1|]; apply (EQE v a d1); auto|]. apply (RD w Lw Hw Q1 Q2). fold A C. rewrite WA, WC. replace (a + m * c) with d by (unfold a; ring).
        assert (EV : zupd w C d = v1). { apply (nth_ext _ _ 0 0); [rewrite zupd_length; congruence|]. intros k Hk. rewrite BMapGauss2.nth_zupd. unfold w at 2. rewrite BMapGauss2.nth_zupd. destruct (Nat.eqb_spec k C) as [->|]; [|reflexivity]. cbn [andb]. destruct (Nat.ltb_spec C (length w)); [|lia]. unfold v1. rewrite BMapGauss2.nth_zupd. destruct (Nat.eqb_spec C A); [lia|reflexivity]. }
        rewrite EV. cbn [set_ineq b_ineq] in Si. apply Forall_forall. intros r Hr. pose proof (proj1 (Forall_forall _ _) Si r Hr) as X. unfold nonneg_on in *. unfold v1. rewrite dot_upd by exact HA. assert (Z : nth A r 0 = 0).
        { eapply Permutation_in in Hr; [|exact PL]. apply in_map_iff in Hr as (j & <- & Hj). apply IX in Hj. apply coalesced_zero. apply RW; lia. }
        rewrite Z. lia.
      + intros _ DV k Hk. change (length (b_div (set_ineq b2 li'))) with (ndiv b2) in Hk. rewrite ND2 in Hk. specialize (DV k ltac:(change (length (b_div b2)) with (ndiv b2); lia)). cbn [set_ineq b_div]. destruct (Z.eq_dec (hd 0 (nth k (b_div b2) [])) 0) as [E0|E0]; [left; exact E0|]. destruct (DV2 k E0) as (X1 & X2 & _).
        change (nvar (set_ineq b2 li')) with (nvar b). change (nvar b2) with (nvar b) in DV.
        assert (EK : nth (1 + nvar b + k) w 0 = nth (1 + nvar b + k) v 0). { unfold w, v1. rewrite !BMapGauss2.nth_zupd. unfold A, C, dpos. destruct (Nat.eqb_spec (1 + nvar b + k) (1 + nvar b + d2)); [lia|]. destruct (Nat.eqb_spec (1 + nvar b + k) (1 + nvar b + d1)); [lia|]. reflexivity. }
        rewrite EK in DV. unfold w, v1 in DV. apply (EQD (zupd v A a) c k d2 (or_intror eq_refl) L1 Hk) in DV. apply (EQD v a k d1 (or_introl eq_refl) Lv Hk) in DV. exact DV.
    - intros X. change (b_empty b2) with (b_empty b) in X. congruence. }
  set (b3 := set_ineq b2 li') in *. pose proof (proj1 (proj2 P3)) as G3. assert (O3 : ordered b3) by exact OM1.
  assert (Z3 : forall r, In r (b_ineq b3) -> nth (dpos b3 d1) r 0 = 0). { intros r Hr. cbn [b3 set_ineq b_ineq] in Hr. eapply Permutation_in in Hr; [|exact PL]. apply in_map_iff in Hr as (j & <- & Hj). apply IX in Hj. change (dpos b3 d1) with (dpos b d1). apply coalesced_zero. apply RW; lia. }
  assert (U3 : unused b3 d1). { intros k Hk Nk Hh. change (b_div b3) with (b_div b2) in *. destruct (DV2 k Hh) as (X1 & X2 & X3). rewrite X3 in *. apply U1; auto. change (ndiv b3) with (ndiv b2) in Hk. lia. }
  destruct (drop_rows_pres b3 d1 (b_ineq b3) G3 O3) as [P4 O4]; auto.
  - change (ndiv b3) with (ndiv b2). lia.
  - intros v Lv Hv _. exists 0. intros r Hr Hn. rewrite (Z3 r Hr) in Hn. congruence.
  - assert (EQ : drop_div (set_ineq b3 (b_ineq b3)) d1 = drop_div (mark_div_unknown (set_ineq (set_ineq b li) li') d2) d1) by (exact (drop_marked (set_ineq b1 li') d1)). rewrite EQ in P4, O4.
    split; [|exact O4]. eapply pres_trans; [exact PM2|]. eapply pres_trans; [exact PM1|]. eapply pres_trans; [exact P3|exact P4].
Qed.
