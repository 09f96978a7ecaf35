(** The first steps of isl_basic_map_drop_redundant_divs keep the points:
    dropping an unbounded local variable, dropping a local variable between two
    opposite bounds, taking the lower bound, defining a local variable. *)
From Coq Require Import ZArith List Bool Arith Lia Permutation.
From Verif Require Import SeqModel SeqSpec SeqProofs MatModel BMapModel BMapSpec BMapSem BMapLists BMapNorm BMapGauss BMapGauss2 BMapOrder BDupModel BDupProofs BElimModel BElimSpec BElimSort BElimCols
  BElimProofs BElimFM BElimVars LocalModel SimpModel SimpSpec SimpBase SimpDrop SimpDivs SimpShift SimpDups SimpIneq SimpFinal SetBase SetLift RdivModel.
Import ListNotations.
Open Scope Z_scope.

(** ** dropping inequalities *)
Lemma drop_swap_perm (a c : list (list Z)) x : Permutation (drop_swap (a ++ x :: c) (length a)) (a ++ c).
Proof.
  rewrite drop_swap_split. destruct c as [|y c]; [rewrite app_nil_r; reflexivity|]. apply Permutation_app_head.
  rewrite (app_removelast_last (l := y :: c) [] ltac:(discriminate)) at 3. apply Permutation_cons_append.
Qed.
Lemma split_nth (l : list (list Z)) i : (i < length l)%nat -> exists a c, l = a ++ nth i l [] :: c /\ length a = i.
Proof. intros H. destruct (nth_split l [] H) as (a & c & E & L). exists a, c. auto. Qed.
Lemma drop_swap_tail (p e : list (list Z)) x : exists e', drop_swap (p ++ x :: e) (length p) = p ++ e' /\ Permutation e' e.
Proof.
  rewrite drop_swap_split. destruct e as [|y e]; [exists []; rewrite app_nil_r; auto|]. eexists. split; [reflexivity|].
  pose proof (app_removelast_last (l := y :: e) [] ltac:(discriminate)) as H. rewrite H at 3. apply Permutation_cons_append.
Qed.
Lemma drop_two_lists (a c e : list (list Z)) x y : Permutation (drop_swap (drop_swap (a ++ x :: c ++ y :: e) (length (a ++ x :: c))) (length a)) (a ++ c ++ e).
Proof.
  replace (a ++ x :: c ++ y :: e) with ((a ++ x :: c) ++ y :: e) by (rewrite <- app_assoc; reflexivity). destruct (drop_swap_tail (a ++ x :: c) e y) as (e' & -> & P).
  rewrite <- app_assoc. cbn [app]. rewrite drop_swap_perm. apply Permutation_app_head, Permutation_app_head. exact P.
Qed.
Lemma drop_two_lt (l : list (list Z)) lo hi : (lo < hi < length l)%nat ->
  exists a c e, l = a ++ nth lo l [] :: c ++ nth hi l [] :: e /\ Permutation (drop_swap (drop_swap l hi) lo) (a ++ c ++ e).
Proof.
  intros H. destruct (split_nth l hi ltac:(lia)) as (p & e & E & L). assert (Hp : (lo < length p)%nat) by lia. destruct (split_nth p lo Hp) as (a & c & Ep & La).
  assert (N : nth lo l [] = nth lo p []) by (rewrite E; apply app_nth1; exact Hp).
  assert (E2 : l = a ++ nth lo l [] :: c ++ nth hi l [] :: e). { rewrite N. transitivity (p ++ nth hi l [] :: e); [exact E|]. transitivity ((a ++ nth lo p [] :: c) ++ nth hi l [] :: e); [f_equal; exact Ep|]. rewrite <- app_assoc. reflexivity. }
  exists a, c, e. split; [exact E2|]. assert (Lp : length (a ++ nth lo l [] :: c) = hi) by (rewrite N, <- Ep; exact L).
  pose proof (drop_two_lists a c e (nth lo l []) (nth hi l [])) as P. rewrite <- E2, Lp, La in P. exact P.
Qed.
Lemma drop_two_ok (b : bmap) i j : (i < length (b_ineq b))%nat -> (j < length (b_ineq b))%nat -> i <> j ->
  Permutation (b_ineq b) (nth i (b_ineq b) [] :: nth j (b_ineq b) [] :: b_ineq (drop_two b i j)) /\ drop_two b i j = set_ineq b (b_ineq (drop_two b i j)).
Proof.
  intros Hi Hj N. unfold drop_two. destruct (Nat.ltb_spec j i) as [H|H].
  - split; [|reflexivity]. change (b_ineq (drop_inequality (drop_inequality b i) j)) with (drop_swap (drop_swap (b_ineq b) i) j).
    destruct (drop_two_lt (b_ineq b) j i ltac:(lia)) as (a & c & e & E & P). rewrite P. rewrite E at 1. rewrite <- Permutation_middle. rewrite perm_swap. apply perm_skip. rewrite app_assoc. rewrite <- Permutation_middle. rewrite <- app_assoc. reflexivity.
  - split; [|reflexivity]. change (b_ineq (drop_inequality (drop_inequality b j) i)) with (drop_swap (drop_swap (b_ineq b) j) i).
    destruct (drop_two_lt (b_ineq b) i j ltac:(lia)) as (a & c & e & E & P). rewrite P. rewrite E at 1. rewrite <- Permutation_middle. apply perm_skip. rewrite app_assoc. rewrite <- Permutation_middle. rewrite <- app_assoc. reflexivity.
Qed.
Lemma filter_perm {A} (p : A -> bool) l m : Permutation l m -> length (filter p l) = length (filter p m).
Proof. induction 1; cbn [filter]; repeat destruct (p _); cbn [length]; lia. Qed.

(** ** the search for bounds *)
Lemma last_such_ok p : forall l i acc k, last_such p l i acc = Some k -> (acc = Some k) \/ (i <= k < i + length l)%nat /\ p (nth (k - i) l []) = true.
Proof.
  induction l as [|r l IH]; intros i acc k H; cbn [last_such] in H; [auto|]. apply IH in H as [H|[H1 H2]].
  - destruct (p r) eqn:E; [|auto]. injection H as <-. right. cbn [length]. split; [lia|]. rewrite Nat.sub_diag. exact E.
  - right. cbn [length]. split; [lia|]. replace (k - i)%nat with (S (k - S i)) by lia. exact H2.
Qed.
Lemma last_such_none p : forall l i acc, last_such p l i acc = None -> acc = None /\ Forall (fun r => p r = false) l.
Proof.
  induction l as [|r l IH]; intros i acc H; cbn [last_such] in H; [auto|]. apply IH in H as [H1 H2]. destruct (p r) eqn:E; [discriminate H1|]. auto.
Qed.

(** ** picking an extreme value *)
(** [f + c t] is not negative for all large enough [t] *)
Lemma large_enough (l : list (Z * Z)) : Forall (fun x => 0 < snd x) l -> exists t0, forall t, t0 <= t -> Forall (fun x => 0 <= fst x + t * snd x) l.
Proof.
  induction 1 as [|[f c] l Hc _ [t0 IH]]; [exists 0; constructor|]. exists (Z.max t0 (Z.abs f)). intros t Ht. constructor; [cbn in *; nia|]. apply IH. lia.
Qed.
Definition free_of (b : bmap) (d : nat) : Prop := Forall (fun r => nth (dpos b d) r 0 = 0) (b_eq b).
Lemma not_involved b d : ordered b -> any_div_involves_div b d = false -> unused b d.
Proof.
  intros O H k Hk Hne Hd. destruct (Nat.lt_ge_cases k d) as [L|L]; [apply O; [exact Hk|lia|exact Hd]|].
  destruct (Z.eq_dec (nth (2 + nvar b + d) (nth k (b_div b) []) 0) 0) as [E|E]; [exact E|]. exfalso. unfold any_div_involves_div in H.
  assert (X : existsb (fun r => negb (hd 0 r =? 0) && negb (nth (1 + dpos b d) r 0 =? 0)) (skipn (d + 1) (b_div b)) = true).
  { apply existsb_exists. exists (nth k (b_div b) []). split.
    - replace k with (d + 1 + (k - (d + 1)))%nat by lia. rewrite <- nth_skipn. apply nth_In. rewrite skipn_length. unfold ndiv in Hk. lia.
    - rewrite andb_true_iff, !negb_true_iff, !Z.eqb_neq. split; [exact Hd|exact E]. }
  congruence.
Qed.

(** dropping the inequalities that involve a local variable together with the
    local variable *)
Lemma drop_rows_pres b d li : good b -> ordered b -> (d < ndiv b)%nat -> unused b d -> free_of b d ->
  (forall r, In r li -> In r (b_ineq b) /\ nth (dpos b d) r 0 = 0) -> (forall r, In r (b_ineq b) -> nth (dpos b d) r 0 = 0 -> In r li) ->
  (forall v, length v = (1 + total b)%nat -> hd 0 v = 1 -> system (b_eq b) li v -> exists t, forall r, In r (b_ineq b) -> nth (dpos b d) r 0 <> 0 -> 0 <= dot r (zupd v (dpos b d) t)) ->
  pres b (drop_div (set_ineq b li) d) /\ ordered (drop_div (set_ineq b li) d).
Proof.
  intros G O Hd U Fr H1 H2 H3. pose proof G as (W & A & D & _). pose proof W as (We & Wi & Wd). destruct (good_int b d G Hd) as [RF EF]. assert (TT : total b = (nvar b + ndiv b)%nat) by reflexivity.
  set (b2 := set_ineq b li). assert (W2 : wf b2). { split; [exact We|]. split; [|exact Wd]. apply Forall_forall. intros r Hr. apply (proj1 (Forall_forall _ _) Wi). apply H1. exact Hr. }
  assert (Z2 : zcol (nvar b + d) b2) by (split; [exact Fr|]; apply Forall_forall; intros r Hr; apply H1; exact Hr).
  split; [|destruct (drop_div_ok b2 d W2 Hd Z2 U) as (_ & _ & _ & _ & _ & _ & _ & _ & O' & _); apply O'; exact O].
  apply drop_div_pres; auto.
  - repeat split.
  - intros v Lv Hv [Se Si]. split; [exact Se|]. apply Forall_forall. intros r Hr. apply (proj1 (Forall_forall _ _) Si). apply H1. exact Hr.
  - intros v Lv Hv Sv. destruct (H3 v Lv Hv Sv) as [t Ht]. destruct Sv as [Se Si]. exists t. cbn zeta. split.
    + split; apply Forall_forall; intros r Hr.
      * unfold zero_on. rewrite dot_upd by lia. pose proof (proj1 (Forall_forall _ _) Fr r Hr) as Z. unfold dpos in Z. rewrite Z. pose proof (proj1 (Forall_forall _ _) Se r Hr) as S. unfold zero_on in S. lia.
      * destruct (Z.eq_dec (nth (dpos b d) r 0) 0) as [Z|Z]; [|apply Ht; assumption]. unfold nonneg_on. rewrite dot_upd by lia. unfold dpos in Z. rewrite Z. pose proof (proj1 (Forall_forall _ _) Si r (H2 r Hr Z)) as S. unfold nonneg_on in S. lia.
    + intros DV k Hk _. apply DV. exact Hk.
Qed.
Lemma large_rows (s : Z) pos (v : list Z) : (s = 1 \/ s = -1) -> (pos < length v)%nat -> forall l, Forall (fun r => nth pos r 0 <> 0 -> 0 < s * nth pos r 0) l ->
  exists t0, forall t, t0 <= t -> forall r, In r l -> nth pos r 0 <> 0 -> 0 <= dot r (zupd v pos (s * t)).
Proof.
  intros Hs Lv. induction 1 as [|r l Hr _ [t0 IH]]; [exists 0; intros t _ r []|].
  exists (Z.max t0 (Z.abs (dot r v) + Z.abs (nth pos v 0 * nth pos r 0))). intros t Ht x [<-|Hx] Hn; [|apply IH; [lia|exact Hx|exact Hn]].
  specialize (Hr Hn). rewrite dot_upd by exact Lv. destruct Hs as [-> | ->]; nia.
Qed.
Lemma drop_unbounded_pres b d : good b -> ordered b -> (d < ndiv b)%nat -> unused b d -> free_of b d ->
  (Forall (fun r => nth (dpos b d) r 0 <= 0) (b_ineq b) \/ Forall (fun r => 0 <= nth (dpos b d) r 0) (b_ineq b)) ->
  pres b (drop_unbounded b d) /\ ordered (drop_unbounded b d).
Proof.
  intros G O Hd U Fr S. assert (TT : total b = (nvar b + ndiv b)%nat) by reflexivity. destruct (drop_involving_ineq_ok (dpos b d) (length (b_ineq b)) (b_ineq b) (le_n _)) as (IA & IB & IC); [intros; lia|].
  apply drop_rows_pres; auto.
  - intros r Hr. split; [|apply (proj1 (Forall_forall _ _) IA r Hr)]. specialize (IB (fun r => In r (b_ineq b)) (proj2 (Forall_forall _ _) (fun r H => H))). apply (proj1 (Forall_forall _ _) IB r Hr).
  - intros v Lv Hv _. assert (Q : exists s, (s = 1 \/ s = -1) /\ Forall (fun r => nth (dpos b d) r 0 <> 0 -> 0 < s * nth (dpos b d) r 0) (b_ineq b)).
    { destruct S as [S|S]; [exists (-1)|exists 1]; (split; [auto|]); revert S; apply Forall_impl; intros; lia. }
    destruct Q as (s & Hs & Q). destruct (large_rows s (dpos b d) v Hs ltac:(unfold dpos; lia) _ Q) as [t0 T]. exists (s * t0). intros r Hr Hn. apply T; [lia|exact Hr|exact Hn].
Qed.

(** two opposite bounds with a large enough distance *)
Lemma is_opposite_ok b i j : wf b -> (i < length (b_ineq b))%nat -> (j < length (b_ineq b))%nat -> is_opposite b i j = true ->
  tl (nth i (b_ineq b) []) = seq_neg (tl (nth j (b_ineq b) [])).
Proof. intros (_ & W & _) Hi Hj H. pose proof (rows_nth _ _ i W Hi) as L1. pose proof (rows_nth _ _ j W Hj) as L2. apply seq_is_neg_ok in H; [exact H|]. destruct (nth i _ _), (nth j _ _); cbn in *; lia. Qed.
Lemma dot_hd_tl r v : hd 0 v = 1 -> r <> [] -> dot r v = hd 0 r + dot (tl r) (tl v).
Proof. intros H N. destruct r as [|x r]; [congruence|]. destruct v as [|y v]; [discriminate H|]. cbn [hd] in H. subst y. cbn [hd tl]. change (x * 1 + dot r v = x + dot r v). lia. Qed.
Lemma opposite_dots b i j v : wf b -> (i < length (b_ineq b))%nat -> (j < length (b_ineq b))%nat -> is_opposite b i j = true -> hd 0 v = 1 ->
  dot (nth i (b_ineq b) []) v + dot (nth j (b_ineq b) []) v = hd 0 (nth i (b_ineq b) []) + hd 0 (nth j (b_ineq b) []).
Proof.
  intros W Hi Hj H Hv. pose proof (is_opposite_ok b i j W Hi Hj H) as E. destruct W as (_ & W & _). pose proof (rows_nth _ _ i W Hi) as L1. pose proof (rows_nth _ _ j W Hj) as L2.
  pose proof (dot_hd_tl (nth i (b_ineq b) []) v Hv ltac:(intros X; rewrite X in L1; discriminate L1)) as D1. pose proof (dot_hd_tl (nth j (b_ineq b) []) v Hv ltac:(intros X; rewrite X in L2; discriminate L2)) as D2. rewrite E, dot_seq_neg in D1. lia.
Qed.
Lemma filter_le_0 {A} (p : A -> bool) l : length (filter p l) = O -> forall x, In x l -> p x = false.
Proof. intros H x Hx. destruct (p x) eqn:E; [|reflexivity]. exfalso. assert (X : In x (filter p l)) by (apply filter_In; auto). destruct (filter p l); [destruct X|discriminate H]. Qed.
Lemma drop_pair_pres b d i j : good b -> ordered b -> (d < ndiv b)%nat -> unused b d -> free_of b d -> (i < length (b_ineq b))%nat -> (j < length (b_ineq b))%nat ->
  0 < icoef b d i -> icoef b d j < 0 -> length (filter (fun r => 0 <? nth (dpos b d) r 0) (b_ineq b)) = 1%nat -> length (filter (fun r => nth (dpos b d) r 0 <? 0) (b_ineq b)) = 1%nat ->
  is_opposite b i j = true -> icoef b d i <= hd 0 (nth i (b_ineq b) []) + hd 0 (nth j (b_ineq b) []) + 1 ->
  pres b (drop_div (drop_two b i j) d) /\ ordered (drop_div (drop_two b i j) d).
Proof.
  intros G O Hd U Fr Hi Hj Ci Cj Np Nn Op Ge. assert (TT : total b = (nvar b + ndiv b)%nat) by reflexivity. pose proof G as (W & _).
  assert (Nij : i <> j) by (intros ->; lia). destruct (drop_two_ok b i j Hi Hj Nij) as [P E]. rewrite E. set (li := b_ineq (drop_two b i j)) in *. unfold icoef in *.
  assert (Zi : forall r, In r li -> nth (dpos b d) r 0 = 0).
  { rewrite (filter_perm _ _ _ P) in Np. rewrite (filter_perm _ _ _ P) in Nn. cbn [filter] in Np, Nn. destruct (Z.ltb_spec 0 (nth (dpos b d) (nth i (b_ineq b) []) 0)); [|lia]. destruct (Z.ltb_spec 0 (nth (dpos b d) (nth j (b_ineq b) []) 0)); [lia|].
    destruct (Z.ltb_spec (nth (dpos b d) (nth i (b_ineq b) []) 0) 0); [lia|]. destruct (Z.ltb_spec (nth (dpos b d) (nth j (b_ineq b) []) 0) 0); [|lia]. cbn [length] in Np, Nn. intros r Hr.
    pose proof (filter_le_0 (fun r => 0 <? nth (dpos b d) r 0) li ltac:(lia) r Hr) as X. pose proof (filter_le_0 (fun r => nth (dpos b d) r 0 <? 0) li ltac:(lia) r Hr) as Y. cbn beta in X, Y. apply Z.ltb_ge in X, Y. lia. }
  apply drop_rows_pres; auto.
  - intros r Hr. split; [|apply Zi; exact Hr]. eapply Permutation_in; [symmetry; exact P|]. right. right. exact Hr.
  - intros r Hr Z. eapply Permutation_in in Hr; [|exact P]. destruct Hr as [<-|[<-|Hr]]; [lia|lia|exact Hr].
  - intros v Lv Hv _. set (n := nth (dpos b d) (nth i (b_ineq b) []) 0) in *. set (f := dot (nth i (b_ineq b) []) (zupd v (dpos b d) 0)).
    assert (V : forall t, dot (nth i (b_ineq b) []) (zupd v (dpos b d) t) = f + n * t). { intros t. unfold f. rewrite !dot_upd by (unfold dpos; lia). fold n. ring. }
    exists (- (f / n)). set (w := zupd v (dpos b d) (- (f / n))). assert (Hw : hd 0 w = 1) by (unfold w, dpos; cbn [Nat.add]; rewrite hd_zupd_S; exact Hv).
    pose proof (opposite_dots b i j w W Hi Hj Op Hw) as OD. pose proof (V (- (f / n))) as V1. fold w in V1. pose proof (Z.div_mod f n ltac:(lia)) as DM. pose proof (Z.mod_pos_bound f n Ci) as MB.
    intros r Hr Hn. eapply Permutation_in in Hr; [|exact P]. destruct Hr as [<-|[<-|Hr]]; [lia|lia|]. rewrite (Zi r Hr) in Hn. lia.
Qed.

(** ** stronger constraints on a local variable *)
Lemma restrict_pres b le li nd : good b -> b_rat b = false -> b_empty b = false -> rows_of (1 + total b) le -> rows_of (1 + total b) li ->
  (forall v, hd 0 v = 1 -> system le li v -> system (b_eq b) (b_ineq b) v) ->
  (forall v, length v = (1 + total b)%nat -> hd 0 v = 1 -> system (b_eq b) (b_ineq b) v ->
     exists w, length w = (1 + total b)%nat /\ firstn (1 + nvar b) w = firstn (1 + nvar b) v /\ system le li w) ->
  pres b (set_nd (set_ineq (set_eq b le) li) nd).
Proof.
  intros G RF EF Re Ri H1 H2. pose proof G as (W & A & D & _). apply pres_map; auto.
  - repeat split.
  - split; [exact Re|]. split; [exact Ri|apply W].
  - intros v Lv [_ Hv] S. apply H2; auto.
  - intros v Lv [_ Hv] S. exists v. split; [exact Lv|]. split; [reflexivity|]. split; [apply H1; auto|]. intros _ DV. exact DV.
  - intros X. congruence.
Qed.
(** the only lower bound of a local variable, rounded up, is a possible value *)
Lemma lowest b d i v : good b -> (d < ndiv b)%nat -> free_of b d -> (i < length (b_ineq b))%nat -> 0 < icoef b d i -> length (filter (fun r => 0 <? nth (dpos b d) r 0) (b_ineq b)) = 1%nat ->
  length v = (1 + total b)%nat -> system (b_eq b) (b_ineq b) v ->
  exists t, let w := zupd v (dpos b d) t in system (b_eq b) (b_ineq b) w /\ 0 <= dot (nth i (b_ineq b) []) w < icoef b d i.
Proof.
  intros G Hd Fr Hi Ci Np Lv [Se Si]. assert (TT : total b = (nvar b + ndiv b)%nat) by reflexivity. unfold icoef in *. set (n := nth (dpos b d) (nth i (b_ineq b) []) 0) in *.
  set (x := nth (dpos b d) v 0). set (s := dot (nth i (b_ineq b) []) v). exists (x - s / n). cbn zeta. set (w := zupd v (dpos b d) (x - s / n)).
  assert (V : forall r, dot r w = dot r v - s / n * nth (dpos b d) r 0) by (intros r; unfold w; rewrite dot_upd by (unfold dpos; lia); fold x; ring).
  pose proof (Z.div_mod s n ltac:(lia)) as DM. pose proof (Z.mod_pos_bound s n Ci) as MB. assert (S0 : 0 <= s) by (apply (proj1 (Forall_nth_iff _ _ []) Si i Hi)). assert (Q0 : 0 <= s / n) by (apply Z.div_pos; lia).
  destruct (split_nth (b_ineq b) i Hi) as (a & c & E & _).
  assert (NP : forall r, In r (a ++ c) -> nth (dpos b d) r 0 <= 0).
  { assert (P : Permutation (b_ineq b) (nth i (b_ineq b) [] :: a ++ c)) by (rewrite E at 1; symmetry; apply Permutation_middle). rewrite (filter_perm _ _ _ P) in Np. cbn [filter] in Np. fold n in Np. destruct (Z.ltb_spec 0 n); [|lia]. cbn [length] in Np.
    intros r Hr. pose proof (filter_le_0 (fun r => 0 <? nth (dpos b d) r 0) (a ++ c) ltac:(lia) r Hr) as X. cbn beta in X. apply Z.ltb_ge in X. exact X. }
  assert (B : dot (nth i (b_ineq b) []) w = s mod n) by (rewrite V; fold n; fold s; lia).
  split; [|lia]. split; apply Forall_forall; intros r Hr.
  - unfold zero_on. rewrite V. rewrite (proj1 (Forall_forall _ _) Fr r Hr). pose proof (proj1 (Forall_forall _ _) Se r Hr) as S. unfold zero_on in S. lia.
  - pose proof (proj1 (Forall_forall _ _) Si r Hr) as S. unfold nonneg_on in *. rewrite E in Hr. apply in_app_or in Hr. destruct Hr as [Hr|[<-|Hr]].
    + rewrite V. specialize (NP r ltac:(apply in_or_app; auto)). nia.
    + lia.
    + rewrite V. specialize (NP r ltac:(apply in_or_app; auto)). nia.
Qed.
Lemma set_eq_pres b d i : good b -> (d < ndiv b)%nat -> free_of b d -> (i < length (b_ineq b))%nat -> icoef b d i = 1 -> length (filter (fun r => 0 <? nth (dpos b d) r 0) (b_ineq b)) = 1%nat ->
  pres b (inequality_to_equality b i).
Proof.
  intros G Hd Fr Hi Ci Np. pose proof G as ((We & Wi & _) & _). destruct (good_int b d G Hd) as [RF EF]. destruct (split_nth (b_ineq b) i Hi) as (a & c & E & La).
  assert (P : Permutation (drop_swap (b_ineq b) i) (a ++ c)) by (pose proof (drop_swap_perm a c (nth i (b_ineq b) [])) as X; rewrite <- E, La in X; exact X).
  assert (Q : Permutation (b_ineq b) (nth i (b_ineq b) [] :: drop_swap (b_ineq b) i)) by (rewrite P; rewrite E at 1; symmetry; apply Permutation_middle).
  assert (I : forall r, In r (drop_swap (b_ineq b) i) -> In r (b_ineq b)) by (intros r Hr; eapply Permutation_in; [symmetry; exact Q|right; exact Hr]).
  change (inequality_to_equality b i) with (set_nd (set_ineq (set_eq b (nth i (b_ineq b) [] :: b_eq b)) (drop_swap (b_ineq b) i)) false). apply restrict_pres; auto.
  - constructor; [apply rows_nth; assumption|exact We].
  - apply Forall_forall. intros r Hr. apply (proj1 (Forall_forall _ _) Wi). apply I. exact Hr.
  - intros v Hv [S1 S2]. inversion S1 as [|? ? Z1 Z2]. split; [exact Z2|]. eapply Permutation_Forall; [symmetry; exact Q|]. constructor; [unfold nonneg_on, zero_on in *; lia|exact S2].
  - intros v Lv Hv S. destruct (lowest b d i v G Hd Fr Hi ltac:(lia) Np Lv S) as (t & [T1 T2] & T3). exists (zupd v (dpos b d) t). split; [rewrite zupd_length; exact Lv|]. split; [apply SimpShift.firstn_zupd; unfold dpos; lia|]. rewrite Ci in T3.
    split; [constructor; [unfold zero_on; lia|exact T1]|]. apply Forall_forall. intros r Hr. apply (proj1 (Forall_forall _ _) T2). apply I. exact Hr.
Qed.

(** ** a constant lower bound *)
Definition cst_inv (b : bmap) (d i : nat) (lower upper : option nat) : Prop :=
  (forall k, lower = Some k -> (k < length (b_ineq b))%nat /\ icoef b d k = 0 /\ is_parallel_except b i k (dpos b d) = true) /\
  (forall k, upper = Some k -> (k < length (b_ineq b))%nat /\ icoef b d k = 0 /\ is_opposite_except b i k (dpos b d) = true).
Lemma cst_loop_ok b d i : forall n j lo up lo' up', (j + n = length (b_ineq b))%nat -> cst_inv b d i lo up -> cst_loop n b d i j lo up = (lo', up') -> cst_inv b d i lo' up'.
Proof.
  induction n as [|n IH]; intros j lo up lo' up' Hj I; cbn [cst_loop]; [intros [= <- <-]; exact I|].
  assert (K : (if Nat.eqb j i then cst_loop n b d i (S j) lo up
      else if negb (icoef b d j =? 0) then cst_loop n b d i (S j) lo up
      else if (match lo with None => true | Some _ => false end) && is_parallel_except b i j (dpos b d) then cst_loop n b d i (S j) (Some j) up
      else if (match up with None => true | Some _ => false end) && is_opposite_except b i j (dpos b d) then cst_loop n b d i (S j) lo (Some j)
      else cst_loop n b d i (S j) lo up) = (lo', up') -> cst_inv b d i lo' up').
  { destruct (Nat.eqb j i); [apply IH; [lia|exact I]|]. destruct (Z.eqb_spec (icoef b d j) 0) as [Z|Z]; cbn [negb]; [|apply IH; [lia|exact I]]. destruct I as [I1 I2].
    destruct (_ && is_parallel_except _ _ _ _) eqn:E1; [apply andb_true_iff in E1 as [_ E1]; apply IH; [lia|]; split; [|exact I2]; intros k [= <-]; repeat split; [lia|exact Z|exact E1]|].
    destruct (_ && is_opposite_except _ _ _ _) eqn:E2; [apply andb_true_iff in E2 as [_ E2]; apply IH; [lia|]; split; [exact I1|]; intros k [= <-]; repeat split; [lia|exact Z|exact E2]|].
    apply IH; [lia|split; assumption]. }
  destruct lo, up; try exact K. intros [= <- <-]. exact I.
Qed.
(** the value of a row without its constant term and one of the coefficients *)
Lemma dot_except r v pos : hd 0 v = 1 -> length r = length v -> (1 <= pos < length r)%nat ->
  dot r v = hd 0 r + nth pos r 0 * nth pos v 0 + dot (firstn (pos - 1) (skipn 1 r)) (firstn (pos - 1) (skipn 1 v)) + dot (skipn (pos + 1) r) (skipn (pos + 1) v).
Proof.
  intros Hv L Hp. destruct r as [|x r]; [cbn in Hp; lia|]. destruct v as [|y v]; [discriminate Hv|]. cbn [hd] in Hv. subst y. destruct pos as [|p]; [lia|]. cbn [length] in *. replace (S p - 1)%nat with p by lia. replace (S p + 1)%nat with (S (S p)) by lia. cbn [hd nth skipn].
  change (dot (x :: r) (1 :: v)) with (x * 1 + dot r v). assert (K : forall p (r v : list Z), length r = length v -> (p < length r)%nat -> dot r v = nth p r 0 * nth p v 0 + dot (firstn p r) (firstn p v) + dot (skipn (S p) r) (skipn (S p) v)).
  { clear. induction p as [|p IH]; intros [|x r] [|y v] L H; cbn [length] in *; try lia; change (dot (x :: r) (y :: v)) with (x * y + dot r v).
    - cbn [nth firstn skipn]. change (dot [] []) with 0. lia.
    - rewrite (IH r v) by lia. cbn [nth firstn skipn]. change (dot (x :: firstn p r) (y :: firstn p v)) with (x * y + dot (firstn p r) (firstn p v)). lia. }
  rewrite (K p r v) by lia. change (match r with [] => [] | _ :: l => skipn p l end) with (skipn (S p) r). change (match v with [] => [] | _ :: l => skipn p l end) with (skipn (S p) v). lia.
Qed.
Lemma cdiv_bounds a n : 0 < n -> n * (cdiv_q a n) - n < a <= n * cdiv_q a n.
Proof. intros H. unfold cdiv_q. pose proof (Z.div_mod (- a) n ltac:(lia)). pose proof (Z.mod_pos_bound (- a) n H). lia. Qed.
Lemma fix_value b d i lo v : good b -> (d < ndiv b)%nat -> free_of b d -> (i < length (b_ineq b))%nat -> 0 < icoef b d i -> length (filter (fun r => 0 <? nth (dpos b d) r 0) (b_ineq b)) = 1%nat ->
  lower_bound_is_cst b d i = Some lo -> length v = (1 + total b)%nat -> hd 0 v = 1 -> system (b_eq b) (b_ineq b) v ->
  let w := zupd v (dpos b d) (lower_bound_from_parallel b i lo (dpos b d)) in system (b_eq b) (b_ineq b) w.
Proof.
  intros G Hd Fr Hi Ci Np HL Lv Hv S. assert (TT : total b = (nvar b + ndiv b)%nat) by reflexivity. pose proof G as ((_ & Wi & _) & _). destruct (lowest b d i v G Hd Fr Hi Ci Np Lv S) as (t & T1 & T2). cbn zeta in *.
  unfold lower_bound_is_cst in HL. destruct (cst_loop _ _ _ _ _ _ _) as [lo' up'] eqn:EL. apply cst_loop_ok in EL; [|lia|split; intros k X; discriminate X]. destruct lo' as [lo'|]; [|discriminate HL]. destruct up' as [up|]; [|discriminate HL].
  destruct (Z.eqb_spec (lower_bound_from_parallel b i lo' (dpos b d)) (lower_bound_from_opposite b i up (dpos b d))) as [EQ|]; [|discriminate HL]. injection HL as ->. destruct EL as [I1 I2].
  destruct (I1 lo eq_refl) as (Hlo & Zlo & PA). destruct (I2 up eq_refl) as (Hup & Zup & OP). clear I1 I2. unfold icoef, lower_bound_from_parallel, lower_bound_from_opposite in *. set (p := dpos b d) in *. assert (Hp : (1 <= p < 1 + total b)%nat) by (unfold p, dpos; lia).
  set (ri := nth i (b_ineq b) []) in *. set (rl := nth lo (b_ineq b) []) in *. set (ru := nth up (b_ineq b) []) in *. pose proof (rows_nth _ _ i Wi Hi : length ri = _) as Li. pose proof (rows_nth _ _ lo Wi Hlo : length rl = _) as Ll. pose proof (rows_nth _ _ up Wi Hup : length ru = _) as Lu.
  assert (LF : forall r r' : list Z, length r = (1 + total b)%nat -> length r' = (1 + total b)%nat -> length (firstn (p - 1) (skipn 1 r)) = length (firstn (p - 1) (skipn 1 r')) /\ length (skipn (p + 1) r) = length (skipn (p + 1) r')) by (intros r r' A B; rewrite !firstn_length, !skipn_length; lia).
  unfold is_parallel_except, is_opposite_except in PA, OP. fold ri rl ru in PA, OP. apply andb_true_iff in PA as [PA1 PA2]. apply andb_true_iff in OP as [OP1 OP2].
  apply seq_eq_ok in PA1; [|apply LF; assumption]. apply seq_eq_ok in PA2; [|apply LF; assumption]. apply seq_is_neg_ok in OP1; [|apply LF; assumption]. apply seq_is_neg_ok in OP2; [|apply LF; assumption].
  set (u := zupd v p t) in *. assert (Lu' : length u = (1 + total b)%nat) by (unfold u; rewrite zupd_length; exact Lv). assert (Hu : hd 0 u = 1) by (unfold u, p, dpos; cbn [Nat.add]; rewrite hd_zupd_S; exact Hv). assert (Nu : nth p u 0 = t) by (unfold u; rewrite BMapGauss2.nth_zupd, Nat.eqb_refl; destruct (Nat.ltb_spec p (length v)); [reflexivity|lia]).
  pose proof (dot_except ri u p Hu ltac:(lia) ltac:(lia)) as D1. pose proof (dot_except rl u p Hu ltac:(lia) ltac:(lia)) as D2. pose proof (dot_except ru u p Hu ltac:(lia) ltac:(lia)) as D3. rewrite <- PA1, <- PA2, Zlo in D2. rewrite Zup in D3. rewrite OP1, OP2, !dot_opp in D1. rewrite OP1, OP2, !dot_opp in D2. rewrite Nu in *.
  pose proof (proj1 (Forall_nth_iff _ _ []) (proj2 T1) lo Hlo) as S2. pose proof (proj1 (Forall_nth_iff _ _ []) (proj2 T1) up Hup) as S3. unfold nonneg_on in S2, S3. fold rl in S2. fold ru in S3. set (n := nth p ri 0) in *.
  pose proof (cdiv_bounds (- hd 0 ri + hd 0 rl) n Ci) as B1. pose proof (cdiv_bounds (- hd 0 ri - hd 0 ru) n Ci) as B2. rewrite <- EQ in B2. set (c := cdiv_q (- hd 0 ri + hd 0 rl) n) in *.
  assert (TC : t = c). { set (F := dot (firstn (p - 1) (skipn 1 ru)) (firstn (p - 1) (skipn 1 u)) + dot (skipn (p + 1) ru) (skipn (p + 1) u)) in *. assert (c - 1 < t) by nia. assert (t < c + 1) by nia. lia. }
  rewrite <- TC. exact T1.
Qed.
(** ** the definition of a local variable, an empty basic map *)
Lemma kept_pres b b' : good b -> b_empty b = false -> kept b b' -> pres b b'.
Proof.
  intros G EF (K1 & K2 & K3 & K4 & K5 & K6). pose proof G as (W & A & D & I & R & B). apply pres_same; auto.
  - intros v Lv [Hv _]. apply K5. exact Hv.
  - intros X. congruence.
Qed.
(** ** the EMPTY flag *)
Lemma lift_same b (f : bmap -> bmap) : (forall x, f (flagged x) = flagged (f x)) -> proper b -> ordered b -> (good (unmark b) -> ordered (unmark b) -> pres (unmark b) (f (unmark b)) /\ ordered (f (unmark b))) -> same b (f b) /\ ordered (f b).
Proof.
  intros C P O H. destruct (H (proper_unmark b P) O) as [H1 H2]. destruct (b_empty b) eqn:E.
  - rewrite (flagged_unmark b E) at 2 3. rewrite C. split; [apply flagged_same; assumption|exact H2].
  - assert (U : unmark b = b) by (unfold unmark; rewrite <- E; destruct b; reflexivity). rewrite U in *. split; [apply pres_same_points; [apply P|exact H1]|exact H2].
Qed.
