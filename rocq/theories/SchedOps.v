(* Proofs about the transformations of schedule trees. *)
From Coq Require Import ZArith List Bool Lia Arith.
From Verif Require Import SchedModel SchedSpec SchedProofs.
Import ListNotations.
Local Open Scope Z_scope.

Section Ops.
Context {I : Type}.
Implicit Types (t s c : tree I) (i j : I) (r : root I) (m : list (upa I)).

Lemma wf_one_inv : forall r a cs, wf (Node r a cs) -> r <> RSequence -> r <> RSet ->
  band_ok r /\ (length cs <= 1)%nat.
Proof. intros r a cs W N1 N2. inversion W; subst; [auto | tauto]. Qed.

Lemma kid_one : forall r (cs : list (tree I)), r <> RSequence -> r <> RSet ->
  exists c, kid r cs 0 = Some c.
Proof.
  intros r [|c cs] N1 N2.
  - exists Leaf. destruct r; try reflexivity; contradiction.
  - exists c. apply kid_of_nth. reflexivity.
Qed.

Lemma one_iff : forall i r a cs c tr,
  kid r cs 0 = Some c -> r <> RSequence -> r <> RSet ->
  (trace i (Node r a cs) tr <-> exists pre u, part i r pre /\ trace i c u /\ tr = pre ++ u).
Proof. intros. apply trace_one_iff; assumption. Qed.

(* ----------------------------------------------------------------- inserting *)

Lemma tree_insert_trace : forall s r s', r <> RSequence -> r <> RSet ->
  tree_insert s r = Some s' ->
  s' <> Leaf /\
  forall i tr, trace i s' tr <-> exists pre u, part i r pre /\ trace i s u /\ tr = pre ++ u.
Proof.
  intros s r s' N1 N2 H. unfold tree_insert, from_root, replace_child in H.
  destruct s as [|r0 a0 cs0].
  - injection H as <-. split; [discriminate|]. intros i tr. apply trace_one_iff; auto.
    destruct r; try reflexivity; contradiction.
  - injection H as <-. split; [discriminate|]. intros i tr.
    apply trace_one_iff; auto. apply kid_of_nth. reflexivity.
Qed.

(* Nodes that leave no trace. *)

Lemma silent_part : forall r i pre, silent r -> (part i r pre <-> pre = []).
Proof.
  intros r i pre S. split.
  - intros P. inversion P; subst; simpl in S; tauto.
  - intros ->. destruct r; simpl in S; try tauto; constructor.
Qed.

Lemma silent_one : forall r, silent r -> r <> RSequence /\ r <> RSet.
Proof. intros [] S; simpl in S; try tauto; split; discriminate. Qed.

Lemma insert_silent : forall s r s', silent r -> tree_insert s r = Some s' ->
  s' <> Leaf /\ same_traces s s'.
Proof.
  intros s r s' S H. destruct (silent_one r S) as [N1 N2].
  destruct (tree_insert_trace _ _ _ N1 N2 H) as [NL T]. split; [exact NL|].
  intros i tr. rewrite T. split.
  - intros X. exists [], tr. split; [apply silent_part; auto | auto].
  - intros (pre & u & P & X & ->). apply silent_part in P; [|exact S]. subst. exact X.
Qed.

Lemma node_insert_order : forall t p r t', wf t -> silent r ->
  node_insert t p r = Some t' -> same_order t t'.
Proof.
  intros t p r t' W S H. unfold node_insert in H.
  destruct (subtree t p) as [s|] eqn:E; [|discriminate].
  destruct (negb (check_insert t p)); [discriminate|].
  destruct (tree_insert s r) as [s'|] eqn:TI; [|discriminate].
  destruct (insert_silent _ _ _ S TI) as [NL ST].
  destruct (graft_ok _ _ _ _ W H (or_introl NL)) as (s0 & E0 & Ws & A & A' & SO).
  assert (s0 = s) by congruence. subst s0.
  eapply outside_order; eauto. apply same_traces_order, ST.
Qed.

Lemma insert_filter_trace : forall s f s', wf s -> insert_filter s f = Some s' ->
  s' <> Leaf /\ forall i tr, trace i s' tr <-> f i = true /\ trace i s tr.
Proof.
  intros s f s' W H.
  assert (GEN : tree_insert s (RFilter f) = Some s' ->
          s' <> Leaf /\ forall i tr, trace i s' tr <-> f i = true /\ trace i s tr).
  { intros TI. destruct (tree_insert_trace _ (RFilter f) _ ltac:(discriminate) ltac:(discriminate) TI) as [NL T].
    split; [exact NL|]. intros i tr. rewrite T. split.
    - intros (pre & u & P & X & ->). inversion P; subst. auto.
    - intros [F X]. exists [], tr. split; [constructor; exact F | auto]. }
  unfold insert_filter in H. destruct s as [|[b| |d|g| |id| |] a cs]; try (apply GEN; exact H).
  injection H as <-. split; [discriminate|]. intros i tr.
  destruct (kid_one (RFilter g) cs ltac:(discriminate) ltac:(discriminate)) as [c K].
  assert (K2 : kid (RFilter (uset_intersect g f)) cs 0 = Some c) by exact K.
  rewrite (one_iff i _ a cs c tr K2 ltac:(discriminate) ltac:(discriminate)).
  rewrite (one_iff i _ a cs c tr K ltac:(discriminate) ltac:(discriminate)).
  split.
  - intros (pre & u & P & X & ->). inversion P as [| | |f0 F| |]; subst.
    unfold uset_intersect in F. apply andb_true_iff in F. destruct F as [F1 F2].
    split; [exact F2|]. exists [], u. split; [constructor; exact F1 | auto].
  - intros (F & pre & u & P & X & ->). inversion P as [| | |f0 F1| |]; subst.
    exists [], u. split; [constructor; unfold uset_intersect; rewrite F1, F; reflexivity | auto].
Qed.

Lemma node_insert_filter_ok : forall t p f t', wf t ->
  node_insert_filter t p f = Some t' ->
  exists s s', at_pos t p s /\ at_pos t' p s' /\ same_outside p t t' /\
    (forall i, execs s' i <-> f i = true /\ execs s i) /\
    (forall i j, before s' i j <-> f i = true /\ f j = true /\ before s i j).
Proof.
  intros t p f t' W H. unfold node_insert_filter in H.
  destruct (subtree t p) as [s|] eqn:E; [|discriminate].
  destruct (negb (check_insert t p)); [discriminate|].
  destruct (insert_filter s f) as [s'|] eqn:TI; [|discriminate].
  assert (NL : s' <> Leaf).
  { unfold insert_filter in TI.
    destruct s as [|[b| |d|g| |id| |] a cs]; try (injection TI as <-; discriminate);
      unfold tree_insert, replace_child in TI; simpl in TI; injection TI as <-; discriminate. }
  destruct (graft_ok _ _ _ _ W H (or_introl NL)) as (s0 & E0 & Ws & A & A' & SO).
  assert (s0 = s) by congruence. subst s0.
  destruct (insert_filter_trace _ _ _ Ws TI) as [_ T].
  exists s, s'. split; [exact A|]. split; [exact A'|]. split; [exact SO|]. split.
  - intros i. split.
    + intros [tr X]. apply T in X. destruct X as [F X]. split; [exact F | exists tr; exact X].
    + intros [F [tr X]]. exists tr. apply T. auto.
  - intros i j. split.
    + intros (u & v & X & Y & L). apply T in X. apply T in Y. destruct X, Y.
      split; [assumption|]. split; [assumption|]. exists u, v. auto.
    + intros (F & G & u & v & X & Y & L). exists u, v. split; [apply T; auto|]. split; [apply T; auto | exact L].
Qed.

Lemma vlen : forall i j m x y, values i m x -> values j m y ->
  length (map Ord x) = length (map Ord y).
Proof.
  intros i j m x y H H'. rewrite !map_length.
  rewrite (values_length _ _ _ H), (values_length _ _ _ H'). reflexivity.
Qed.

(* The order of a band over its child. *)
Lemma band_before : forall b a cs c i j, kid (RBand b) cs 0 = Some c ->
  (before (Node (RBand b) a cs) i j <->
   exists x y, values i (b_mupa b) x /\ values j (b_mupa b) y /\
     execs c i /\ execs c j /\
     (lexlt x y \/ (x = y /\ before c i j))).
Proof.
  intros b a cs c i j K. split.
  - intros (u & v & X & Y & L).
    rewrite (one_iff _ _ a cs c _ K ltac:(discriminate) ltac:(discriminate)) in X.
    rewrite (one_iff _ _ a cs c _ K ltac:(discriminate) ltac:(discriminate)) in Y.
    destruct X as (p & u' & P & X & ->). destruct Y as (q & v' & Q & Y & ->).
    inversion P as [b0 x Vx| | | | |]; subst. inversion Q as [b0 y Vy| | | | |]; subst.
    exists x, y. split; [exact Vx|]. split; [exact Vy|].
    split; [exists u'; exact X|]. split; [exists v'; exact Y|].
    apply tlt_app in L; [|eapply vlen; eassumption].
    destruct L as [L | [E L]]; [left; apply tlt_lex; exact L|].
    right. split; [apply map_ord_inj, E|]. exists u', v'. auto.
  - intros (x & y & Vx & Vy & [u X] & [v Y] & L).
    destruct L as [L | [-> (u' & v' & X' & Y' & L)]].
    + exists (map Ord x ++ u), (map Ord y ++ v).
      split; [econstructor; eauto; constructor; assumption|].
      split; [econstructor; eauto; constructor; assumption|].
      apply tlt_app; [eapply vlen; eassumption|]. left. apply tlt_lex, L.
    + exists (map Ord y ++ u'), (map Ord y ++ v').
      split; [econstructor; eauto; constructor; assumption|].
      split; [econstructor; eauto; constructor; assumption|].
      apply tlt_app; auto.
Qed.

Lemma band_execs : forall b a cs c i, kid (RBand b) cs 0 = Some c ->
  (execs (Node (RBand b) a cs) i <-> (exists x, values i (b_mupa b) x) /\ execs c i).
Proof.
  intros b a cs c i K. split.
  - intros [u X]. rewrite (one_iff _ _ a cs c _ K ltac:(discriminate) ltac:(discriminate)) in X.
    destruct X as (p & u' & P & X & ->). inversion P as [b0 x Vx| | | | |]; subst.
    split; [exists x; exact Vx | exists u'; exact X].
  - intros [[x V] [u X]]. exists (map Ord x ++ u). econstructor; eauto. constructor; assumption.
Qed.

Lemma node_insert_band_ok : forall t p m t', wf t ->
  node_insert_partial_schedule t p m = Some t' ->
  exists s s', at_pos t p s /\ at_pos t' p s' /\ same_outside p t t' /\
    (forall i, execs s' i <-> (exists x, values i m x) /\ execs s i) /\
    (forall i j, before s' i j <->
       exists x y, values i m x /\ values j m y /\ execs s i /\ execs s j /\
         (lexlt x y \/ (x = y /\ before s i j))).
Proof.
  intros t p m t' W H. unfold node_insert_partial_schedule in H.
  destruct (subtree t p) as [s|] eqn:E; [|discriminate].
  destruct (negb (check_insert t p)); [discriminate|].
  destruct (anchored s) eqn:An; [discriminate|].
  destruct (tree_insert s (RBand (band_from_mupa m))) as [s'|] eqn:TI; [|discriminate].
  assert (X : exists a cs, s' = Node (RBand (band_from_mupa m)) a cs /\
             kid (RBand (band_from_mupa m)) cs 0 = Some s).
  { unfold tree_insert, from_root, replace_child in TI. destruct s; injection TI as <-.
    - exists false, []. auto.
    - eexists _, _. split; reflexivity. }
  destruct X as (a & cs & -> & K).
  assert (NL : Node (RBand (band_from_mupa m)) a cs <> Leaf) by discriminate.
  destruct (graft_ok _ _ _ _ W H (or_introl NL)) as (s0 & E0 & Ws & A & A' & SO).
  assert (s0 = s) by congruence. subst s0.
  exists s. eexists. split; [exact A|]. split; [exact A'|]. split; [exact SO|]. split.
  - intros i. rewrite (band_execs _ _ _ _ _ K). reflexivity.
  - intros i j. rewrite (band_before _ _ _ _ _ _ K). reflexivity.
Qed.

(* ----------------------------------------------------------------- splitting *)

(* The first of the children is replaced. *)
Lemma replace_first' : forall r r' a cs c' s', wf (Node r a cs) ->
  replace_child (Node r' a cs) 0 c' = Some s' ->
  r <> RSequence -> r <> RSet -> c' <> Leaf ->
  exists a', s' = Node r' a' [c'].
Proof.
  intros r r' a cs c' s' W H N1 N2 NL. destruct (wf_one_inv _ _ _ W N1 N2) as [_ L].
  unfold replace_child in H. destruct c'; [congruence|].
  destruct cs as [|x [|y cs]]; simpl in L; try lia; simpl in H; injection H as <-; eauto.
Qed.

Lemma band_drop_mupa : forall (b b' : band I) pos n, band_drop b pos n = Some b' ->
  b_mupa b' = firstn (Z.to_nat pos) (b_mupa b) ++ skipn (Z.to_nat pos + Z.to_nat n) (b_mupa b) /\
  0 <= pos /\ 0 <= n /\ pos + n <= Z.of_nat (b_n b).
Proof.
  intros b b' pos n H. unfold band_drop in H.
  destruct ((pos <? 0) || (n <? 0) || (pos + n >? Z.of_nat (b_n b))) eqn:E; [discriminate|].
  injection H as <-. simpl. split; [reflexivity|].
  apply orb_false_iff in E. destruct E as [E E3]. apply orb_false_iff in E. destruct E as [E1 E2]. lia.
Qed.

Lemma split_traces : forall s pos s', wf s -> tree_band_split s pos = Some s' ->
  s' <> Leaf /\ same_traces s s'.
Proof.
  intros s pos s' W H. unfold tree_band_split in H.
  destruct s as [|[b| | | | | | |] a cs]; try discriminate.
  destruct ((pos <? 0) || (pos >? Z.of_nat (b_n b))) eqn:E; [discriminate|].
  apply orb_false_iff in E. destruct E as [E1 E2].
  destruct (band_drop b 0 pos) as [cb|] eqn:D1; [|discriminate].
  destruct (band_drop b pos (Z.of_nat (b_n b) - pos)) as [tb|] eqn:D2; [|discriminate].
  apply band_drop_mupa in D1. destruct D1 as [M1 B1].
  apply band_drop_mupa in D2. destruct D2 as [M2 B2].
  destruct (wf_one_inv _ _ _ W ltac:(discriminate) ltac:(discriminate)) as [OK L].
  destruct (OK b eq_refl) as [OK1 OK2].
  destruct (replace_first' _ _ _ _ _ _ W H ltac:(discriminate) ltac:(discriminate) ltac:(discriminate)) as [a' ->].
  split; [discriminate|].
  simpl in M1.
  assert (M2' : b_mupa tb = firstn (Z.to_nat pos) (b_mupa b)).
  { rewrite M2. rewrite (skipn_all2 (n := (Z.to_nat pos + Z.to_nat (Z.of_nat (b_n b) - pos)))); [apply app_nil_r|].
    rewrite OK1. lia. }
  assert (MM : b_mupa tb ++ b_mupa cb = b_mupa b) by (rewrite M1, M2'; apply firstn_skipn).
  destruct (kid_one (RBand b) cs ltac:(discriminate) ltac:(discriminate)) as [c K].
  assert (Kc : kid (RBand cb) cs 0 = Some c) by exact K.
  intros i tr.
  rewrite (one_iff _ _ a cs c _ K ltac:(discriminate) ltac:(discriminate)).
  rewrite (one_iff _ (RBand tb) a' [Node (RBand cb) a cs] _ _ eq_refl ltac:(discriminate) ltac:(discriminate)).
  split.
  - intros (pre & u & P & X & ->). inversion P as [b0 x V| | | | |]; subst.
    rewrite <- MM in V. apply values_app in V. destruct V as (x1 & x2 & V1 & V2 & ->).
    exists (map Ord x1), (map Ord x2 ++ u). split; [constructor; exact V1|].
    split; [econstructor; eauto; constructor; exact V2|].
    rewrite map_app, app_assoc. reflexivity.
  - intros (pre & u & P & X & ->). inversion P as [b0 x1 V1| | | | |]; subst.
    rewrite (one_iff _ _ a cs c _ Kc ltac:(discriminate) ltac:(discriminate)) in X.
    destruct X as (pre2 & u' & P2 & X & ->). inversion P2 as [b0 x2 V2| | | | |]; subst.
    exists (map Ord (x1 ++ x2)), u'. split; [constructor; rewrite <- MM; apply values_app; eauto|].
    split; [exact X|]. rewrite map_app, app_assoc. reflexivity.
Qed.

Lemma node_split_order : forall t p pos t', wf t -> node_band_split t p pos = Some t' ->
  same_order t t'.
Proof.
  intros t p pos t' W H. unfold node_band_split in H.
  destruct (subtree t p) as [s|] eqn:E; [|discriminate].
  destruct (tree_band_split s pos) as [s'|] eqn:TS; [|discriminate].
  assert (NL : s' <> Leaf).
  { unfold tree_band_split in TS. destruct s as [|[b| | | | | | |] a cs]; try discriminate.
    destruct ((pos <? 0) || (pos >? Z.of_nat (b_n b))); [discriminate|].
    destruct (band_drop b 0 pos); [|discriminate].
    destruct (band_drop b pos (Z.of_nat (b_n b) - pos)); [|discriminate].
    destruct cs; simpl in TS; injection TS as <-; discriminate. }
  destruct (graft_ok _ _ _ _ W H (or_introl NL)) as (s0 & E0 & Ws & A & A' & SO).
  assert (s0 = s) by congruence. subst s0.
  eapply outside_order; eauto. apply same_traces_order. eapply split_traces; eauto.
Qed.

(* The coincident flags are split over the bands. *)
Lemma shift_down_spec : forall (cnt i n : nat) (l : list bool), (n <= i)%nat -> (i + cnt <= length l)%nat ->
  forall k, (k < cnt)%nat ->
    nth (i - n + k) (shift_down cnt i n l) false = nth (i + k) l false.
Proof.
  induction cnt as [|cnt IH]; intros i n l Ni L k Hk; [lia|]. simpl.
  assert (PRE : forall (cnt i n : nat) (l : list bool) (k : nat), (k < i - n)%nat ->
             nth k (shift_down cnt i n l) false = nth k l false).
  { clear. induction cnt as [|cnt IH]; intros i n l k Hk; [reflexivity|]. simpl.
    rewrite IH by lia.
    assert (X : forall l k k' (x : bool), k' <> k -> nth k' (upd k x l) false = nth k' l false).
    { clear. induction l as [|y l IH]; intros [|k] [|k'] x H; simpl; try reflexivity; try congruence.
      apply IH. congruence. }
    apply X. lia. }
  assert (SAME : forall (l : list bool) k x, (k < length l)%nat -> nth k (upd k x l) false = x).
  { clear. induction l as [|y l IH]; intros [|k] x H; simpl in *; try lia; auto. apply IH. lia. }
  assert (OTH : forall l k k' (x : bool), k' <> k -> nth k' (upd k x l) false = nth k' l false).
  { clear. induction l as [|y l IH]; intros [|k] [|k'] x H; simpl; try reflexivity; try congruence.
    apply IH. congruence. }
  destruct k as [|k].
  - rewrite PRE by lia. rewrite !Nat.add_0_r. apply SAME. lia.
  - destruct (Nat.eq_dec n 0) as [-> | Hn].
    + replace (i - 0 + S k)%nat with (S i - 0 + k)%nat by lia.
      rewrite IH by (try rewrite upd_length; lia).
      replace (S i + k)%nat with (i + S k)%nat by lia. apply OTH. lia.
    + replace (i - n + S k)%nat with (S i - n + k)%nat by lia.
      rewrite IH by (try rewrite upd_length; lia).
      replace (S i + k)%nat with (i + S k)%nat by lia. apply OTH. lia.
Qed.

(* ------------------------------------------------------------------- tiling *)

Definition tl1 (scale : bool) (z s : Z) : Z := if scale then z / s * s else z / s.
Definition pt1 (shift : bool) (z s : Z) : Z := if shift then z - z / s * s else z.

Lemma mupa_tile_values : forall scale m sizes m', mupa_tile scale m sizes = Some m' ->
  length sizes = length m ->
  Forall (fun z => 0 < z) sizes /\ length m' = length m /\
  forall i x, values i m' x <-> exists z, values i m z /\ x = map2 (tl1 scale) z sizes.
Proof.
  induction m as [|u m IH]; intros [|v sizes] m' H L; simpl in L; try discriminate.
  - simpl in H. injection H as <-. split; [constructor|]. split; [reflexivity|].
    intros i x. split.
    + intros V. inversion V; subst. exists []. split; [constructor | reflexivity].
    + intros (z & V & ->). inversion V; subst. constructor.
  - simpl in H. destruct (upa_scale_down_floor u v) as [u'|] eqn:U; [|discriminate].
    destruct (mupa_tile scale m sizes) as [r|] eqn:R; [|discriminate]. injection H as <-.
    injection L as L. destruct (IH _ _ R L) as (F & LL & IHv).
    assert (UV : 0 < v /\ forall i, u' i = option_map (fun x => x / v) (u i)).
    { unfold upa_scale_down_floor in U. destruct (v =? 1) eqn:E1.
      - apply Z.eqb_eq in E1. subst v. injection U as <-. split; [lia|]. intros i.
        destruct (u i); simpl; [rewrite Z.div_1_r|]; reflexivity.
      - destruct (v <=? 0) eqn:E2; [discriminate|]. injection U as <-. split; [lia|]. reflexivity. }
    destruct UV as [Pv UV].
    split; [constructor; assumption|]. split; [simpl; congruence|].
    assert (W : forall i, (if scale then upa_scale u' v else u') i = option_map (fun z => tl1 scale z v) (u i)).
    { intros i. unfold tl1. destruct scale; [unfold upa_scale|]; rewrite UV; destruct (u i); reflexivity. }
    intros i x. split.
    + intros V. inversion V as [|u0 m0 x0 l Hx Vl]; subst. rewrite W in Hx.
      destruct (u i) as [z0|] eqn:Ui; [|discriminate]. simpl in Hx. injection Hx as <-.
      apply IHv in Vl. destruct Vl as (z & Vz & ->). exists (z0 :: z).
      split; [constructor; assumption | reflexivity].
    + intros (z & V & ->). inversion V as [|u0 m0 z0 l Hz Vl]; subst. simpl.
      constructor; [rewrite W, Hz; reflexivity|]. apply IHv. eauto.
Qed.

Lemma map2_scale_values : forall m sizes i x, length sizes = length m ->
  (values i (map2 upa_scale m sizes) x <->
   exists z, values i m z /\ x = map2 Z.mul z sizes).
Proof.
  induction m as [|u m IH]; intros [|v sizes] i x L; simpl in L; try discriminate; simpl.
  - split.
    + intros V. inversion V; subst. exists []. split; [constructor | reflexivity].
    + intros (z & V & ->). inversion V; subst. constructor.
  - injection L as L. split.
    + intros V. inversion V as [|u0 m0 x0 l Hx Vl]; subst. unfold upa_scale in Hx.
      destruct (u i) as [z0|] eqn:Ui; [|discriminate]. simpl in Hx. injection Hx as <-.
      apply IH in Vl; [|exact L]. destruct Vl as (z & Vz & ->). exists (z0 :: z).
      split; [constructor; assumption | reflexivity].
    + intros (z & V & ->). inversion V as [|u0 m0 z0 l Hz Vl]; subst. simpl.
      constructor; [unfold upa_scale; rewrite Hz; reflexivity|]. apply IH; eauto.
Qed.

Lemma map2_op_values : forall op m m2 i x, length m2 = length m ->
  (values i (map2 (upa_op op) m m2) x <->
   exists y z, values i m y /\ values i m2 z /\ x = map2 op y z).
Proof.
  induction m as [|u m IH]; intros [|v m2] i x L; simpl in L; try discriminate; simpl.
  - split.
    + intros V. inversion V; subst. exists [], []. repeat split; constructor.
    + intros (y & z & V & V2 & ->). inversion V; subst. constructor.
  - injection L as L. split.
    + intros V. inversion V as [|u0 m0 x0 l Hx Vl]; subst. unfold upa_op in Hx.
      destruct (u i) as [y0|] eqn:Ui; [|discriminate]. destruct (v i) as [z0|] eqn:Vi; [|discriminate].
      injection Hx as <-. apply IH in Vl; [|exact L]. destruct Vl as (y & z & Vy & Vz & ->).
      exists (y0 :: y), (z0 :: z). split; [constructor; assumption|]. split; [constructor; assumption | reflexivity].
    + intros (y & z & V & V2 & ->). inversion V as [|u0 m0 y0 l Hy Vl]; subst.
      inversion V2 as [|u0 m0 z0 l2 Hz Vl2]; subst. simpl.
      constructor; [unfold upa_op; rewrite Hy, Hz; reflexivity|]. apply IH; [exact L|]. eauto.
Qed.

Lemma map2_pt : forall scale shift z sizes, shift = true ->
  map2 Z.sub z (if negb scale then map2 Z.mul (map2 (tl1 scale) z sizes) sizes
                else map2 (tl1 scale) z sizes) = map2 (pt1 shift) z sizes.
Proof.
  intros scale shift z sizes ->. unfold tl1, pt1. destruct scale; simpl.
  - revert sizes. induction z as [|a z IH]; intros [|v sizes]; simpl; f_equal; auto.
  - revert sizes. induction z as [|a z IH]; intros [|v sizes]; simpl; f_equal; auto.
Qed.

Lemma map2_length : forall {A B C} (f : A -> B -> C) l l', length l' = length l ->
  length (map2 f l l') = length l.
Proof.
  intros A B C f. induction l as [|x l IH]; intros [|y l'] L; simpl in *; try discriminate; auto.
Qed.

Lemma point_values : forall shift scale (b tb : band I) sizes,
  band_tile scale b sizes = Some tb -> length sizes = length (b_mupa b) ->
  forall i x, values i (b_mupa (band_point shift scale b tb sizes)) x <->
    exists z, values i (b_mupa b) z /\ x = map2 (pt1 shift) z sizes.
Proof.
  intros shift scale b tb sizes H L i x. unfold band_tile in H.
  destruct (mupa_tile scale (b_mupa b) sizes) as [m'|] eqn:M; [|discriminate]. injection H as <-.
  destruct (mupa_tile_values _ _ _ _ M L) as (F & L' & V).
  unfold band_point. destruct shift; simpl.
  - rewrite map2_op_values.
    2:{ destruct scale; simpl; [exact L'|]. rewrite map2_length; congruence. }
    split.
    + intros (y & z & Vy & Vz & ->). exists y. split; [exact Vy|].
      rewrite <- (map2_pt scale true y sizes eq_refl). f_equal.
      destruct scale; simpl in *.
      * apply V in Vz. destruct Vz as (z0 & Vz0 & ->). rewrite (values_fun _ _ _ _ Vz0 Vy). reflexivity.
      * apply map2_scale_values in Vz; [|congruence]. destruct Vz as (z0 & Vz0 & ->).
        apply V in Vz0. destruct Vz0 as (z1 & Vz1 & ->). rewrite (values_fun _ _ _ _ Vz1 Vy). reflexivity.
    + intros (z & Vz & ->). exists z.
      eexists. split; [exact Vz|]. split; [|symmetry; apply (map2_pt scale true z sizes eq_refl)].
      destruct scale; simpl.
      * apply V. eauto.
      * apply map2_scale_values; [congruence|]. eexists. split; [apply V; eauto | reflexivity].
  - split.
    + intros Vx. exists x. split; [exact Vx|]. pose proof (values_length _ _ _ Vx) as Lx. rewrite <- Lx in L.
      clear - L. revert sizes L. induction x as [|a x IH]; intros [|v sizes] L; simpl in *; try discriminate; [reflexivity|].
      unfold pt1 at 1. f_equal. apply IH. congruence.
    + intros (z & Vz & ->). pose proof (values_length _ _ _ Vz) as Lx. rewrite <- Lx in L.
      replace (map2 (pt1 false) z sizes) with z; [exact Vz|].
      clear - L. revert sizes L. induction z as [|a x IH]; intros [|v sizes] L; simpl in *; try discriminate; [reflexivity|].
      unfold pt1 at 1. f_equal. apply IH. congruence.
Qed.

Lemma tile_cmp : forall scale sizes x y, Forall (fun z => 0 < z) sizes ->
  length x = length sizes -> length y = length sizes ->
  (map2 (tl1 scale) x sizes = map2 (tl1 scale) y sizes <-> tile_of sizes x = tile_of sizes y) /\
  (lexlt (map2 (tl1 scale) x sizes) (map2 (tl1 scale) y sizes) <->
   lexlt (tile_of sizes x) (tile_of sizes y)).
Proof.
  intros scale. induction sizes as [|s sizes IH]; intros x y F Lx Ly.
  - destruct x, y; try discriminate. simpl. split; [tauto|]. split; intros H; inversion H.
  - destruct x as [|a x], y as [|b y]; try discriminate.
    inversion F; subst. injection Lx as Lx. injection Ly as Ly.
    destruct (IH x y H2 Lx Ly) as [E L].
    unfold tile_of in *. cbn [map2 combine map fst snd].
    assert (EQ : tl1 scale a s = tl1 scale b s <-> a / s = b / s).
    { unfold tl1. destruct scale; [|tauto]. split; intros Q; [|congruence].
      apply Z.mul_reg_r in Q; [exact Q | lia]. }
    assert (LT : tl1 scale a s < tl1 scale b s <-> a / s < b / s).
    { unfold tl1. destruct scale; [|tauto]. symmetry. apply Z.mul_lt_mono_pos_r. assumption. }
    split.
    + split; intros Q; injection Q as Q1 Q2; f_equal; try (apply EQ; exact Q1); try (apply E; exact Q2).
    + split; intros Q; inversion Q; subst.
      * apply lex_here. apply LT. assumption.
      * match goal with Q1 : tl1 _ _ _ = tl1 _ _ _ |- _ => apply EQ in Q1; rewrite Q1 end.
        apply lex_next. apply L. assumption.
      * apply lex_here. apply LT. assumption.
      * match goal with Q1 : _ / _ = _ / _ |- _ => apply EQ in Q1; rewrite Q1 end.
        apply lex_next. apply L. assumption.
Qed.

Lemma point_cmp : forall shift sizes x y, Forall (fun z => 0 < z) sizes ->
  length x = length sizes -> length y = length sizes ->
  tile_of sizes x = tile_of sizes y ->
  (map2 (pt1 shift) x sizes = map2 (pt1 shift) y sizes <-> x = y) /\
  (lexlt (map2 (pt1 shift) x sizes) (map2 (pt1 shift) y sizes) <-> lexlt x y).
Proof.
  intros shift. induction sizes as [|s sizes IH]; intros x y F Lx Ly T.
  - destruct x, y; try discriminate. simpl. split; [tauto|]. split; intros H; inversion H.
  - destruct x as [|a x], y as [|b y]; try discriminate.
    inversion F; subst. injection Lx as Lx. injection Ly as Ly.
    unfold tile_of in T. cbn [combine map fst snd] in T. injection T as T0 T.
    destruct (IH x y H2 Lx Ly T) as [E L]. cbn [map2].
    assert (EQ : pt1 shift a s = pt1 shift b s <-> a = b).
    { unfold pt1. destruct shift; [|tauto]. rewrite T0. lia. }
    assert (LT : pt1 shift a s < pt1 shift b s <-> a < b).
    { unfold pt1. destruct shift; [|tauto]. rewrite T0. lia. }
    split.
    + split; intros Q; injection Q as Q1 Q2; f_equal; try (apply EQ; exact Q1); try (apply E; exact Q2).
    + split; intros Q; inversion Q; subst.
      * apply lex_here. apply LT. assumption.
      * match goal with Q1 : pt1 _ _ _ = pt1 _ _ _ |- _ => apply EQ in Q1; rewrite Q1 end.
        apply lex_next. apply L. assumption.
      * apply lex_here. apply LT. assumption.
      * apply lex_next. apply L. assumption.
Qed.

(* The documented order of a tiled band over its child. *)
Lemma tile_order : forall scale shift b a cs sizes s' c,
  wf (Node (RBand b) a cs) -> length sizes = b_n b -> kid (RBand b) cs 0 = Some c ->
  tree_band_tile scale shift (Node (RBand b) a cs) sizes = Some s' ->
  s' <> Leaf /\
  (forall i, execs s' i <-> execs (Node (RBand b) a cs) i) /\
  (forall i j, before s' i j <-> tiled (b_mupa b) sizes c i j).
Proof.
  intros scale shift b a cs sizes s' c W L K H. unfold tree_band_tile in H.
  destruct (band_tile scale b sizes) as [tb|] eqn:T; [|discriminate].
  destruct (wf_one_inv _ _ _ W ltac:(discriminate) ltac:(discriminate)) as [OK _].
  destruct (OK b eq_refl) as [OK1 _]. assert (L' : length sizes = length (b_mupa b)) by congruence.
  destruct (replace_first' _ _ _ _ _ _ W H ltac:(discriminate) ltac:(discriminate) ltac:(discriminate)) as [a' ->].
  set (pb := band_point shift scale b tb sizes) in *.
  pose proof (point_values shift scale b tb sizes T L') as PV. fold pb in PV.
  unfold band_tile in T. destruct (mupa_tile scale (b_mupa b) sizes) as [m'|] eqn:M; [|discriminate].
  injection T as <-. destruct (mupa_tile_values _ _ _ _ M L') as (F & Lm & TV).
  set (tb := mkband (b_n b) (b_coin b) m' (b_anch b)) in *.
  assert (K1 : kid (RBand tb) [Node (RBand pb) a cs] 0 = Some (Node (RBand pb) a cs)) by reflexivity.
  assert (K2 : kid (RBand pb) cs 0 = Some c) by exact K.
  split; [discriminate|]. split.
  - intros i. rewrite (band_execs _ _ _ _ _ K1), (band_execs _ _ _ _ _ K2), (band_execs _ _ _ _ _ K).
    split.
    + intros (_ & [x V] & E). split; [|exact E]. apply PV in V. destruct V as (z & V & _). eauto.
    + intros ([z V] & E). split; [eexists; apply TV; eauto|]. split; [|exact E]. eexists. apply PV. eauto.
  - intros i j. rewrite (band_before _ _ _ _ _ _ K1). unfold tiled. split.
    + intros (x & y & Vx & Vy & Ei & Ej & Lt). apply TV in Vx. destruct Vx as (x0 & Vx & ->).
      apply TV in Vy. destruct Vy as (y0 & Vy & ->).
      rewrite (band_execs _ _ _ _ _ K2) in Ei. rewrite (band_execs _ _ _ _ _ K2) in Ej.
      exists x0, y0. split; [exact Vx|]. split; [exact Vy|].
      split; [apply Ei|]. split; [apply Ej|].
      assert (Lx : length x0 = length sizes) by (rewrite (values_length _ _ _ Vx); congruence).
      assert (Ly : length y0 = length sizes) by (rewrite (values_length _ _ _ Vy); congruence).
      destruct (tile_cmp scale sizes x0 y0 F Lx Ly) as [TE TL].
      destruct Lt as [Lt | [Eq B]]; [left; apply TL, Lt|]. right.
      apply TE in Eq. split; [exact Eq|].
      destruct (point_cmp shift sizes x0 y0 F Lx Ly Eq) as [PE PL].
      rewrite (band_before _ _ _ _ _ _ K2) in B.
      destruct B as (p & q & Vp & Vq & _ & _ & Lt). apply PV in Vp. destruct Vp as (p0 & Vp & ->).
      apply PV in Vq. destruct Vq as (q0 & Vq & ->).
      rewrite (values_fun _ _ _ _ Vp Vx) in Lt. rewrite (values_fun _ _ _ _ Vq Vy) in Lt.
      rewrite PE, PL in Lt. exact Lt.
    + intros (x & y & Vx & Vy & Ei & Ej & Lt).
      assert (Lx : length x = length sizes) by (rewrite (values_length _ _ _ Vx); congruence).
      assert (Ly : length y = length sizes) by (rewrite (values_length _ _ _ Vy); congruence).
      destruct (tile_cmp scale sizes x y F Lx Ly) as [TE TL].
      exists (map2 (tl1 scale) x sizes), (map2 (tl1 scale) y sizes).
      split; [apply TV; eauto|]. split; [apply TV; eauto|].
      split; [rewrite (band_execs _ _ _ _ _ K2); split; [eexists; apply PV; eauto | exact Ei]|].
      split; [rewrite (band_execs _ _ _ _ _ K2); split; [eexists; apply PV; eauto | exact Ej]|].
      rewrite TE, TL. destruct Lt as [Lt | [Eq Lt]]; [auto|]. right. split; [exact Eq|].
      destruct (point_cmp shift sizes x y F Lx Ly Eq) as [PE PL].
      rewrite (band_before _ _ _ _ _ _ K2).
      exists (map2 (pt1 shift) x sizes), (map2 (pt1 shift) y sizes).
      split; [apply PV; eauto|]. split; [apply PV; eauto|]. split; [exact Ei|]. split; [exact Ej|].
      rewrite PE, PL. exact Lt.
Qed.

Lemma node_tile_ok : forall scale shift t p sizes t', wf t ->
  node_band_tile scale shift t p sizes = Some t' ->
  exists b a cs c s',
    at_pos t p (Node (RBand b) a cs) /\ kid (RBand b) cs 0 = Some c /\
    at_pos t' p s' /\ same_outside p t t' /\
    (forall i, execs s' i <-> execs (Node (RBand b) a cs) i) /\
    (forall i j, before s' i j <-> tiled (b_mupa b) sizes c i j).
Proof.
  intros scale shift t p sizes t' W H. unfold node_band_tile in H.
  destruct (subtree t p) as [s|] eqn:E; [|discriminate].
  destruct (anchored s); [discriminate|].
  destruct s as [|[b| | | | | | |] a cs]; try discriminate.
  destruct (length sizes =? b_n b)%nat eqn:L; [|discriminate]. cbn [negb] in H. apply Nat.eqb_eq in L.
  destruct (tree_band_tile scale shift (Node (RBand b) a cs) sizes) as [s'|] eqn:TT; [|discriminate].
  assert (NL : s' <> Leaf).
  { unfold tree_band_tile in TT. destruct (band_tile scale b sizes); [|discriminate].
    destruct cs; simpl in TT; injection TT as <-; discriminate. }
  destruct (graft_ok _ _ _ _ W H (or_introl NL)) as (s0 & E0 & Ws & A & A' & SO).
  assert (s0 = Node (RBand b) a cs) by congruence. subst s0.
  destruct (kid_one (RBand b) cs ltac:(discriminate) ltac:(discriminate)) as [c K].
  destruct (tile_order _ _ _ _ _ _ _ _ Ws L K TT) as (_ & Ex & Be).
  exists b, a, cs, c, s'. auto 8.
Qed.

(* Tiling a band that is permutable for the pairs of D. *)
Lemma tile_mono : forall sizes x y, Forall (fun z => 0 < z) sizes ->
  length x = length sizes -> length y = length sizes ->
  Forall2 Z.le x y ->
  lexlt (tile_of sizes x) (tile_of sizes y) \/ tile_of sizes x = tile_of sizes y.
Proof.
  induction sizes as [|s sizes IH]; intros x y F Lx Ly LE.
  - destruct x, y; try discriminate. right. reflexivity.
  - destruct x as [|a x], y as [|b y]; try discriminate.
    inversion F; subst. injection Lx as Lx. injection Ly as Ly. inversion LE; subst.
    unfold tile_of in *. cbn [combine map fst snd].
    pose proof (Z.div_le_mono a b s ltac:(assumption) ltac:(assumption)) as D.
    destruct (Z.eq_dec (a / s) (b / s)) as [Eq | Ne].
    + rewrite Eq. destruct (IH x y H2 Lx Ly ltac:(assumption)) as [Q | Q].
      * left. apply lex_next, Q.
      * right. rewrite Q. reflexivity.
    + left. apply lex_here. lia.
Qed.

Lemma node_tile_legal : forall scale shift t p sizes t' (D : I -> I -> Prop), wf t ->
  node_band_tile scale shift t p sizes = Some t' ->
  (forall b a cs, at_pos t p (Node (RBand b) a cs) ->
     forall i j x y, D i j -> values i (b_mupa b) x -> values j (b_mupa b) y -> Forall2 Z.le x y) ->
  forall i j, D i j -> before t i j -> before t' i j.
Proof.
  intros scale shift t p sizes t' D W H PERM.
  pose proof H as H0. unfold node_band_tile in H0.
  destruct (subtree t p) as [s|] eqn:E; [|discriminate].
  destruct (anchored s); [discriminate|].
  destruct s as [|[b0| | | | | | |] a0 cs0]; try discriminate.
  destruct (length sizes =? b_n b0)%nat eqn:L; [|discriminate]. cbn [negb] in H0. apply Nat.eqb_eq in L.
  destruct (tree_band_tile scale shift (Node (RBand b0) a0 cs0) sizes) as [s0|] eqn:TT; [|discriminate].
  assert (NL : s0 <> Leaf).
  { unfold tree_band_tile in TT. destruct (band_tile scale b0 sizes); [|discriminate].
    destruct cs0; simpl in TT; injection TT as <-; discriminate. }
  destruct (graft_ok _ _ _ _ W H0 (or_introl NL)) as (s1 & E1 & Ws & A & A' & SO).
  assert (s1 = Node (RBand b0) a0 cs0) by congruence. subst s1.
  destruct (kid_one (RBand b0) cs0 ltac:(discriminate) ltac:(discriminate)) as [c K].
  destruct (tile_order _ _ _ _ _ _ _ _ Ws L K TT) as (_ & Ex & Be).
  assert (OKL : length sizes = length (b_mupa b0)).
  { destruct (wf_one_inv _ _ _ Ws ltac:(discriminate) ltac:(discriminate)) as [OK _].
    destruct (OK b0 eq_refl). congruence. }
  assert (F : Forall (fun z => 0 < z) sizes).
  { unfold tree_band_tile, band_tile in TT.
    destruct (mupa_tile scale (b_mupa b0) sizes) as [m'|] eqn:M; [|discriminate].
    apply (mupa_tile_values _ _ _ _ M OKL). }
  refine (proj2 (outside_legal _ _ D _ _ _ _ _ SO A A')).
  - intros i Hi. apply Ex. exact Hi.
  - intros i j HD B. apply Be. rewrite (band_before _ _ _ _ _ _ K) in B.
    destruct B as (x & y & Vx & Vy & Ei & Ej & Lt). exists x, y.
    split; [exact Vx|]. split; [exact Vy|]. split; [exact Ei|]. split; [exact Ej|].
    assert (Lx : length x = length sizes) by (rewrite (values_length _ _ _ Vx); congruence).
    assert (Ly : length y = length sizes) by (rewrite (values_length _ _ _ Vy); congruence).
    destruct (tile_mono sizes x y F Lx Ly (PERM _ _ _ A i j x y HD Vx Vy)) as [Q | Q]; [auto|].
    right. auto.
Qed.

End Ops.
