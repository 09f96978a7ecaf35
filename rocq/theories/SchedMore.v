(* Proofs about sinking, splicing, inserting sequences and the field anchored. *)
From Coq Require Import ZArith List Bool Lia Arith.
From Verif Require Import SchedModel SchedSpec SchedProofs SchedOps.
Import ListNotations.
Local Open Scope Z_scope.

Section More.
Context {I : Type}.
Implicit Types (t s c : tree I) (i j : I) (r : root I) (m : list (upa I)).

(* ------------------------------------------------------------------ sinking *)

(* The loop over the children in append_to_leaves. *)
Fixpoint append_list (l : list (tree I)) (t2 : tree I) : option (list (tree I)) :=
  match l with
  | [] => Some []
  | x :: l' =>
      do x1 <- append_to_leaves x t2 ;;
      do l1 <- append_list l' t2 ;;
      Some (x1 :: l1)
  end.

Lemma append_cons : forall r a c cs t2,
  append_to_leaves (Node r a (c :: cs)) t2 =
  do cs' <- append_list (c :: cs) t2 ;; Some (update_anchored (Node r a cs')).
Proof.
  intros r a c cs t2. cbn [append_to_leaves].
  assert (E : forall l, (fix loop (l : list (tree I)) : option (list (tree I)) :=
                   match l with
                   | [] => Some []
                   | x :: l' =>
                       do x1 <- append_to_leaves x t2 ;;
                       do l1 <- loop l' ;;
                       Some (x1 :: l1)
                   end) l = append_list l t2).
  { induction l as [|x l IH]; [reflexivity|]. simpl. rewrite IH. reflexivity. }
  rewrite E. reflexivity.
Qed.

Lemma append_list_nth : forall l t2 l', append_list l t2 = Some l' ->
  length l' = length l /\
  (forall k c, nth_error l k = Some c -> exists c', nth_error l' k = Some c' /\ append_to_leaves c t2 = Some c') /\
  (forall k c', nth_error l' k = Some c' -> exists c, nth_error l k = Some c /\ append_to_leaves c t2 = Some c').
Proof.
  induction l as [|x l IH]; intros t2 l' H; simpl in H.
  - injection H as <-. split; [reflexivity|]. split; intros [|k] c Hc; discriminate.
  - destruct (append_to_leaves x t2) as [x'|] eqn:X; [|discriminate].
    destruct (append_list l t2) as [r'|] eqn:R; [|discriminate]. injection H as <-.
    destruct (IH _ _ R) as (L & A & B). split; [simpl; congruence|]. split.
    + intros [|k] c Hc; simpl in *; [injection Hc as <-; eauto | auto].
    + intros [|k] c Hc; simpl in *; [injection Hc as <-; eauto | auto].
Qed.

Lemma append_nonleaf : forall t t2 t', append_to_leaves t t2 = Some t' -> t' <> Leaf.
Proof.
  intros [|r a [|c cs]] t2 t' H.
  - discriminate.
  - injection H as <-. discriminate.
  - rewrite append_cons in H. destruct (append_list (c :: cs) t2); [|discriminate].
    injection H as <-. discriminate.
Qed.

Lemma append_traces : forall t t2 t', wf t -> append_to_leaves t t2 = Some t' ->
  forall i tr, trace i t' tr <-> exists u v, trace i t u /\ trace i t2 v /\ tr = u ++ v.
Proof.
  intros t t2. induction t as [|r a cs IH] using tree_ind'; intros t' W H i tr; [discriminate|].
  destruct cs as [|c0 cs0].
  - injection H as <-. inversion W; subst; [|contradiction].
    assert (K : kid r [] 0 = Some (@Leaf I)) by (destruct r; try reflexivity; contradiction).
    assert (K2 : kid r [t2] 0 = Some t2) by (apply kid_of_nth; reflexivity).
    rewrite (one_iff i r a [t2] t2 tr K2) by assumption. split.
    + intros (pre & u & P & X & ->). exists pre, u. split; [|auto].
      apply (one_iff i r a [] Leaf pre K); try assumption. exists pre, [].
      split; [exact P|]. split; [constructor | symmetry; apply app_nil_r].
    + intros (u & v & X & Y & ->). apply (one_iff i r a [] Leaf u K) in X; try assumption.
      destruct X as (pre & u' & P & X & ->). inversion X; subst. exists pre, v.
      rewrite app_nil_r. auto.
  - rewrite append_cons in H. set (cs := c0 :: cs0) in *.
    destruct (append_list cs t2) as [cs'|] eqn:AL; [|discriminate]. injection H as <-.
    destruct (append_list_nth _ _ _ AL) as (L & A & B).
    assert (CH : forall k c c', nth_error cs k = Some c -> nth_error cs' k = Some c' ->
              append_to_leaves c t2 = Some c' ->
              forall tr, trace i c' tr <-> exists u v, trace i c u /\ trace i t2 v /\ tr = u ++ v).
    { intros k c c' E E' Ap tr0. apply nth_error_In in E. rewrite Forall_forall in IH.
      apply (IH c E); [eapply wf_child; eauto | exact Ap]. }
    split.
    + intros T. apply trace_node in T.
      destruct T as [(pre & c' & u & P & Kc & T & ->) | [(-> & k & c' & u & E & T & ->) | (-> & k & c' & u & E & T & ->)]].
      * destruct (kid_nth _ _ _ _ Kc) as [E | (Z & _)]; [|subst cs'; discriminate].
        destruct (B _ _ E) as (c & Ec & Ap). apply (CH _ _ _ Ec E Ap) in T.
        destruct T as (u1 & v1 & T1 & T2 & ->). exists (pre ++ u1), v1.
        split; [econstructor; eauto; apply kid_of_nth; exact Ec|]. split; [exact T2|]. apply app_assoc.
      * destruct (B _ _ E) as (c & Ec & Ap). apply (CH _ _ _ Ec E Ap) in T.
        destruct T as (u1 & v1 & T1 & T2 & ->). exists (Ord (Z.of_nat k) :: u1), v1.
        split; [econstructor; eauto|]. auto.
      * destruct (B _ _ E) as (c & Ec & Ap). apply (CH _ _ _ Ec E Ap) in T.
        destruct T as (u1 & v1 & T1 & T2 & ->). exists (Alt k :: u1), v1.
        split; [econstructor; eauto|]. auto.
    + intros (u & v & T & T2 & ->). apply trace_node in T.
      destruct T as [(pre & c & u1 & P & Kc & T & ->) | [(-> & k & c & u1 & E & T & ->) | (-> & k & c & u1 & E & T & ->)]].
      * destruct (kid_nth _ _ _ _ Kc) as [E | (Z & _)]; [|subst cs; discriminate].
        destruct (A _ _ E) as (c' & Ec & Ap). rewrite <- app_assoc.
        eapply trace_one; [exact P | apply kid_of_nth; exact Ec |].
        apply (CH _ _ _ E Ec Ap). eauto.
      * destruct (A _ _ E) as (c' & Ec & Ap). simpl. eapply trace_seq; [exact Ec|].
        apply (CH _ _ _ E Ec Ap). eauto.
      * destruct (A _ _ E) as (c' & Ec & Ap). simpl. eapply trace_set; [exact Ec|].
        apply (CH _ _ _ E Ec Ap). eauto.
Qed.

(* Traces of the same tree are separated before one of them ends. *)
Lemma trace_sep : forall t i j u v x y, trace i t u -> trace j t v ->
  tlt (u ++ x) (v ++ y) -> tlt u v \/ (u = v /\ tlt x y).
Proof.
  intros t. induction t as [|r a cs IH] using tree_ind'; intros i j u v x y X Y L.
  - inversion X; subst. inversion Y; subst. right. auto.
  - rewrite Forall_forall in IH. apply trace_node in X. apply trace_node in Y.
    destruct X as [(pre & c & u1 & P & Kc & X & ->) | [(-> & k & c & u1 & E & X & ->) | (-> & k & c & u1 & E & X & ->)]].
    + destruct Y as [(pre' & c2 & v1 & P' & Kc2 & Y & ->) | [(-> & _) | (-> & _)]]; [| inversion P | inversion P].
      assert (c2 = c) by congruence. subst c2.
      rewrite <- !app_assoc in L. apply tlt_app in L; [|eapply part_length; eassumption].
      destruct L as [L | [-> L]].
      * left. apply tlt_app; [eapply part_length; eassumption | auto].
      * assert (Q : tlt u1 v1 \/ (u1 = v1 /\ tlt x y)).
        { destruct (kid_nth _ _ _ _ Kc) as [E | (_ & _ & -> & _)].
          - apply nth_error_In in E. eapply (IH c E); eauto.
          - inversion X; subst. inversion Y; subst. auto. }
        destruct Q as [Q | [-> Q]]; [left; apply tlt_app; auto | right; auto].
    + destruct Y as [(pre' & c2 & v1 & P' & _) | [(_ & k2 & c2 & v1 & E2 & Y & ->) | (Z & _)]];
        [inversion P' | | discriminate].
      cbn [app] in L. apply tlt_ord in L. destruct L as [L | [L1 L]].
      * left. apply tlt_ord. auto.
      * apply Nat2Z.inj in L1. subst k2. assert (c2 = c) by congruence. subst c2.
        apply nth_error_In in E. destruct (IH c E _ _ _ _ _ _ X Y L) as [Q | [-> Q]].
        -- left. apply tlt_ord. auto.
        -- right. auto.
    + destruct Y as [(pre' & c2 & v1 & P' & _) | [(Z & _) | (_ & k2 & c2 & v1 & E2 & Y & ->)]];
        [inversion P' | discriminate |].
      cbn [app] in L. apply tlt_alt in L. destruct L as [<- L].
      assert (c2 = c) by congruence. subst c2.
      apply nth_error_In in E. destruct (IH c E _ _ _ _ _ _ X Y L) as [Q | [-> Q]].
      * left. apply tlt_alt. auto.
      * right. auto.
Qed.

Lemma tlt_more : forall u v x y, tlt u v -> tlt (u ++ x) (v ++ y).
Proof. intros u v x y H. induction H; simpl; constructor; assumption. Qed.

Lemma node_sink_ok : forall t p t', wf t -> node_band_sink t p = Some t' ->
  exists b a cs c s',
    at_pos t p (Node (RBand b) a cs) /\ kid (RBand b) cs 0 = Some c /\
    at_pos t' p s' /\ same_outside p t t' /\
    (forall i, execs s' i <-> execs (Node (RBand b) a cs) i) /\
    (forall i j, before s' i j <-> sunk (b_mupa b) c i j).
Proof.
  intros t p t' W H. unfold node_band_sink in H.
  destruct (subtree t p) as [s|] eqn:E; [|discriminate].
  destruct s as [|[b| | | | | | |] a cs]; try discriminate.
  destruct a eqn:Ea; [discriminate|]. subst a.
  assert (LEAFT : forall i j, values i (b_mupa b) = values i (b_mupa b) -> tied (@Leaf I) i j)
    by (intros; exists []; split; constructor).
  destruct cs as [|child cs].
  - injection H as <-.
    assert (AP : forall p t s, wf t -> subtree t p = Some s -> s <> Leaf -> at_pos t p s /\ same_outside p t t).
    { clear. induction p as [|k p IH]; intros t s W H N.
      - simpl in H. injection H as <-. split; constructor.
      - simpl in H. destruct (node_child t k) as [c|] eqn:NC; [|discriminate].
        destruct (node_child_kid _ _ _ W NC) as (r & a & cs & -> & Wc & K).
        destruct K as [K | [-> Hk]].
        + destruct (IH _ _ Wc H N) as [A B]. split; econstructor; eauto.
        + simpl in NC. injection NC as <-. exfalso.
          destruct p; simpl in H; [injection H as <-; congruence | discriminate]. }
    destruct (AP _ _ _ W E ltac:(discriminate)) as [A SO].
    exists b, false, [], Leaf, (Node (RBand b) false []).
    split; [exact A|]. split; [reflexivity|]. split; [exact A|]. split; [exact SO|].
    split; [tauto|]. intros i j. rewrite (band_before b false [] Leaf i j eq_refl). unfold sunk. split.
    + intros (x & y & Vx & Vy & _ & _ & [L | [_ (u & v & X & Y & L)]]).
      * exists x, y. split; [exact Vx|]. split; [exact Vy|]. right. split; [|exact L]. exists []. split; constructor.
      * inversion X; subst. inversion Y; subst. inversion L.
    + intros (x & y & Vx & Vy & [(u & v & X & Y & L) | [_ L]]).
      * inversion X; subst. inversion Y; subst. inversion L.
      * exists x, y. split; [exact Vx|]. split; [exact Vy|]. split; [exists []; constructor|].
        split; [exists []; constructor|]. auto.
  - destruct (append_to_leaves child (reset_children (Node (RBand b) false (child :: cs)))) as [s'|] eqn:AP; [|discriminate].
    cbn [reset_children] in AP.
    pose proof (append_nonleaf _ _ _ AP) as NL.
    destruct (graft_ok _ _ _ _ W H (or_introl NL)) as (s0 & E0 & Ws & A & A' & SO).
    assert (s0 = Node (RBand b) false (child :: cs)) by congruence. subst s0.
    assert (Wc : wf child) by (eapply wf_child; [exact Ws | left; reflexivity]).
    pose proof (append_traces _ _ _ Wc AP) as T.
    assert (BT : forall i v, trace i (Node (RBand b) false []) v <-> exists x, values i (b_mupa b) x /\ v = map Ord x).
    { intros i v. rewrite (one_iff i (RBand b) false [] Leaf v eq_refl ltac:(discriminate) ltac:(discriminate)). split.
      - intros (pre & u & P & X & ->). inversion X; subst. inversion P as [b0 x V| | | | |]; subst.
        exists x. rewrite app_nil_r. auto.
      - intros (x & V & ->). exists (map Ord x), []. split; [constructor; exact V|].
        split; [constructor | symmetry; apply app_nil_r]. }
    exists b, false, (child :: cs), child, s'.
    split; [exact A|]. split; [reflexivity|]. split; [exact A'|]. split; [exact SO|]. split.
    + intros i. rewrite (band_execs b false (child :: cs) child i eq_refl). split.
      * intros [tr X]. apply T in X. destruct X as (u & v & X & Y & ->). apply BT in Y.
        destruct Y as (x & V & ->). split; [exists x; exact V | exists u; exact X].
      * intros [[x V] [u X]]. exists (u ++ map Ord x). apply T. exists u, (map Ord x).
        split; [exact X|]. split; [apply BT; eauto | reflexivity].
    + intros i j. unfold sunk. split.
      * intros (u & v & X & Y & L). apply T in X. apply T in Y.
        destruct X as (u1 & u2 & X & X2 & ->). destruct Y as (v1 & v2 & Y & Y2 & ->).
        apply BT in X2. apply BT in Y2. destruct X2 as (x & Vx & ->). destruct Y2 as (y & Vy & ->).
        exists x, y. split; [exact Vx|]. split; [exact Vy|].
        destruct (trace_sep _ _ _ _ _ _ _ X Y L) as [Q | [-> Q]].
        -- left. exists u1, v1. auto.
        -- right. split; [exists v1; auto | apply tlt_lex, Q].
      * intros (x & y & Vx & Vy & [(u & v & X & Y & L) | [(u & X & Y) L]]).
        -- exists (u ++ map Ord x), (v ++ map Ord y).
           split; [apply T; exists u, (map Ord x); split; [exact X|]; split; [apply BT; eauto | reflexivity]|].
           split; [apply T; exists v, (map Ord y); split; [exact Y|]; split; [apply BT; eauto | reflexivity]|].
           apply tlt_more, L.
        -- exists (u ++ map Ord x), (u ++ map Ord y).
           split; [apply T; exists u, (map Ord x); split; [exact X|]; split; [apply BT; eauto | reflexivity]|].
           split; [apply T; exists u, (map Ord y); split; [exact Y|]; split; [apply BT; eauto | reflexivity]|].
           apply tlt_app; [reflexivity|]. right. split; [reflexivity | apply tlt_lex, L].
Qed.

(* ----------------------------------------------------------------- splicing *)

Lemma intersect_children_nth : forall subset f l l', subset_ok subset ->
  intersect_children subset f l = Some l' ->
  length l' = length l /\
  (forall k c, nth_error l k = Some c -> exists c', nth_error l' k = Some c' /\
     forall i tr, trace i c' tr <-> f i = true /\ trace i c tr).
Proof.
  intros subset f l. induction l as [|c l IH]; intros l' SU H; simpl in H.
  - injection H as <-. split; [reflexivity|]. intros [|k] c Hc; discriminate.
  - destruct c as [|[b| |d|g| |id| |] a cs]; try discriminate.
    destruct (intersect_children subset f l) as [r|] eqn:R; [|discriminate]. injection H as <-.
    destruct (IH _ SU eq_refl) as [L N]. split; [simpl; congruence|].
    intros [|k] c Hc; simpl in Hc; [|apply N, Hc]. injection Hc as <-.
    eexists. split; [reflexivity|]. intros i tr.
    destruct (kid_one (RFilter g) cs ltac:(discriminate) ltac:(discriminate)) as [c K].
    set (g' := if subset g f then g else uset_intersect g f).
    assert (G : g' i = true <-> g i = true /\ f i = true).
    { unfold g'. destruct (subset g f) eqn:S1.
      - pose proof (SU g f S1 i). tauto.
      - unfold uset_intersect. rewrite andb_true_iff. tauto. }
    assert (K2 : kid (RFilter g') cs 0 = Some c) by exact K.
    rewrite (one_iff i (RFilter g') a cs c tr K2 ltac:(discriminate) ltac:(discriminate)).
    rewrite (one_iff i (RFilter g) a cs c tr K ltac:(discriminate) ltac:(discriminate)).
    split.
    + intros (pre & u & P & X & ->). inversion P as [| | |f0 F| |]; subst. apply G in F. destruct F as [F1 F2].
      split; [exact F2|]. exists [], u. split; [constructor; exact F1 | auto].
    + intros (F & pre & u & P & X & ->). inversion P as [| | |f0 F1| |]; subst.
      exists [], u. split; [constructor; apply G; auto | auto].
Qed.

(* The positions before and after splicing n children in at position pos. *)
Inductive conv (pos n : nat) : list step -> list step -> Prop :=
  | conv_lo k u : (k < pos)%nat -> conv pos n (Ord (Z.of_nat k) :: u) (Ord (Z.of_nat k) :: u)
  | conv_mid k u : (k < n)%nat ->
      conv pos n (Ord (Z.of_nat pos) :: Ord (Z.of_nat k) :: u) (Ord (Z.of_nat (pos + k)) :: u)
  | conv_hi k u : conv pos n (Ord (Z.of_nat (pos + 1 + k)) :: u) (Ord (Z.of_nat (pos + n + k)) :: u).

Lemma conv_lt : forall pos n a a' b b', conv pos n a a' -> conv pos n b b' ->
  (tlt a b <-> tlt a' b').
Proof.
  intros pos n a a' b b' A B.
  destruct A as [k u Hk | k u Hk | k u]; destruct B as [k' v Hk' | k' v Hk' | k' v];
    rewrite ?tlt_ord; try (split; intros [H | [H H']]; try lia; auto; fail);
    try (split; intros [H | [H H']]; [left; lia | right; split; [lia | assumption] | left; lia | right; split; [lia | assumption]]; fail).
  - split.
    + intros [H | [_ [H | [H H']]]]; [lia | left; lia | right; split; [lia | exact H']].
    + intros [H | [H H']]; right; (split; [reflexivity|]); [left; lia | right; split; [lia | exact H']].
Qed.

Lemma splice_order : forall subset s pos s', subset_ok subset ->
  wf s -> tree_splice_child subset s pos = Some s' ->
  s' <> Leaf /\ same_order s s'.
Proof.
  intros subset s pos s' SU W H. unfold tree_splice_child in H.
  destruct s as [|[b| |d|g| |id| |] a cs]; try discriminate.
  destruct (node_child (Node RSequence a cs) pos) as [c|] eqn:NC; [|discriminate].
  destruct (node_child c 0) as [g|] eqn:NG; [|discriminate].
  destruct c as [|[b| |d|f| |id| |] ca ccs]; try discriminate.
  destruct g as [|[b| |d|f2| |id| |] ga gl]; try discriminate.
  destruct (intersect_children subset f gl) as [gl'|] eqn:IC; [|discriminate].
  destruct (intersect_children_nth _ _ _ _ SU IC) as [LG TG].
  assert (Ep : nth_error cs pos = Some (Node (RFilter f) ca ccs)).
  { destruct cs as [|x cs]; [simpl in NC; discriminate | exact NC]. }
  assert (Eg : kid (RFilter f) ccs 0 = Some (Node RSequence ga gl)).
  { destruct ccs as [|x ccs]; [simpl in NG; discriminate|]. simpl in NG. injection NG as ->. reflexivity. }
  assert (LT : (pos < length cs)%nat) by (apply nth_error_Some; rewrite Ep; discriminate).
  unfold tree_sequence_splice in H. cbn [update_anchored] in H.
  apply Nat.ltb_lt in LT. rewrite LT in H. apply Nat.ltb_lt in LT. injection H as <-.
  split; [discriminate|].
  set (n := length gl). set (l' := firstn pos cs ++ gl' ++ skipn (pos + 1) cs).
  assert (Ffn : length (firstn pos cs) = pos) by (rewrite firstn_length; lia).
  (* the positions in the new list *)
  assert (LO : forall k, (k < pos)%nat -> nth_error l' k = nth_error cs k).
  { intros k Hk. unfold l'. rewrite nth_error_app1 by lia.
    rewrite <- (firstn_skipn pos cs) at 2. rewrite nth_error_app1 by lia. reflexivity. }
  assert (MID : forall k, (k < n)%nat -> nth_error l' (pos + k) = nth_error gl' k).
  { intros k Hk. unfold l'. rewrite nth_error_app2 by lia. rewrite Ffn.
    rewrite nth_error_app1 by (unfold n in Hk; lia). f_equal. lia. }
  assert (HI : forall k, nth_error l' (pos + n + k) = nth_error cs (pos + 1 + k)).
  { intros k. unfold l'. rewrite nth_error_app2 by lia. rewrite Ffn.
    rewrite nth_error_app2 by (unfold n; lia). rewrite LG. fold n.
    replace (pos + n + k - pos - n)%nat with k by lia.
    rewrite <- (firstn_skipn (pos + 1) cs) at 2. rewrite nth_error_app2 by (rewrite firstn_length; lia).
    rewrite firstn_length. f_equal. lia. }
  assert (FW : forall i tr, trace i (Node RSequence a cs) tr ->
             exists tr', trace i (from_children RSequence l') tr' /\ conv pos n tr tr').
  { intros i tr T. apply trace_seq_iff in T. destruct T as (k & c & u & E & T & ->).
    unfold from_children. destruct (lt_eq_lt_dec k pos) as [[Lk | ->] | Gk].
    - eexists. split; [apply trace_update; eapply trace_seq; [rewrite LO by exact Lk; exact E | exact T]|].
      apply conv_lo, Lk.
    - rewrite Ep in E. injection E as <-.
      apply (one_iff i (RFilter f) ca ccs _ u Eg) in T; try discriminate.
      destruct T as (pre & u1 & P & T & ->). inversion P as [| | |f0 F| |]; subst.
      apply trace_seq_iff in T. destruct T as (k2 & c2 & u2 & E2 & T & ->).
      assert (Lk2 : (k2 < n)%nat) by (unfold n; apply nth_error_Some; rewrite E2; discriminate).
      destruct (TG _ _ E2) as (c2' & E2' & T2).
      eexists. split.
      + apply trace_update. apply trace_seq_iff. exists (pos + k2)%nat, c2', u2.
        rewrite MID by exact Lk2. split; [exact E2'|]. split; [apply T2; auto | reflexivity].
      + cbn [app]. apply conv_mid, Lk2.
    - replace k with (pos + 1 + (k - pos - 1))%nat in E |- * by lia.
      eexists. split; [apply trace_update; eapply trace_seq; [rewrite HI; exact E | exact T]|].
      apply conv_hi. }
  assert (BW : forall i tr', trace i (from_children RSequence l') tr' ->
             exists tr, trace i (Node RSequence a cs) tr /\ conv pos n tr tr').
  { intros i tr' T. unfold from_children in T. apply trace_update in T. apply trace_seq_iff in T.
    destruct T as (k & c & u & E & T & ->).
    destruct (lt_dec k pos) as [Lk | Gk].
    - rewrite LO in E by exact Lk. eexists. split; [eapply trace_seq; [exact E | exact T]|]. apply conv_lo, Lk.
    - destruct (lt_dec k (pos + n)) as [Lk | Gk2].
      + replace k with (pos + (k - pos))%nat in E |- * by lia. rewrite MID in E by lia.
        assert (Lk2 : (k - pos < length gl)%nat) by (fold n; lia).
        destruct (nth_error gl (k - pos)) as [c2|] eqn:E2; [|apply nth_error_None in E2; lia].
        destruct (TG _ _ E2) as (c2' & E2' & T2).
        assert (c2' = c) by congruence. subst c2'. apply T2 in T. destruct T as [F T].
        eexists. split.
        * apply trace_seq_iff. exists pos, (Node (RFilter f) ca ccs), (Ord (Z.of_nat (k - pos)) :: u).
          split; [exact Ep|]. split; [|reflexivity].
          apply (one_iff i (RFilter f) ca ccs _ _ Eg); try discriminate.
          exists [], (Ord (Z.of_nat (k - pos)) :: u). split; [constructor; exact F|].
          split; [eapply trace_seq; [exact E2 | exact T] | reflexivity].
        * apply conv_mid. lia.
      + replace k with (pos + n + (k - pos - n))%nat in E |- * by lia. rewrite HI in E.
        eexists. split; [eapply trace_seq; [exact E | exact T]|]. apply conv_hi. }
  fold l'. split.
  - intros i. split.
    + intros [tr T]. destruct (FW _ _ T) as (tr' & T' & _). exists tr'. exact T'.
    + intros [tr T]. destruct (BW _ _ T) as (tr' & T' & _). exists tr'. exact T'.
  - intros i j. split.
    + intros (u & v & X & Y & L). destruct (FW _ _ X) as (u' & X' & C1). destruct (FW _ _ Y) as (v' & Y' & C2).
      exists u', v'. split; [exact X'|]. split; [exact Y'|]. apply (conv_lt _ _ _ _ _ _ C1 C2), L.
    + intros (u & v & X & Y & L). destruct (BW _ _ X) as (u' & X' & C1). destruct (BW _ _ Y) as (v' & Y' & C2).
      exists u', v'. split; [exact X'|]. split; [exact Y'|]. apply (conv_lt _ _ _ _ _ _ C1 C2), L.
Qed.

End More.
