(* Proofs about the order of the instances in schedule trees. *)
From Coq Require Import ZArith List Bool Lia Arith.
From Verif Require Import SchedModel SchedSpec.
Import ListNotations.
Local Open Scope Z_scope.

(* ------------------------------------------------------------- steps, tlt *)

Lemma tlt_ord : forall x y u v,
  tlt (Ord x :: u) (Ord y :: v) <-> x < y \/ (x = y /\ tlt u v).
Proof.
  intros x y u v. split.
  - intros H. inversion H; subst; [left; assumption | right; auto].
  - intros [H | [H H']]; [constructor; assumption | subst; constructor; assumption].
Qed.

Lemma tlt_alt : forall x y u v, tlt (Alt x :: u) (Alt y :: v) <-> x = y /\ tlt u v.
Proof.
  intros x y u v. split.
  - intros H. inversion H; subst; auto.
  - intros [H H']; subst; constructor; assumption.
Qed.

Lemma tlt_app : forall p p' u v, length p = length p' ->
  (tlt (p ++ u) (p' ++ v) <-> tlt p p' \/ (p = p' /\ tlt u v)).
Proof.
  induction p as [|e p IH]; intros [|e' p'] u v L; simpl in L; try discriminate.
  - simpl. split; [intros H; right; auto | intros [H | [_ H]]; [inversion H | exact H]].
  - injection L as L. simpl. split.
    + intros H. inversion H; subst.
      * left. constructor. assumption.
      * apply IH in H1; [|exact L]. destruct H1 as [H1 | [H1 H2]].
        -- left. constructor. assumption.
        -- right. subst. auto.
    + intros [H | [H H']].
      * inversion H; subst; [constructor; assumption|].
        constructor. apply IH; auto.
      * injection H as -> ->. constructor. apply IH; auto.
Qed.

Lemma tlt_lex : forall x y, tlt (map Ord x) (map Ord y) <-> lexlt x y.
Proof.
  induction x as [|a x IH]; intros [|b y]; simpl.
  - split; intros H; inversion H.
  - split; intros H; inversion H.
  - split; intros H; inversion H.
  - rewrite tlt_ord. split.
    + intros [H | [-> H]]; [constructor; assumption | constructor; apply IH; assumption].
    + intros H. inversion H; subst; [left; assumption | right; split; [reflexivity | apply IH; assumption]].
Qed.

Lemma map_ord_inj : forall x y, map Ord x = map Ord y -> x = y.
Proof.
  induction x as [|a x IH]; intros [|b y] H; simpl in H; try discriminate; [reflexivity|].
  injection H as -> H. f_equal. apply IH, H.
Qed.

Section Proofs.
Context {I : Type}.
Implicit Types (t s c : tree I) (i j : I) (r : root I) (m : list (upa I)).

Lemma tree_ind' : forall (P : tree I -> Prop),
  P Leaf ->
  (forall r a cs, Forall P cs -> P (Node r a cs)) ->
  forall t, P t.
Proof.
  intros P HL HN. fix IH 1. intros [|r a cs]; [exact HL|].
  apply HN. induction cs as [|c cs IHc]; constructor; [apply IH | exact IHc].
Qed.

(* ------------------------------------------------------------ values, part *)

Lemma values_fun : forall i m x y, values i m x -> values i m y -> x = y.
Proof.
  intros i m x y H. revert y. induction H; intros y Hy; inversion Hy; subst; [reflexivity|].
  f_equal; [congruence | auto].
Qed.

Lemma values_length : forall i m x, values i m x -> length x = length m.
Proof. induction 1; simpl; congruence. Qed.

Lemma values_app : forall i m1 m2 x,
  values i (m1 ++ m2) x <->
  exists x1 x2, values i m1 x1 /\ values i m2 x2 /\ x = x1 ++ x2.
Proof.
  induction m1 as [|u m1 IH]; intros m2 x; simpl.
  - split.
    + intros H. exists [], x. split; [constructor | auto].
    + intros (x1 & x2 & H1 & H2 & ->). inversion H1; subst. exact H2.
  - split.
    + intros H. inversion H; subst. apply IH in H4. destruct H4 as (x1 & x2 & H1 & H2' & ->).
      exists (x0 :: x1), x2. split; [constructor; assumption | auto].
    + intros (x1 & x2 & H1 & H2 & ->). inversion H1; subst. simpl.
      constructor; [assumption|]. apply IH. exists l, x2. auto.
Qed.

Lemma part_length : forall i j r p q, part i r p -> part j r q -> length p = length q.
Proof.
  intros i j r p q Hp Hq. inversion Hp; subst; inversion Hq; subst; try reflexivity.
  rewrite !map_length. erewrite values_length by eassumption.
  erewrite values_length by eassumption. reflexivity.
Qed.

(* ------------------------------------------------------------------ traces *)

Lemma trace_node : forall i r a cs tr,
  trace i (Node r a cs) tr ->
  (exists pre c u, part i r pre /\ kid r cs 0 = Some c /\ trace i c u /\ tr = pre ++ u) \/
  (r = RSequence /\ exists k c u, nth_error cs k = Some c /\ trace i c u /\
                                  tr = Ord (Z.of_nat k) :: u) \/
  (r = RSet /\ exists k c u, nth_error cs k = Some c /\ trace i c u /\ tr = Alt k :: u).
Proof.
  intros i r a cs tr H. inversion H; subst.
  - left. eauto 10.
  - right. left. eauto 10.
  - right. right. eauto 10.
Qed.

Lemma trace_one_iff : forall i r a cs c tr,
  r <> RSequence -> r <> RSet -> kid r cs 0 = Some c ->
  (trace i (Node r a cs) tr <-> exists pre u, part i r pre /\ trace i c u /\ tr = pre ++ u).
Proof.
  intros i r a cs c tr N1 N2 K. split.
  - intros H. apply trace_node in H. destruct H as [(pre & c' & u & H1 & H2 & H3 & H4) | [[H _] | [H _]]];
      [|contradiction | contradiction].
    rewrite K in H2. injection H2 as <-. eauto.
  - intros (pre & u & H1 & H2 & ->). econstructor; eauto.
Qed.

Lemma trace_seq_iff : forall i a cs tr,
  trace i (Node RSequence a cs) tr <->
  exists k c u, nth_error cs k = Some c /\ trace i c u /\ tr = Ord (Z.of_nat k) :: u.
Proof.
  intros i a cs tr. split.
  - intros H. apply trace_node in H. destruct H as [(pre & c' & u & H1 & _) | [[_ H] | [H _]]];
      [inversion H1 | exact H | discriminate].
  - intros (k & c & u & H1 & H2 & ->). econstructor; eauto.
Qed.

Lemma trace_set_iff : forall i a cs tr,
  trace i (Node RSet a cs) tr <->
  exists k c u, nth_error cs k = Some c /\ trace i c u /\ tr = Alt k :: u.
Proof.
  intros i a cs tr. split.
  - intros H. apply trace_node in H. destruct H as [(pre & c' & u & H1 & _) | [[H _] | [_ H]]];
      [inversion H1 | discriminate | exact H].
  - intros (k & c & u & H1 & H2 & ->). econstructor; eauto.
Qed.

(* The flag anchored plays no role. *)
Lemma trace_flag : forall i r a a' cs tr, trace i (Node r a cs) tr -> trace i (Node r a' cs) tr.
Proof. intros i r a a' cs tr H. inversion H; subst; econstructor; eauto. Qed.

Lemma trace_update : forall i t tr, trace i (update_anchored t) tr <-> trace i t tr.
Proof.
  intros i [|r a cs] tr; simpl; [tauto|]. split; apply trace_flag.
Qed.

(* Trees with the same traces execute in the same order. *)
Definition same_traces t t' := forall i tr, trace i t tr <-> trace i t' tr.

Lemma same_traces_order : forall t t', same_traces t t' -> same_order t t'.
Proof.
  intros t t' H. split.
  - intros i. split; intros [tr T]; exists tr; apply H; exact T.
  - intros i j. split; intros (u & v & T1 & T2 & L); exists u, v; repeat split; try apply H; assumption.
Qed.

Lemma same_order_refl : forall t, same_order t t.
Proof. intros t. split; intros; tauto. Qed.

Lemma same_order_trans : forall t1 t2 t3, same_order t1 t2 -> same_order t2 t3 -> same_order t1 t3.
Proof.
  intros t1 t2 t3 [A B] [C D]. split.
  - intros i. rewrite A. apply C.
  - intros i j. rewrite B. apply D.
Qed.

(* -------------------------------------------------------------- congruence *)

Lemma kid_nth : forall r (cs : list (tree I)) k c, kid r cs k = Some c ->
  nth_error cs k = Some c \/ (cs = [] /\ k = O /\ c = Leaf /\ r <> RSequence /\ r <> RSet).
Proof.
  intros r cs k c H.
  destruct r, cs as [|x cs], k as [|k]; simpl in *; try (left; exact H); try discriminate;
    injection H as <-; right; repeat split; discriminate.
Qed.

Lemma kid_of_nth : forall r (cs : list (tree I)) k c, nth_error cs k = Some c -> kid r cs k = Some c.
Proof. intros r cs k c H. destruct r, cs as [|x cs], k as [|k]; simpl in *; try exact H; discriminate. Qed.

Lemma kid_seq : forall cs k, kid (@RSequence I) cs k = nth_error cs k.
Proof. reflexivity. Qed.

Lemma kid_set : forall cs k, kid (@RSet I) cs k = nth_error cs k.
Proof. reflexivity. Qed.

Section Outside.
Variables s s' : tree I.
Variable D : I -> I -> Prop.
Hypothesis He : forall i, execs s i -> execs s' i.
Hypothesis Hb : forall i j, D i j -> before s i j -> before s' i j.

Lemma outside_legal : forall p t t',
  same_outside p t t' -> at_pos t p s -> at_pos t' p s' ->
  (forall i, execs t i -> execs t' i) /\
  (forall i j, D i j -> before t i j -> before t' i j).
Proof.
  induction 1 as [t t' | k p r a a' cs cs' c c' N K K' SO IH]; intros A A'.
  - inversion A; subst. inversion A'; subst. auto.
  - inversion A as [|? ? ? ? ? c0 ? K0 P0]; subst. inversion A' as [|? ? ? ? ? c0' ? K0' P0']; subst.
    assert (c0 = c) by congruence. assert (c0' = c') by congruence. subst c0 c0'.
    destruct (IH P0 P0') as [IHe IHb]. clear IH P0 P0' A A' K0 K0'.
    assert (CH : forall k1 c1, kid r cs k1 = Some c1 ->
               exists c1', kid r cs' k1 = Some c1' /\
                 (forall i, execs c1 i -> execs c1' i) /\
                 (forall i j, D i j -> before c1 i j -> before c1' i j)).
    { intros k1 c1 E. destruct (Nat.eq_dec k1 k) as [-> | Ne].
      - rewrite K in E. injection E as <-. exists c'. auto.
      - exists c1. split; [|auto]. destruct (kid_nth _ _ _ _ E) as [Q | (-> & -> & -> & R1 & R2)].
        + apply kid_of_nth. rewrite <- N by exact Ne. exact Q.
        + exfalso. destruct (kid_nth _ _ _ _ K) as [Q | (_ & -> & _)]; [|congruence].
          destruct k; simpl in Q; discriminate. }
    split.
    + intros i [tr T]. apply trace_node in T.
      destruct T as [(pre & c1 & u & P & Kc & T & ->) | [(-> & k1 & c1 & u & E & T & ->) | (-> & k1 & c1 & u & E & T & ->)]].
      * destruct (CH _ _ Kc) as (c1' & Kc' & E1 & _). destruct (E1 i (ex_intro _ u T)) as [u' T'].
        exists (pre ++ u'). econstructor; eauto.
      * destruct (CH _ _ E) as (c1' & E' & E1 & _). destruct (E1 i (ex_intro _ u T)) as [u' T'].
        eexists. eapply trace_seq; [exact E' | exact T'].
      * destruct (CH _ _ E) as (c1' & E' & E1 & _). destruct (E1 i (ex_intro _ u T)) as [u' T'].
        eexists. eapply trace_set; [exact E' | exact T'].
    + intros i j HD (tr & tr' & T & T' & L). apply trace_node in T. apply trace_node in T'.
      destruct T as [(pre & c1 & u & P & Kc & T & ->) | [(-> & k1 & c1 & u & E & T & ->) | (-> & k1 & c1 & u & E & T & ->)]].
      * destruct T' as [(pre' & c2 & v & P' & Kc2 & T' & ->) | [(-> & _) | (-> & _)]]; [| inversion P | inversion P].
        assert (c2 = c1) by congruence. subst c2.
        destruct (CH _ _ Kc) as (c1' & Kc' & E1 & B1).
        apply tlt_app in L; [|eapply part_length; eassumption].
        destruct L as [L | [-> L]].
        -- destruct (E1 i (ex_intro _ u T)) as [u' Tu]. destruct (E1 j (ex_intro _ v T')) as [v' Tv].
           exists (pre ++ u'), (pre' ++ v'). split; [econstructor; eauto|]. split; [econstructor; eauto|].
           apply tlt_app; [eapply part_length; eassumption|]. left. exact L.
        -- destruct (B1 i j HD) as (u' & v' & Tu & Tv & L'); [exists u, v; auto|].
           exists (pre' ++ u'), (pre' ++ v'). split; [econstructor; eauto|]. split; [econstructor; eauto|].
           apply tlt_app; auto.
      * destruct T' as [(pre' & c2 & v & P' & _) | [(_ & k2 & c2 & v & E2 & T' & ->) | (X & _)]];
          [inversion P' | | discriminate].
        apply tlt_ord in L.
        destruct (CH _ _ E) as (c1' & K1 & E1 & B1). destruct (CH _ _ E2) as (c2' & K2 & Ex2 & B2).
        destruct L as [L | [L1 L]].
        -- destruct (E1 i (ex_intro _ u T)) as [u' Tu]. destruct (Ex2 j (ex_intro _ v T')) as [v' Tv].
           eexists _, _. split; [eapply trace_seq; [exact K1 | exact Tu]|].
           split; [eapply trace_seq; [exact K2 | exact Tv]|].
           apply tlt_ord. left. exact L.
        -- apply Nat2Z.inj in L1. subst k2. assert (c2 = c1) by congruence. subst c2.
           destruct (B1 i j HD) as (u' & v' & Tu & Tv & L'); [exists u, v; auto|].
           eexists _, _. split; [eapply trace_seq; [exact K1 | exact Tu]|].
           split; [eapply trace_seq; [exact K1 | exact Tv]|].
           apply tlt_ord. right. auto.
      * destruct T' as [(pre' & c2 & v & P' & _) | [(X & _) | (_ & k2 & c2 & v & E2 & T' & ->)]];
          [inversion P' | discriminate |].
        apply tlt_alt in L. destruct L as [<- L]. assert (c2 = c1) by congruence. subst c2.
        destruct (CH _ _ E) as (c1' & K1 & E1 & B1).
        destruct (B1 i j HD) as (u' & v' & Tu & Tv & L'); [exists u, v; auto|].
        eexists _, _. split; [eapply trace_set; [exact K1 | exact Tu]|].
        split; [eapply trace_set; [exact K1 | exact Tv]|].
        apply tlt_alt. auto.
Qed.

End Outside.

Lemma outside_order : forall p t t' s s',
  same_outside p t t' -> at_pos t p s -> at_pos t' p s' -> same_order s s' -> same_order t t'.
Proof.
  intros p t t' s s' SO A A' [E B].
  assert (SO' : same_outside p t' t).
  { clear A A' E B s s'. induction SO; [constructor|]. econstructor; eauto.
    intros k' Hk. symmetry. auto. }
  destruct (outside_legal s s' (fun _ _ => True) (fun i => proj1 (E i))
              (fun i j _ => proj1 (B i j)) _ _ _ SO A A') as [E1 B1].
  destruct (outside_legal s' s (fun _ _ => True) (fun i => proj2 (E i))
              (fun i j _ => proj2 (B i j)) _ _ _ SO' A' A) as [E2 B2].
  split; [intros i; split; auto | intros i j; split; auto].
Qed.

(* ------------------------------------------------------------------- graft *)

Lemma upd_length : forall {A} (l : list A) k x, length (upd k x l) = length l.
Proof. intros A. induction l as [|y l IH]; intros [|k] x; simpl; auto. Qed.

Lemma upd_same : forall {A} (l : list A) k x, (k < length l)%nat -> nth_error (upd k x l) k = Some x.
Proof. intros A. induction l as [|y l IH]; intros [|k] x H; simpl in *; try lia; auto. apply IH. lia. Qed.

Lemma upd_other : forall {A} (l : list A) k x k', k' <> k -> nth_error (upd k x l) k' = nth_error l k'.
Proof.
  intros A. induction l as [|y l IH]; intros [|k] x [|k'] H; simpl in *; try reflexivity; try congruence.
  apply IH. congruence.
Qed.

Lemma wf_child : forall r a cs c, wf (Node r a cs) -> List.In c cs -> wf c.
Proof.
  intros r a cs c H Hc. inversion H; subst;
    match goal with F : Forall wf cs |- _ => rewrite Forall_forall in F; auto end.
Qed.

Lemma node_child_kid : forall t k c, wf t -> node_child t k = Some c ->
  exists r a cs, t = Node r a cs /\ wf c /\
    (kid r cs k = Some c \/ (cs = [] /\ k <> O)).
Proof.
  intros [|r a cs] k c W H; [discriminate|]. exists r, a, cs. split; [reflexivity|].
  destruct cs as [|x cs].
  - injection H as <-. split; [constructor|].
    inversion W; subst; [|contradiction].
    destruct k; [left | right; split; auto]. destruct r; try reflexivity; contradiction.
  - simpl in H. split; [eapply wf_child; [exact W | eapply nth_error_In; exact H]|].
    left. apply kid_of_nth. exact H.
Qed.

Lemma replace_child_ok : forall r a cs k c c' t',
  wf (Node r a cs) -> kid r cs k = Some c ->
  replace_child (Node r a cs) k c' = Some t' ->
  (c' <> Leaf \/ (r <> RSequence /\ r <> RSet)) ->
  exists a' cs', t' = Node r a' cs' /\ kid r cs' k = Some c' /\
    (forall k', k' <> k -> nth_error cs k' = nth_error cs' k').
Proof.
  intros r a cs k c c' t' W K H NL. unfold replace_child in H.
  destruct (kid_nth _ _ _ _ K) as [Q | (-> & -> & -> & R1 & R2)].
  - destruct cs as [|x cs]; [destruct k; discriminate|].
    destruct c' as [|r' a'' cs''].
    + destruct NL as [NL | [R1 R2]]; [congruence|].
      destruct (length (x :: cs) =? 1)%nat eqn:L; [|discriminate].
      apply Nat.eqb_eq in L. destruct cs; [|discriminate].
      simpl in H. injection H as <-. destruct k as [|[|k]]; simpl in Q; try discriminate.
      exists a, []. split; [reflexivity|]. split; [destruct r; try reflexivity; contradiction|].
      intros [|[|k']] Hk; try reflexivity. congruence.
    + assert (LT : (k < length (x :: cs))%nat) by (apply nth_error_Some; rewrite Q; discriminate).
      apply Nat.ltb_lt in LT. rewrite LT in H. apply Nat.ltb_lt in LT.
      injection H as <-. eexists _, _. split; [reflexivity|].
      split; [apply kid_of_nth, upd_same, LT|]. intros k' Hk. symmetry. apply upd_other, Hk.
  - destruct c' as [|r' a'' cs''].
    + injection H as <-. exists a, []. split; [reflexivity|]. split; [exact K|]. reflexivity.
    + injection H as <-. eexists _, _. split; [reflexivity|].
      split; [apply kid_of_nth; reflexivity|]. intros [|k'] Hk; [congruence|]. destruct k'; reflexivity.
Qed.

Lemma graft_nonleaf : forall p t s t', graft t p s = Some t' -> s <> Leaf -> t' <> Leaf.
Proof.
  intros [|k p] t s t' H N; simpl in H; [congruence|].
  destruct (node_child t k) as [c|]; [|discriminate].
  destruct (graft c p s) as [c'|]; [|discriminate].
  unfold replace_child in H. destruct t; [discriminate|].
  destruct c'; destruct children; destruct k; simpl in H;
    repeat match type of H with (if ?b then _ else _) = _ => destruct b end;
    try discriminate; injection H as <-; discriminate.
Qed.

Lemma graft_node : forall k p t s t', graft t (k :: p) s = Some t' -> t' <> Leaf.
Proof.
  intros k p t s t' H. simpl in H.
  destruct (node_child t k) as [c|]; [|discriminate].
  destruct (graft c p s) as [c'|]; [|discriminate].
  unfold replace_child in H. destruct t; [discriminate|].
  destruct c'; destruct children; destruct k; simpl in H;
    repeat match type of H with (if ?b then _ else _) = _ => destruct b end;
    try discriminate; injection H as <-; discriminate.
Qed.

Lemma graft_ok : forall p t s' t', wf t -> graft t p s' = Some t' ->
  (s' <> Leaf \/ check_insert t p = true) ->
  exists s, subtree t p = Some s /\ wf s /\ at_pos t p s /\ at_pos t' p s' /\ same_outside p t t'.
Proof.
  induction p as [|k p IH]; intros t s' t' W H NL.
  - simpl in *. injection H as <-. exists t. split; [reflexivity|]. split; [exact W|].
    split; [constructor|]. split; constructor.
  - pose proof H as H0. simpl in H. simpl subtree.
    destruct (node_child t k) as [c|] eqn:NC; [|discriminate].
    destruct (graft c p s') as [c'|] eqn:G; [|discriminate].
    destruct (node_child_kid _ _ _ W NC) as (r & a & cs & -> & Wc & K).
    destruct K as [K | [-> Hk]].
    2:{ unfold replace_child in H. destruct c', k; simpl in H; try discriminate; congruence. }
    assert (NL' : s' <> Leaf \/ check_insert c p = true \/ p = []).
    { destruct NL as [NL | NL]; [auto|]. destruct p as [|k2 p2]; [auto|]. right. left.
      unfold check_insert, parent in *.
      change (removelast (k :: k2 :: p2)) with (k :: removelast (k2 :: p2)) in NL.
      cbn [subtree] in NL. rewrite NC in NL. exact NL. }
    assert (X : exists s, subtree c p = Some s /\ wf s /\ at_pos c p s /\ at_pos c' p s' /\ same_outside p c c').
    { destruct NL' as [N1 | [N1 | ->]].
      - apply IH; auto.
      - apply IH; auto.
      - simpl in G. injection G as <-. exists c. split; [reflexivity|]. split; [exact Wc|].
        split; [constructor|]. split; constructor. }
    destruct X as (s & S1 & Ws & A & A' & SO). exists s.
    assert (NL2 : c' <> Leaf \/ (r <> RSequence /\ r <> RSet)).
    { destruct p as [|k2 p2].
      - simpl in G. injection G as <-. destruct NL as [NL | NL]; [auto|]. right.
        unfold check_insert, parent in NL. simpl in NL. destruct r; try discriminate; split; discriminate.
      - left. eapply graft_node. exact G. }
    destruct (replace_child_ok _ _ _ _ _ _ _ W K H NL2) as (a' & cs' & -> & K' & N).
    split; [exact S1|]. split; [exact Ws|].
    split; [econstructor; eauto|]. split; [econstructor; eauto|]. econstructor; eauto.
Qed.

End Proofs.
