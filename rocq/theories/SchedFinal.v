(* Proofs about splicing, inserting sequences, deleting and scaling, the shape
   of the trees and the field anchored. *)
From Coq Require Import ZArith List Bool Lia Arith.
From Verif Require Import SchedModel SchedSpec SchedProofs SchedOps SchedMore.
Import ListNotations.
Local Open Scope Z_scope.

Section Final.
Context {I : Type}.
Implicit Types (t s c : tree I) (i j : I) (r : root I) (m : list (upa I)).

(* ----------------------------------------------------- the shape of the tree *)

Definition is_filter t : Prop := exists f b l, t = Node (RFilter f) b l.

Lemma wf_replace : forall r a cs k c c' t', wf (Node r a cs) -> node_child (Node r a cs) k = Some c ->
  wf c' -> (is_filter c -> is_filter c') ->
  replace_child (Node r a cs) k c' = Some t' -> wf t'.
Proof.
  intros r a cs k c c' t' W NC Wc FF H.
  assert (Fu : forall (P : tree I -> Prop) l k x, Forall P l -> P x -> Forall P (upd k x l)).
  { clear. intros P. induction l as [|y l IH]; intros [|k] x F Px; simpl; [exact F | exact F | |].
    - inversion F; subst. constructor; assumption.
    - inversion F; subst. constructor; auto. }
  inversion W as [|r0 a0 cs0 N1 N2 OK L Fw | r0 a0 cs0 RR NE Fw Ff]; subst.
  - unfold replace_child in H. destruct c' as [|r' a' cs'].
    + destruct cs as [|x cs].
      * destruct k; [injection H as <-; exact W | discriminate].
      * destruct (length (x :: cs) =? 1)%nat; [|discriminate]. injection H as <-.
        apply wf_one; auto.
    + destruct cs as [|x cs].
      * destruct k; [|discriminate]. injection H as <-. apply wf_one; auto.
      * destruct (k <? length (x :: cs))%nat; [|discriminate]. injection H as <-.
        apply wf_one; auto. rewrite upd_length. exact L.
  - destruct cs as [|x cs]; [congruence|].
    assert (Fc : is_filter c).
    { simpl in NC. apply nth_error_In in NC. rewrite Forall_forall in Ff. apply Ff, NC. }
    destruct (FF Fc) as (f & b & l & ->). unfold replace_child in H.
    destruct (k <? length (x :: cs))%nat; [|discriminate]. injection H as <-.
    apply wf_many; auto.
    + intros E. apply (f_equal (@length _)) in E. rewrite upd_length in E. discriminate.
    + apply Fu; [exact Ff|]. exists f, b, l. reflexivity.
Qed.

Lemma wf_graft : forall p t s s' t', wf t -> wf s' -> subtree t p = Some s ->
  (is_filter s -> is_filter s') -> graft t p s' = Some t' -> wf t'.
Proof.
  induction p as [|k p IH]; intros t s s' t' W Ws S1 FF H; simpl in *.
  - injection H as <-. exact Ws.
  - destruct (node_child t k) as [c|] eqn:NC; [|discriminate].
    destruct (graft c p s') as [c'|] eqn:G; [|discriminate].
    destruct (node_child_kid _ _ _ W NC) as (r & a & cs & -> & Wc & _).
    apply (wf_replace r a cs k c c' t' W NC (IH _ _ _ _ Wc Ws S1 FF G)); [|exact H].
    destruct p as [|k2 p2].
    + simpl in *. injection S1 as <-. injection G as <-. exact FF.
    + intros (f & b & l & ->). cbn [graft] in G.
      destruct (node_child (Node (RFilter f) b l) k2) as [c1|]; [|discriminate G].
      destruct (graft c1 p2 s') as [c2|]; [|discriminate G].
      unfold replace_child in G. destruct c2, l, k2; simpl in G;
        repeat match type of G with (if ?b then _ else _) = _ => destruct b end;
        try discriminate; injection G as <-; unfold is_filter; eauto.
Qed.

Lemma wf_update : forall t, wf t -> wf (update_anchored t).
Proof.
  intros [|r a cs] W; [exact W|]. inversion W; subst; [apply wf_one | apply wf_many]; auto.
Qed.

Lemma wf_from_root : forall r c, r <> RSequence -> r <> RSet -> band_ok r -> wf c ->
  forall s', tree_insert c r = Some s' -> wf s'.
Proof.
  intros r c N1 N2 OK W s' H. unfold tree_insert, from_root, replace_child in H.
  destruct c; injection H as <-; apply wf_one; auto; simpl; lia.
Qed.

(* ------------------------------------------------------------- the children *)

Lemma splice_wf : forall subset s pos s', wf s -> tree_splice_child subset s pos = Some s' ->
  wf s' /\ ~ is_filter s.
Proof.
  intros subset s pos s' W H. unfold tree_splice_child in H.
  destruct s as [|[b| |d|g| |id| |] a cs]; try discriminate.
  destruct (node_child (Node RSequence a cs) pos) as [c|] eqn:NC; [|discriminate].
  destruct (node_child c 0) as [g|] eqn:NG; [|discriminate].
  destruct c as [|[b| |d|f| |id| |] ca ccs]; try discriminate.
  destruct g as [|[b| |d|f2| |id| |] ga gl]; try discriminate.
  destruct (intersect_children subset f gl) as [gl'|] eqn:IC; [|discriminate].
  unfold tree_sequence_splice in H. cbn [update_anchored] in H.
  destruct (pos <? length cs)%nat; [|discriminate]. injection H as <-.
  split; [|intros (f0 & b & l & E); discriminate].
  assert (Wg : wf (Node RSequence ga gl)).
  { destruct (node_child_kid _ _ _ W NC) as (r1 & a1 & cs1 & _ & Wc & _).
    destruct (node_child_kid _ _ _ Wc NG) as (r2 & a2 & cs2 & _ & Wg & _). exact Wg. }
  inversion W as [|r0 a0 cs0 N1 _ _ _ _ | r0 a0 cs0 RR NE Fw Ff]; subst; [congruence|].
  inversion Wg as [|r0 a0 cs0 N1 _ _ _ _ | r0 a0 cs0 _ NEg Fwg Ffg]; subst; [congruence|].
  assert (G : gl' <> [] /\ Forall wf gl' /\ Forall is_filter gl').
  { clear - IC NEg Fwg Ffg. split.
    - intros ->. destruct gl as [|[|[]] gl]; simpl in IC; try congruence;
        destruct (intersect_children subset f gl); discriminate.
    - clear NEg. revert gl' IC. induction gl as [|c gl IH]; intros gl' IC; simpl in IC.
      + injection IC as <-. split; constructor.
      + destruct c as [|[b| |d|g| |id| |] a cs]; try discriminate.
        destruct (intersect_children subset f gl) as [l2|]; [|discriminate]. injection IC as <-.
        inversion Fwg as [|x1 x2 Wc Wl]; subst. inversion Ffg as [|x1 x2 Fc Fl]; subst. destruct (IH Wl Fl _ eq_refl) as [A B].
        split; constructor; auto.
        * inversion Wc as [|r0 a0 cs0 N1 N2 OK L F | r0 a0 cs0 RR NE F1 F2]; subst.
          -- apply wf_one; auto; try discriminate.
          -- destruct RR; discriminate.
        * unfold is_filter. eauto. }
  destruct G as (G1 & G2 & G3).
  assert (FS : forall (P : tree I -> Prop), Forall P cs -> Forall P gl' ->
             Forall P (firstn pos cs ++ gl' ++ skipn (pos + 1) cs)).
  { intros P F1 F2. rewrite Forall_forall in *. intros x Hx. rewrite !in_app_iff in Hx.
    destruct Hx as [Hx | [Hx | Hx]]; [|auto|].
    - apply F1. rewrite <- (firstn_skipn pos cs). apply in_or_app. auto.
    - apply F1. rewrite <- (firstn_skipn (pos + 1) cs). apply in_or_app. auto. }
  unfold from_children. apply wf_update. apply wf_many; auto.
  intros E. apply app_eq_nil in E. destruct E as [_ E]. apply app_eq_nil in E. tauto.
Qed.

Lemma node_splice_ok : forall subset t p pos t', subset_ok subset -> wf t ->
  node_splice_child subset t p pos = Some t' -> wf t' /\ same_order t t'.
Proof.
  intros subset t p pos t' SU W H. unfold node_splice_child in H.
  destruct (subtree t p) as [s|] eqn:E; [|discriminate].
  destruct (tree_splice_child subset s pos) as [s'|] eqn:TS; [|discriminate].
  assert (NL : s' <> Leaf).
  { unfold tree_splice_child in TS. destruct s as [|[]]; try discriminate.
    destruct (node_child (Node RSequence anchored children) pos); [|discriminate].
    destruct (node_child t0 0); [|discriminate].
    destruct t0 as [|[]]; try discriminate. destruct t1 as [|[]]; try discriminate.
    destruct (intersect_children subset f children1); [|discriminate].
    unfold tree_sequence_splice in TS. cbn [update_anchored] in TS.
    destruct (pos <? length children)%nat; [|discriminate]. injection TS as <-. discriminate. }
  destruct (graft_ok _ _ _ _ W H (or_introl NL)) as (s0 & E0 & Ws & A & A' & SO).
  assert (s0 = s) by congruence. subst s0.
  destruct (splice_wf _ _ _ _ Ws TS) as [Ws' NF].
  split.
  - eapply wf_graft; [exact W | exact Ws' | exact E | intros F; contradiction | exact H].
  - eapply outside_order; eauto. eapply splice_order; eauto.
Qed.

Lemma splice_loop_ok : forall subset p k t t', subset_ok subset -> wf t ->
  splice_children_loop subset t p k = Some t' -> wf t' /\ same_order t t'.
Proof.
  intros subset p. induction k as [|k IH]; intros t t' SU W H; simpl in H.
  - injection H as <-. split; [exact W | apply same_order_refl].
  - destruct (subtree t (p ++ [k; 0%nat])) as [g|]; [|discriminate].
    destruct (match g with Node RSequence _ _ => node_splice_child subset t p k | _ => Some t end) as [t1|] eqn:E; [|discriminate].
    assert (X : wf t1 /\ same_order t t1).
    { destruct g as [|[] ? ?]; try (injection E as <-; split; [exact W | apply same_order_refl]).
      eapply node_splice_ok; eauto. }
    destruct X as [W1 O1]. destruct (IH _ _ SU W1 H) as [W2 O2].
    split; [exact W2 | eapply same_order_trans; eauto].
Qed.

Lemma node_splice_children_ok : forall subset t p t', subset_ok subset -> wf t ->
  node_splice_children subset t p = Some t' -> wf t' /\ same_order t t'.
Proof.
  intros subset t p t' SU W H. unfold node_splice_children in H.
  destruct (subtree t p) as [s|]; [|discriminate]. destruct s as [|[] a cs]; try discriminate.
  eapply splice_loop_ok; eauto.
Qed.

(* ------------------------------------------------------ sequences and sets *)

Lemma insert_filter_exec : forall s f s', insert_filter s f = Some s' ->
  forall i tr, trace i s' tr <-> f i = true /\ trace i s tr.
Proof.
  intros s f s' H.
  assert (GEN : tree_insert s (RFilter f) = Some s' ->
          forall i tr, trace i s' tr <-> f i = true /\ trace i s tr).
  { intros TI. destruct (tree_insert_trace s (RFilter f) s' ltac:(discriminate) ltac:(discriminate) TI) as [NL T].
    intros i tr. rewrite T. split.
    - intros (pre & u & P & X & ->). inversion P; subst. auto.
    - intros [F X]. exists [], tr. split; [constructor; exact F | auto]. }
  destruct s as [|[b| |d|g| |id| |] a cs]; try (apply GEN; exact H).
  simpl in H. injection H as <-. intros i tr.
  destruct (kid_one (RFilter g) cs ltac:(discriminate) ltac:(discriminate)) as [c K].
  assert (K2 : kid (RFilter (uset_intersect g f)) cs 0 = Some c) by exact K.
  rewrite (one_iff i _ a cs c tr K2 ltac:(discriminate) ltac:(discriminate)).
  rewrite (one_iff i _ a cs c tr K ltac:(discriminate) ltac:(discriminate)).
  split.
  - intros (pre & u & P & X & ->). inversion P as [| | |f0 F| |]; subst.
    unfold uset_intersect in F. apply andb_true_iff in F. destruct F as [F1 F2].
    split; [exact F2|]. exists [], u. split; [constructor; exact F1 | auto].
  - intros (F & pre & u & P & X & ->). inversion P as [| | |f0 F1| |]; subst.
    exists [], u. split; [constructor; unfold uset_intersect; rewrite F1, F; reflexivity | auto].
Qed.

Lemma insert_list_nth : forall gist s fs l, insert_children_list gist s fs = Some l ->
  (forall k f, nth_error fs k = Some f -> exists c, nth_error l k = Some c /\
     forall i tr, trace i c tr <-> f i = true /\ trace i (gist s f) tr) /\
  (forall k c, nth_error l k = Some c -> exists f, nth_error fs k = Some f).
Proof.
  intros gist s. induction fs as [|f fs IH]; intros l H; simpl in H.
  - injection H as <-. split; intros [|k] x Hx; discriminate.
  - destruct (insert_filter (gist s f) f) as [c|] eqn:C; [|discriminate].
    destruct (insert_children_list gist s fs) as [l1|] eqn:L; [|discriminate]. injection H as <-.
    destruct (IH _ eq_refl) as [A B]. split.
    + intros [|k] f' Hf; simpl in *; [|auto]. injection Hf as <-. exists c. split; [reflexivity|].
      apply insert_filter_exec, C.
    + intros [|k] c' Hc; simpl in *; eauto.
Qed.

Lemma before_execs : forall s i j, before s i j -> execs s i /\ execs s j.
Proof. intros s i j (u & v & X & Y & _). split; eexists; eassumption. Qed.

Lemma node_insert_children_ok : forall gist r t p fs t', wf t -> gist_ok gist ->
  (r = RSequence \/ r = RSet) ->
  node_insert_children gist r t p fs = Some t' ->
  exists s s', at_pos t p s /\ at_pos t' p s' /\ same_outside p t t' /\
    (forall i, execs s' i <-> (exists f, List.In f fs /\ f i = true) /\ execs s i) /\
    (forall i j, before s' i j <->
       match r with RSequence => sequenced s fs i j | _ => alternated s fs i j end).
Proof.
  intros gist r t p fs t' W GO RR H. unfold node_insert_children in H.
  destruct (subtree t p) as [s|] eqn:E; [|discriminate].
  destruct (negb (check_insert t p)); [discriminate|].
  destruct (insert_children_list gist s fs) as [l|] eqn:L; [|discriminate].
  assert (NL : from_children r l <> Leaf) by discriminate.
  destruct (graft_ok _ _ _ _ W H (or_introl NL)) as (s0 & E0 & Ws & A & A' & SO).
  assert (s0 = s) by congruence. subst s0. clear H NL.
  destruct (insert_list_nth _ _ _ _ L) as [N1 N2].
  assert (CH : forall k c, nth_error l k = Some c -> exists f, nth_error fs k = Some f /\
             forall i tr, trace i c tr <-> f i = true /\ trace i (gist s f) tr).
  { intros k c Hc. destruct (N2 _ _ Hc) as [f Hf]. destruct (N1 _ _ Hf) as (c' & Hc' & T).
    assert (c' = c) by congruence. subst c'. eauto. }
  exists s, (from_children r l). split; [exact A|]. split; [exact A'|]. split; [exact SO|].
  assert (GE : forall f i, f i = true -> (execs (gist s f) i <-> execs s i)) by (intros f; apply GO).
  assert (GB : forall f i j, f i = true -> f j = true -> (before (gist s f) i j <-> before s i j)) by (intros f; apply GO).
  unfold from_children. split.
  - intros i. split.
    + intros [tr T]. apply trace_update in T.
      assert (X : exists k c u, nth_error l k = Some c /\ trace i c u).
      { destruct RR as [-> | ->]; [apply trace_seq_iff in T | apply trace_set_iff in T];
          destruct T as (k & c & u & Hc & T & _); eauto. }
      destruct X as (k & c & u & Hc & T'). destruct (CH _ _ Hc) as (f & Hf & TF).
      apply TF in T'. destruct T' as [F T'].
      split; [exists f; split; [eapply nth_error_In; eauto | exact F]|].
      apply (GE f i F). exists u. exact T'.
    + intros [(f & Hf & F) Ex]. apply In_nth_error in Hf. destruct Hf as [k Hf].
      destruct (N1 _ _ Hf) as (c & Hc & TF). apply (GE f i F) in Ex. destruct Ex as [u T].
      assert (T' : trace i c u) by (apply TF; auto).
      destruct RR as [-> | ->]; eexists; apply trace_update;
        [eapply trace_seq; [exact Hc | exact T'] | eapply trace_set; [exact Hc | exact T']].
  - intros i j. destruct RR as [-> | ->]; split.
    + intros (u & v & X & Y & Lt). apply trace_update in X. apply trace_update in Y.
      apply trace_seq_iff in X. apply trace_seq_iff in Y.
      destruct X as (k & c & u1 & Hc & X & ->). destruct Y as (k2 & c2 & v1 & Hc2 & Y & ->).
      destruct (CH _ _ Hc) as (f & Hf & TF). destruct (CH _ _ Hc2) as (g & Hg & TG).
      apply TF in X. apply TG in Y. destruct X as [F X]. destruct Y as [G Y].
      exists k, k2, f, g. split; [exact Hf|]. split; [exact Hg|]. split; [exact F|]. split; [exact G|].
      split; [apply (GE f i F); exists u1; exact X|]. split; [apply (GE g j G); exists v1; exact Y|].
      apply tlt_ord in Lt. destruct Lt as [Lt | [Eq Lt]]; [left; lia|]. right.
      apply Nat2Z.inj in Eq. subst k2. split; [reflexivity|].
      assert (g = f) by congruence. subst g. apply (GB f i j F G). exists u1, v1. auto.
    + intros (k & k2 & f & g & Hf & Hg & F & G & Ei & Ej & Lt).
      destruct (N1 _ _ Hf) as (c & Hc & TF). destruct (N1 _ _ Hg) as (c2 & Hc2 & TG).
      destruct Lt as [Lt | [-> B]].
      * apply (GE f i F) in Ei. apply (GE g j G) in Ej. destruct Ei as [u X]. destruct Ej as [v Y].
        eexists _, _. split; [apply trace_update; eapply trace_seq; [exact Hc | apply TF; split; [exact F | exact X]]|].
        split; [apply trace_update; eapply trace_seq; [exact Hc2 | apply TG; split; [exact G | exact Y]]|].
        apply tlt_ord. left. lia.
      * assert (g = f) by congruence. subst g. apply (GB f i j F G) in B. destruct B as (u & v & X & Y & Lt).
        eexists _, _. split; [apply trace_update; eapply trace_seq; [exact Hc | apply TF; split; [exact F | exact X]]|].
        split; [apply trace_update; eapply trace_seq; [exact Hc | apply TF; split; [exact G | exact Y]]|].
        apply tlt_ord. right. auto.
    + intros (u & v & X & Y & Lt). apply trace_update in X. apply trace_update in Y.
      apply trace_set_iff in X. apply trace_set_iff in Y.
      destruct X as (k & c & u1 & Hc & X & ->). destruct Y as (k2 & c2 & v1 & Hc2 & Y & ->).
      apply tlt_alt in Lt. destruct Lt as [<- Lt]. assert (c2 = c) by congruence. subst c2.
      destruct (CH _ _ Hc) as (f & Hf & TF). apply TF in X. apply TF in Y.
      destruct X as [F X]. destruct Y as [G Y]. exists k, f.
      split; [exact Hf|]. split; [exact F|]. split; [exact G|]. apply (GB f i j F G). exists u1, v1. auto.
    + intros (k & f & Hf & F & G & B). destruct (N1 _ _ Hf) as (c & Hc & TF).
      apply (GB f i j F G) in B. destruct B as (u & v & X & Y & Lt).
      eexists _, _. split; [apply trace_update; eapply trace_set; [exact Hc | apply TF; split; [exact F | exact X]]|].
      split; [apply trace_update; eapply trace_set; [exact Hc | apply TF; split; [exact G | exact Y]]|].
      apply tlt_alt. auto.
Qed.

(* ---------------------------------------------------- deleting and scaling *)

Lemma trace_one_child : forall r a c, r = RSequence \/ r = RSet ->
  same_order (Node r a [c]) c.
Proof.
  intros r a c RR.
  assert (T : exists e, forall i tr, trace i (Node r a [c]) tr <-> exists u, trace i c u /\ tr = e :: u).
  { destruct RR as [-> | ->]; [exists (Ord 0) | exists (Alt 0)]; intros i tr.
    - rewrite trace_seq_iff. split.
      + intros ([|[|k]] & x & u & K & T & ->); try discriminate. injection K as <-. eauto.
      + intros (u & T & ->). exists 0%nat, c, u. auto.
    - rewrite trace_set_iff. split.
      + intros ([|[|k]] & x & u & K & T & ->); try discriminate. injection K as <-. eauto.
      + intros (u & T & ->). exists 0%nat, c, u. auto. }
  destruct T as [e T]. split.
  - intros i. split.
    + intros [tr X]. apply T in X. destruct X as (u & X & _). exists u. exact X.
    + intros [u X]. exists (e :: u). apply T. eauto.
  - intros i j. split.
    + intros (u & v & X & Y & L). apply T in X. apply T in Y. destruct X as (u1 & X & ->). destruct Y as (v1 & Y & ->).
      exists u1, v1. split; [exact X|]. split; [exact Y|]. inversion L; subst; [lia | assumption].
    + intros (u & v & X & Y & L). exists (e :: u), (e :: v).
      split; [apply T; eauto|]. split; [apply T; eauto|]. constructor. exact L.
Qed.

Lemma trace_silent_child : forall r a cs c, silent r -> kid r cs 0 = Some c ->
  same_order (Node r a cs) c.
Proof.
  intros r a cs c Si K. destruct (silent_one _ Si) as [N1 N2]. apply same_traces_order.
  intros i tr. rewrite (one_iff i r a cs c tr K N1 N2). split.
  - intros (pre & u & P & T & ->). apply (silent_part r i pre Si) in P. subst pre. exact T.
  - intros T. exists [], tr. split; [apply (silent_part r i [] Si); reflexivity | auto].
Qed.

Lemma node_delete_ok : forall t p t', wf t -> node_delete t p = Some t' ->
  exists r a cs, let c := match cs with [] => Leaf | c :: _ => c end in
    at_pos t p (Node r a cs) /\ at_pos t' p c /\ same_outside p t t' /\
    (silent r \/ r = RSequence \/ r = RSet -> same_order t t').
Proof.
  intros t p t' W H. unfold node_delete in H.
  destruct (subtree t p) as [s|] eqn:E; [|discriminate]. destruct s as [|r a cs]; [discriminate|].
  destruct p as [|k p]; [discriminate|].
  destruct ((length cs =? 0)%nat || (length cs =? 1)%nat) eqn:L; [|discriminate].
  cbn [negb] in H. destruct (check_insert t (k :: p)) eqn:CI; [|discriminate]. cbn [negb] in H.
  destruct (match r with RBand _ => a | _ => false end); [discriminate|].
  destruct (graft_ok _ _ _ _ W H (or_intror CI)) as (s0 & E0 & Ws & A & A' & SO).
  assert (s0 = Node r a cs) by congruence. subst s0.
  exists r, a, cs. cbv zeta. split; [exact A|]. split; [exact A'|]. split; [exact SO|].
  intros Cond. eapply outside_order; eauto.
  destruct cs as [|c [|c2 cs]]; [| |discriminate].
  - destruct Cond as [Si | RR].
    + apply trace_silent_child; [exact Si|]. destruct (silent_one _ Si) as [N1 N2].
      destruct r; try congruence; reflexivity.
    + inversion Ws; subst; [destruct RR; congruence | congruence].
  - destruct Cond as [Si | RR].
    + apply trace_silent_child; [exact Si|]. apply kid_of_nth. reflexivity.
    + apply trace_one_child, RR.
Qed.


End Final.
