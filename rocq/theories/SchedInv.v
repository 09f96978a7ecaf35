(* Proofs about scaling, the shape of the trees and the field anchored. *)
From Coq Require Import ZArith List Bool Lia Arith.
From Verif Require Import SchedModel SchedSpec SchedProofs SchedOps SchedMore SchedFinal.
Import ListNotations.
Local Open Scope Z_scope.

Section Inv.
Context {I : Type}.
Implicit Types (t s c : tree I) (i j : I) (r : root I) (m : list (upa I)).

(* ------------------------------------------------------------------ scaling *)

Lemma scale_values : forall m mv i x, length mv = length m ->
  (values i (map2 upa_scale m mv) x <->
   exists z, values i m z /\ x = map2 Z.mul z mv).
Proof.
  induction m as [|u m IH]; intros [|v mv] i x L; try discriminate; simpl.
  - split; [intros V; inversion V; subst; exists []; split; [constructor | reflexivity]|].
    intros (z & V & ->). inversion V; subst. constructor.
  - injection L as L. split.
    + intros V. inversion V as [|u0 m0 a l U V']; subst. apply IH in V'; [|exact L].
      destruct V' as (z & V' & ->). unfold upa_scale in U. destruct (u i) as [b|] eqn:Ub; [|discriminate].
      injection U as <-. exists (b :: z). split; [constructor; assumption | reflexivity].
    + intros (z & V & ->). inversion V as [|u0 m0 a l U V']; subst. simpl. constructor.
      * unfold upa_scale. rewrite U. reflexivity.
      * apply IH; eauto.
Qed.

Lemma scale_cmp : forall mv x y, Forall (fun z => 0 < z) mv ->
  length x = length mv -> length y = length mv ->
  (map2 Z.mul x mv = map2 Z.mul y mv <-> x = y) /\
  (lexlt (map2 Z.mul x mv) (map2 Z.mul y mv) <-> lexlt x y).
Proof.
  induction mv as [|v mv IH]; intros x y F Lx Ly.
  - destruct x, y; try discriminate. split; [tauto|]. simpl. tauto.
  - destruct x as [|a x], y as [|b y]; try discriminate.
    inversion F as [|v0 l0 Pv Fv]; subst. injection Lx as Lx. injection Ly as Ly.
    destruct (IH x y Fv Lx Ly) as [E L]. simpl. split.
    + split; [|intros Q; injection Q as -> ->; reflexivity].
      intros Q. injection Q as Q1 Q2. apply E in Q2. subst. f_equal. nia.
    + split; intros Q; inversion Q as [p q u w Lt | p u w Lt]; subst.
      * apply lex_here. nia.
      * assert (a = b) by nia. subst. apply lex_next, L. assumption.
      * apply lex_here. nia.
      * apply lex_next, L. assumption.
Qed.

Lemma node_scale_ok : forall t p mv t', wf t -> node_band_scale t p mv = Some t' ->
  Forall (fun z => 0 < z) mv -> same_order t t'.
Proof.
  intros t p mv t' W H F. unfold node_band_scale in H.
  destruct (subtree t p) as [s|] eqn:E; [|discriminate].
  destruct s as [|[b| | | | | | |] a cs]; try discriminate.
  destruct (length mv =? b_n b)%nat eqn:L; [|discriminate]. cbn [negb] in H. apply Nat.eqb_eq in L.
  destruct (anchored (Node (RBand b) a cs)); [discriminate|].
  cbn [tree_band_scale] in H.
  assert (NL : Node (RBand (band_scale b mv)) a cs <> Leaf) by discriminate.
  destruct (graft_ok _ _ _ _ W H (or_introl NL)) as (s0 & E0 & Ws & A & A' & SO).
  assert (s0 = Node (RBand b) a cs) by congruence. subst s0.
  destruct (wf_one_inv _ _ _ Ws ltac:(discriminate) ltac:(discriminate)) as [OK _].
  destruct (OK b eq_refl) as [OK1 _]. assert (L' : length mv = length (b_mupa b)) by congruence.
  eapply outside_order; eauto.
  destruct (kid_one (RBand b) cs ltac:(discriminate) ltac:(discriminate)) as [c K].
  assert (K2 : kid (RBand (band_scale b mv)) cs 0 = Some c) by exact K.
  split.
  - intros i. rewrite (band_execs _ _ _ _ _ K), (band_execs _ _ _ _ _ K2). cbn [band_scale b_mupa].
    split; intros ([x V] & Ex); (split; [|exact Ex]).
    + eexists. apply scale_values; eauto.
    + apply scale_values in V; [|exact L']. destruct V as (z & V & _). eauto.
  - intros i j. rewrite (band_before _ _ _ _ _ _ K), (band_before _ _ _ _ _ _ K2). cbn [band_scale b_mupa].
    split.
    + intros (x & y & Vx & Vy & Ei & Ej & Lt).
      assert (Lx : length x = length mv) by (rewrite (values_length _ _ _ Vx); congruence).
      assert (Ly : length y = length mv) by (rewrite (values_length _ _ _ Vy); congruence).
      destruct (scale_cmp mv x y F Lx Ly) as [CE CL].
      exists (map2 Z.mul x mv), (map2 Z.mul y mv).
      split; [apply scale_values; eauto|]. split; [apply scale_values; eauto|].
      split; [exact Ei|]. split; [exact Ej|]. rewrite CE, CL. exact Lt.
    + intros (x & y & Vx & Vy & Ei & Ej & Lt).
      apply scale_values in Vx; [|exact L']. destruct Vx as (x0 & Vx & ->).
      apply scale_values in Vy; [|exact L']. destruct Vy as (y0 & Vy & ->).
      assert (Lx : length x0 = length mv) by (rewrite (values_length _ _ _ Vx); congruence).
      assert (Ly : length y0 = length mv) by (rewrite (values_length _ _ _ Vy); congruence).
      destruct (scale_cmp mv x0 y0 F Lx Ly) as [CE CL]. rewrite CE, CL in Lt.
      exists x0, y0. auto 8.
Qed.

(* ---------------------------------------------------------- the two invariants *)

Lemma anch_flag : forall t, anch_ok t -> (anchored t = true <-> has_anchor t).
Proof.
  intros t A. inversion A; subst; simpl.
  - split; [discriminate | intros Q; inversion Q].
  - assumption.
Qed.

Lemma is_anchored_spec : forall r a cs, has_anchor (Node r a cs) <->
  is_anchored r = true \/ exists c, List.In c cs /\ has_anchor c.
Proof.
  intros r a cs. split.
  - intros Q. inversion Q; subst; simpl; eauto.
  - intros [Q | (c & Hc & Q)]; [|eapply ha_child; eauto].
    destruct r; simpl in Q; try discriminate; constructor; assumption.
Qed.

Lemma anch_node : forall r a cs, anch_ok (Node r a cs) <->
  a = is_anchored r || existsb anchored cs /\ Forall anch_ok cs.
Proof.
  intros r a cs.
  assert (X : Forall anch_ok cs ->
    (is_anchored r || existsb anchored cs = true <-> has_anchor (Node r a cs))).
  { intros F. rewrite is_anchored_spec, orb_true_iff, existsb_exists.
    rewrite Forall_forall in F. split; (intros [Q | (c & Hc & Q)]; [auto|]); right; exists c;
      (split; [exact Hc|]); apply (anch_flag c (F c Hc)); exact Q. }
  split.
  - intros A. inversion A as [|r0 a0 cs0 Eq F]; subst. split; [|exact F].
    specialize (X F). destruct a, (is_anchored r || existsb anchored cs); try reflexivity.
    + symmetry. apply X, Eq. reflexivity.
    + apply Eq, X. reflexivity.
  - intros [Eq F]. constructor; [|exact F]. rewrite Eq at 1. apply X, F.
Qed.

Definition good t : Prop := wf t /\ anch_ok t.

Lemma Forall_upd : forall (P : tree I -> Prop) l k x, Forall P l -> P x -> Forall P (upd k x l).
Proof.
  intros P. induction l as [|y l IH]; intros [|k] x F Px; simpl; [exact F | exact F | |].
  - inversion F; subst. constructor; assumption.
  - inversion F; subst. constructor; auto.
Qed.

Lemma update_anch : forall r a cs, Forall anch_ok cs -> anch_ok (update_anchored (Node r a cs)).
Proof. intros r a cs F. apply anch_node. split; [reflexivity | exact F]. Qed.

Lemma replace_anch : forall r a cs k c' t', Forall anch_ok cs -> anch_ok c' -> c' <> Leaf ->
  replace_child (Node r a cs) k c' = Some t' -> anch_ok t' /\ t' <> Leaf.
Proof.
  intros r a cs k c' t' F Ac NL H. unfold replace_child in H. destruct c' as [|r' a' cs']; [congruence|].
  assert (X : forall l, Forall anch_ok l -> Some (update_anchored (Node r a l)) = Some t' ->
              anch_ok t' /\ t' <> Leaf).
  { intros l Fl Q. injection Q as <-. split; [|discriminate]. exact (update_anch r a l Fl). }
  destruct cs as [|x cs].
  - destruct k; [|discriminate]. eapply X; [|exact H]. constructor; [exact Ac | constructor].
  - destruct (k <? length (x :: cs))%nat; [|discriminate]. eapply X; [|exact H].
    apply Forall_upd; assumption.
Qed.

Lemma graft_good : forall p t s s' t', good t -> subtree t p = Some s -> good s' -> s' <> Leaf ->
  (is_filter s -> is_filter s') -> graft t p s' = Some t' -> good t'.
Proof.
  intros p t s s' t' [W A] E [W' A'] NL FF H. split; [exact (wf_graft p t s s' t' W W' E FF H)|].
  clear E FF W W' s. revert t t' A H.
  assert (X : forall p t t', anch_ok t -> graft t p s' = Some t' -> anch_ok t' /\ t' <> Leaf).
  { clear p. induction p as [|k p IH]; intros t t' A H; cbn [graft] in H.
    - injection H as <-. auto.
    - destruct (node_child t k) as [c|] eqn:NC; [|discriminate H].
      destruct (graft c p s') as [c'|] eqn:G; [|discriminate H].
      destruct t as [|r a cs]; [discriminate NC|].
      apply anch_node in A. destruct A as [_ F].
      assert (Ac : anch_ok c).
      { unfold node_child in NC. destruct cs as [|x cs]; [injection NC as <-; constructor|].
        apply nth_error_In in NC. rewrite Forall_forall in F. auto. }
      destruct (IH _ _ Ac G) as [Ac' NL'].
      eapply replace_anch; eauto. }
  intros t t' A H. eapply X; eauto.
Qed.

Lemma subtree_good : forall p t s, good t -> subtree t p = Some s -> good s.
Proof.
  induction p as [|k p IH]; intros t s [W A] H; simpl in H.
  - injection H as <-. split; assumption.
  - destruct (node_child t k) as [c|] eqn:NC; [|discriminate].
    apply (IH c s); [|exact H].
    destruct (node_child_kid _ _ _ W NC) as (r & a & cs & -> & Wc & _). split; [exact Wc|].
    apply anch_node in A. destruct A as [_ F].
    destruct cs as [|x cs]; simpl in NC; [injection NC as <-; constructor|].
    apply nth_error_In in NC. rewrite Forall_forall in F. auto.
Qed.

Lemma good_one : forall r a a' cs r', good (Node r a cs) -> r <> RSequence -> r <> RSet ->
  r' <> RSequence -> r' <> RSet -> is_anchored r' = is_anchored r -> band_ok r' ->
  a' = a -> good (Node r' a' cs).
Proof.
  intros r a a' cs r' [W A] N1 N2 N1' N2' IA OK ->. split.
  - inversion W as [|r0 a0 cs0 _ _ _ L F | r0 a0 cs0 RR _ _ _]; subst; [|destruct RR; congruence].
    apply wf_one; auto.
  - apply anch_node. apply anch_node in A. rewrite IA. exact A.
Qed.

(* A node on top of a tree. *)
Lemma good_two : forall r r' a cs r2 s', good (Node r a cs) -> r <> RSequence -> r <> RSet ->
  r' <> RSequence -> r' <> RSet -> band_ok r' ->
  r2 <> RSequence -> r2 <> RSet -> band_ok r2 -> is_anchored r2 = is_anchored r ->
  replace_child (Node r' a cs) 0 (Node r2 a cs) = Some s' -> good s' /\ s' <> Leaf.
Proof.
  intros r r' a cs r2 s' G N1 N2 N1' N2' OK' M1 M2 OK2 IA H.
  assert (G2 : good (Node r2 a cs)) by (eapply good_one; eauto).
  destruct G as [W A]. destruct G2 as [W2 A2]. apply anch_node in A. destruct A as [_ F].
  destruct (replace_anch r' a cs 0 _ s' F A2 ltac:(discriminate) H) as [As NL].
  split; [split; [|exact As] | exact NL].
  destruct (wf_one_inv _ _ _ W N1 N2) as [_ L].
  destruct cs as [|x [|y cs]]; simpl in L; [| |lia]; simpl in H; injection H as <-;
    apply wf_one; auto.
Qed.

Lemma good_insert : forall r s s', good s -> r <> RSequence -> r <> RSet -> band_ok r ->
  tree_insert s r = Some s' -> good s' /\ s' <> Leaf.
Proof.
  intros r s s' [W A] N1 N2 OK H.
  pose proof (wf_from_root r s N1 N2 OK W s' H) as W'.
  unfold tree_insert, from_root in H. destruct s as [|r0 a0 cs0].
  - simpl in H. injection H as <-. split; [split; [exact W'|] | discriminate].
    apply anch_node. simpl. split; [symmetry; apply orb_false_r | constructor].
  - destruct (replace_anch r (is_anchored r) [] 0 _ s' ltac:(constructor) A ltac:(discriminate) H) as [As NL].
    split; [split; assumption | exact NL].
Qed.

Lemma good_filter : forall s f s', good s -> insert_filter s f = Some s' ->
  good s' /\ s' <> Leaf /\ is_filter s'.
Proof.
  intros s f s' G H.
  assert (GEN : tree_insert s (RFilter f) = Some s' -> good s' /\ s' <> Leaf /\ is_filter s').
  { intros TI. destruct (good_insert (RFilter f) s s' G ltac:(discriminate) ltac:(discriminate)
      ltac:(intros b0 E0; discriminate) TI) as [G' NL].
    split; [exact G'|]. split; [exact NL|].
    unfold tree_insert, from_root in TI. destruct s; simpl in TI; injection TI as <-;
      unfold is_filter; eauto. }
  destruct s as [|[b| |d|g| |id| |] a cs]; try (apply GEN; exact H).
  simpl in H. injection H as <-. split; [|split; [discriminate | unfold is_filter; eauto]].
  eapply (good_one (RFilter g)); eauto; try discriminate.
Qed.

Lemma map2_len : forall {A B C} (f : A -> B -> C) l l', length l' = length l ->
  length (map2 f l l') = length l.
Proof. induction l as [|x l IH]; intros [|y l'] L; simpl in *; try discriminate; auto. Qed.

Lemma shift_down_length : forall cnt k n l, length (shift_down cnt k n l) = length l.
Proof.
  induction cnt as [|cnt IH]; intros k n l; simpl; [reflexivity|]. rewrite IH, upd_length. reflexivity.
Qed.

Lemma band_drop_ok : forall b pos n (b' : band I), band_ok (RBand b) -> band_drop b pos n = Some b' ->
  band_ok (RBand b') /\ b_anch b' = b_anch b.
Proof.
  intros b pos n b' OK H. destruct (OK b eq_refl) as [O1 O2]. unfold band_drop in H.
  destruct ((pos <? 0) || (n <? 0) || (pos + n >? Z.of_nat (b_n b))) eqn:E; [discriminate|].
  injection H as <-.
  apply orb_false_iff in E. destruct E as [E E3]. apply orb_false_iff in E. destruct E as [E1 E2].
  split; [|reflexivity]. intros b0 Eb. injection Eb as <-. cbn [b_mupa b_n b_coin].
  rewrite app_length, firstn_length, skipn_length, shift_down_length. split; lia.
Qed.

Lemma append_list_good : forall b l l',
  Forall (fun c => forall c', good c -> append_to_leaves c (Node (RBand b) false []) = Some c' ->
            good c' /\ (is_filter c -> is_filter c')) l ->
  Forall good l -> append_list l (Node (RBand b) false []) = Some l' ->
  Forall good l' /\ length l' = length l /\ (Forall is_filter l -> Forall is_filter l').
Proof.
  intros b. induction l as [|x l IHl]; intros l' FI G H; simpl in H.
  - injection H as <-. auto.
  - destruct (append_to_leaves x (Node (RBand b) false [])) as [x1|] eqn:X; [|discriminate].
    destruct (append_list l (Node (RBand b) false [])) as [l1|] eqn:Y; [|discriminate].
    injection H as <-. inversion FI as [|y1 y2 Fx Fl]; subst. inversion G as [|y1 y2 Gx Gl]; subst.
    destruct (Fx x1 Gx X) as [G1 FF1]. destruct (IHl l1 Fl Gl eq_refl) as (G2 & L2 & FF2).
    split; [constructor; assumption|]. split; [simpl; congruence|].
    intros Q. inversion Q; subst. constructor; auto.
Qed.

Lemma append_good : forall b, band_ok (RBand b) -> b_anch b = false ->
  forall t t', good t -> append_to_leaves t (Node (RBand b) false []) = Some t' ->
  good t' /\ (is_filter t -> is_filter t').
Proof.
  intros b OK BA t. induction t as [|r a cs IH] using tree_ind'; intros t' [W A] H; [discriminate|].
  assert (GB : good (Node (RBand b) false [])).
  { split; [apply wf_one; auto; discriminate|]. apply anch_node. simpl. rewrite BA. auto. }
  destruct GB as [WB AB].
  apply anch_node in A. destruct A as [Ea F].
  destruct cs as [|x cs].
  - simpl in H. injection H as <-. split; [split|].
    + inversion W as [|r0 a0 cs0 N1 N2 OK0 L F0 | r0 a0 cs0 RR NE F1 F2]; subst; [|congruence].
      apply wf_one; auto.
    + apply anch_node. split; [rewrite Ea; simpl; destruct (is_anchored r); reflexivity|].
      constructor; [exact AB | constructor].
    + intros (f & b0 & l & E). injection E as -> _ _. unfold is_filter. eauto.
  - rewrite append_cons in H. destruct (append_list (x :: cs) (Node (RBand b) false [])) as [l'|] eqn:AL; [|discriminate].
    injection H as <-.
    assert (GG : Forall good (x :: cs)).
    { rewrite Forall_forall in *. intros y Hy. split; [exact (wf_child r a (x :: cs) y W Hy) | exact (F y Hy)]. }
    destruct (append_list_good b _ _ IH GG AL) as (G' & L' & FF).
    assert (Fw : Forall wf l') by (eapply Forall_impl; [|exact G']; intros y Q; apply Q).
    assert (Fa : Forall anch_ok l') by (eapply Forall_impl; [|exact G']; intros y Q; apply Q).
    split; [split|].
    + inversion W as [|r0 a0 cs0 N1 N2 OK0 L F0 | r0 a0 cs0 RR NE F1 F2]; subst.
      * apply wf_one; auto. rewrite L'. exact L.
      * refine (wf_many r _ l' RR _ Fw (FF F2)).
        intros ->. discriminate L'.
    + exact (update_anch r a l' Fa).
    + intros (f & b0 & l & E). injection E as -> _ _. unfold is_filter. simpl. eauto.
Qed.

Lemma splice_anch : forall subset s pos s', anch_ok s -> tree_splice_child subset s pos = Some s' ->
  anch_ok s' /\ s' <> Leaf.
Proof.
  intros subset s pos s' A H. unfold tree_splice_child in H.
  destruct s as [|[b| |d|g| |id| |] a cs]; try discriminate.
  destruct (node_child (Node RSequence a cs) pos) as [c|] eqn:NC; [|discriminate].
  destruct (node_child c 0) as [g|] eqn:NG; [|discriminate].
  destruct c as [|[b| |d|f| |id| |] ca ccs]; try discriminate.
  destruct g as [|[b| |d|f2| |id| |] ga gl]; try discriminate.
  destruct (intersect_children subset f gl) as [gl'|] eqn:IC; [|discriminate].
  unfold tree_sequence_splice in H. cbn [update_anchored] in H.
  destruct (pos <? length cs)%nat; [|discriminate]. injection H as <-.
  apply anch_node in A. destruct A as [_ F].
  assert (Ac : anch_ok (Node (RFilter f) ca ccs)).
  { destruct cs as [|x cs]; [discriminate|]. apply nth_error_In in NC. rewrite Forall_forall in F. auto. }
  apply anch_node in Ac. destruct Ac as [_ Fc].
  assert (Ag : anch_ok (Node RSequence ga gl)).
  { destruct ccs as [|x ccs]; [discriminate|]. injection NG as ->. inversion Fc; assumption. }
  apply anch_node in Ag. destruct Ag as [_ Fg].
  assert (Fg' : Forall anch_ok gl').
  { clear - IC Fg. revert gl' IC. induction gl as [|c gl IH]; intros gl' IC; simpl in IC.
    - injection IC as <-. constructor.
    - destruct c as [|[b| |d|g| |id| |] a cs]; try discriminate.
      destruct (intersect_children subset f gl) as [l2|]; [|discriminate]. injection IC as <-.
      inversion Fg as [|x1 x2 Fc Fl]; subst. constructor; [|auto].
      apply anch_node. apply anch_node in Fc. exact Fc. }
  split; [|discriminate]. apply (update_anch RSequence false).
  rewrite Forall_forall in *. intros x Hx. rewrite !in_app_iff in Hx.
  destruct Hx as [Hx | [Hx | Hx]]; [|auto|].
  - apply F. rewrite <- (firstn_skipn pos cs). apply in_or_app. auto.
  - apply F. rewrite <- (firstn_skipn (pos + 1) cs). apply in_or_app. auto.
Qed.

Lemma mupa_tile_length : forall scale m sizes m', mupa_tile scale m sizes = Some m' ->
  length sizes = length m -> length m' = length m.
Proof.
  intros scale. induction m as [|u m IH]; intros [|v sizes] m' H L; try discriminate; simpl in H.
  - injection H as <-. reflexivity.
  - destruct (upa_scale_down_floor u v); [|discriminate].
    destruct (mupa_tile scale m sizes) as [m1|] eqn:M; [|discriminate]. injection H as <-.
    simpl. f_equal. eapply IH; [exact M|]. injection L as L. exact L.
Qed.

Lemma not_filter : forall r a cs s', (forall f, r <> RFilter f) ->
  is_filter (Node r a cs) -> is_filter s'.
Proof. intros r a cs s' N (f & b & l & E). injection E as -> _ _. exfalso. apply (N f). reflexivity. Qed.

(* A node may be inserted above a child of a node other than a sequence or set. *)
Lemma insert_not_filter : forall p t s, wf t -> subtree t p = Some s -> check_insert t p = true ->
  forall s' t', wf s' -> graft t p s' = Some t' -> wf t'.
Proof.
  induction p as [|k p IH]; intros t s W E CI s' t' W' H.
  - discriminate CI.
  - cbn [graft] in H. cbn [subtree] in E.
    destruct (node_child t k) as [c|] eqn:NC; [|discriminate].
    destruct (graft c p s') as [c'|] eqn:G; [|discriminate].
    destruct (node_child_kid _ _ _ W NC) as (r & a & cs & -> & Wc & _).
    destruct p as [|k2 p2].
    + simpl in G. injection G as <-. simpl in E. injection E as <-.
      assert (NR : r <> RSequence /\ r <> RSet).
      { unfold check_insert, parent in CI. simpl in CI. destruct r; split; congruence. }
      destruct NR as [N1 N2].
      destruct (wf_one_inv _ _ _ W N1 N2) as [OK L].
      assert (F : Forall wf cs) by (inversion W; assumption).
      unfold replace_child in H. destruct s' as [|r' a' cs'].
      * destruct cs as [|x cs].
        -- destruct k; [injection H as <-; exact W | discriminate].
        -- destruct (length (x :: cs) =? 1)%nat; [|discriminate]. injection H as <-. apply wf_one; auto.
      * destruct cs as [|x cs].
        -- destruct k; [|discriminate]. injection H as <-. apply wf_one; auto.
        -- destruct (k <? length (x :: cs))%nat; [|discriminate]. injection H as <-.
           apply wf_one; auto; [rewrite upd_length; exact L | apply Forall_upd; assumption].
    + assert (CI2 : check_insert c (k2 :: p2) = true).
      { unfold check_insert, parent in *. cbn [removelast] in *.
        cbn [subtree] in CI. rewrite NC in CI. exact CI. }
      pose proof (IH _ _ Wc E CI2 _ _ W' G) as Wc'.
      refine (wf_replace r a cs k c c' t' W NC Wc' _ H).
      intros (f & b & l & ->). cbn [graft] in G.
      destruct (node_child (Node (RFilter f) b l) k2) as [c1|]; [|discriminate G].
      destruct (graft c1 p2 s') as [c2|]; [|discriminate G].
      unfold replace_child in G. destruct c2, l, k2; simpl in G;
        repeat match type of G with (if ?b then _ else _) = _ => destruct b end;
        try discriminate; injection G as <-; unfold is_filter; eauto.
Qed.

Lemma graft_insert : forall p t s s' t', good t -> subtree t p = Some s -> good s' -> s' <> Leaf ->
  check_insert t p = true -> graft t p s' = Some t' -> good t'.
Proof.
  intros p t s s' t' [W A] E [W' A'] NL CI H. split; [exact (insert_not_filter p t s W E CI s' t' W' H)|].
  clear E CI W W' s. revert t t' A H.
  induction p as [|k p IH]; intros t t' A H; cbn [graft] in H.
  - injection H as <-. exact A'.
  - destruct (node_child t k) as [c|] eqn:NC; [|discriminate H].
    destruct (graft c p s') as [c'|] eqn:G; [|discriminate H].
    destruct t as [|r a cs]; [discriminate NC|].
    apply anch_node in A. destruct A as [_ F].
    assert (Ac : anch_ok c).
    { unfold node_child in NC. destruct cs as [|x cs]; [injection NC as <-; constructor|].
      apply nth_error_In in NC. rewrite Forall_forall in F. auto. }
    eapply replace_anch; [exact F | exact (IH _ _ Ac G) | | exact H].
    destruct p as [|k2 p2]; [simpl in G; congruence | eapply graft_node; exact G].
Qed.

Lemma edit_good : forall subset t t', good t -> edit subset t t' -> good t'.
Proof.
  intros subset t t' GT H.
  destruct H as [p pos H | scale shift p sizes H | p mv H | p H | p m H | p r Si H | p f H | p pos H].
  - unfold node_band_split in H. destruct (subtree t p) as [s|] eqn:E; [|discriminate].
    destruct (tree_band_split s pos) as [s'|] eqn:TS; [|discriminate].
    pose proof (subtree_good _ _ _ GT E) as GS. unfold tree_band_split in TS.
    destruct s as [|[b| | | | | | |] a cs]; try discriminate.
    destruct ((pos <? 0) || (pos >? Z.of_nat (b_n b))); [discriminate|].
    destruct (band_drop b 0 pos) as [cb|] eqn:D1; [|discriminate].
    destruct (band_drop b pos (Z.of_nat (b_n b) - pos)) as [tb|] eqn:D2; [|discriminate].
    destruct (wf_one_inv _ _ _ (proj1 GS) ltac:(discriminate) ltac:(discriminate)) as [OK _].
    destruct (band_drop_ok _ _ _ _ OK D1) as [O1 A1]. destruct (band_drop_ok _ _ _ _ OK D2) as [O2 A2].
    destruct (good_two (RBand b) (RBand tb) a cs (RBand cb) s' GS ltac:(discriminate) ltac:(discriminate) ltac:(discriminate)
      ltac:(discriminate) O2 ltac:(discriminate) ltac:(discriminate) O1 A1 TS) as [G' NL].
    eapply graft_good; [exact GT | exact E | exact G' | exact NL | refine (not_filter _ _ _ _ _); intros ?; discriminate | exact H].
  - unfold node_band_tile in H. destruct (subtree t p) as [s|] eqn:E; [|discriminate].
    destruct (anchored s); [discriminate|].
    pose proof (subtree_good _ _ _ GT E) as GS.
    destruct s as [|[b| | | | | | |] a cs]; try discriminate.
    destruct (length sizes =? b_n b)%nat eqn:L; [|discriminate]. cbn [negb] in H. apply Nat.eqb_eq in L.
    destruct (tree_band_tile scale shift (Node (RBand b) a cs) sizes) as [s'|] eqn:TS; [|discriminate].
    unfold tree_band_tile in TS. destruct (band_tile scale b sizes) as [tb|] eqn:T; [|discriminate].
    unfold band_tile in T. destruct (mupa_tile scale (b_mupa b) sizes) as [m1|] eqn:M; [|discriminate].
    injection T as <-.
    destruct (wf_one_inv _ _ _ (proj1 GS) ltac:(discriminate) ltac:(discriminate)) as [OK _].
    destruct (OK b eq_refl) as [O1 O2].
    assert (Lm : length m1 = b_n b) by (rewrite <- O1; eapply mupa_tile_length; eauto; congruence).
    assert (OKt : band_ok (RBand (mkband (b_n b) (b_coin b) m1 (b_anch b)))).
    { intros b0 E0. injection E0 as <-. simpl. auto. }
    assert (OKp : band_ok (RBand (band_point shift scale b (mkband (b_n b) (b_coin b) m1 (b_anch b)) sizes))
              /\ b_anch (band_point shift scale b (mkband (b_n b) (b_coin b) m1 (b_anch b)) sizes) = b_anch b).
    { unfold band_point. destruct shift; cbn [negb]; [|auto]. split; [|reflexivity].
      intros b0 E0. injection E0 as <-. cbn [b_mupa b_n b_coin]. split; [|exact O2].
      rewrite map2_len; [exact O1|]. destruct scale; cbn [negb]; [congruence|].
      rewrite map2_len; congruence. }
    destruct OKp as [OKp AP].
    destruct (good_two (RBand b) (RBand (mkband (b_n b) (b_coin b) m1 (b_anch b))) a cs
      (RBand (band_point shift scale b (mkband (b_n b) (b_coin b) m1 (b_anch b)) sizes)) s' GS ltac:(discriminate) ltac:(discriminate) ltac:(discriminate)
      ltac:(discriminate) OKt ltac:(discriminate) ltac:(discriminate) OKp AP TS) as [G' NL].
    eapply graft_good; [exact GT | exact E | exact G' | exact NL | refine (not_filter _ _ _ _ _); intros ?; discriminate | exact H].
  - unfold node_band_scale in H. destruct (subtree t p) as [s|] eqn:E; [|discriminate].
    pose proof (subtree_good _ _ _ GT E) as GS.
    destruct s as [|[b| | | | | | |] a cs]; try discriminate.
    destruct (length mv =? b_n b)%nat eqn:L; [|discriminate]. cbn [negb] in H. apply Nat.eqb_eq in L.
    destruct (anchored (Node (RBand b) a cs)); [discriminate|]. cbn [tree_band_scale] in H.
    destruct (wf_one_inv _ _ _ (proj1 GS) ltac:(discriminate) ltac:(discriminate)) as [OK _].
    destruct (OK b eq_refl) as [O1 O2].
    apply (graft_good p t (Node (RBand b) a cs) (Node (RBand (band_scale b mv)) a cs) t'); [exact GT | exact E | | discriminate | refine (not_filter _ _ _ _ _); intros ?; discriminate | exact H].
    refine (good_one (RBand b) a a cs (RBand (band_scale b mv)) GS _ _ _ _ eq_refl _ eq_refl); try (intros Q; discriminate Q).
    intros b0 E0. injection E0 as <-. cbn [band_scale b_mupa b_n b_coin].
    rewrite map2_len by congruence. auto.
  - unfold node_band_sink in H. destruct (subtree t p) as [s|] eqn:E; [|discriminate].
    pose proof (subtree_good _ _ _ GT E) as GS.
    destruct s as [|[b| | | | | | |] a cs]; try discriminate.
    destruct a; [discriminate|]. destruct cs as [|child cs]; [injection H as <-; exact GT|].
    destruct (append_to_leaves child (reset_children (Node (RBand b) false (child :: cs)))) as [s'|] eqn:AP; [|discriminate].
    cbn [reset_children] in AP.
    destruct (wf_one_inv _ _ _ (proj1 GS) ltac:(discriminate) ltac:(discriminate)) as [OK _].
    assert (Gc : good child).
    { destruct GS as [W A]. split; [eapply wf_child; [exact W | left; reflexivity]|].
      apply anch_node in A. destruct A as [_ F]. inversion F; assumption. }
    assert (BA : b_anch b = false).
    { destruct GS as [_ A]. apply anch_node in A. destruct A as [A _]. simpl in A.
      symmetry in A. apply orb_false_iff in A. apply A. }
    destruct (append_good b OK BA child s' Gc AP) as [G' _].
    eapply graft_good; [exact GT | exact E | exact G' | eapply append_nonleaf; exact AP | refine (not_filter _ _ _ _ _); intros ?; discriminate | exact H].
  - unfold node_insert_partial_schedule in H. destruct (subtree t p) as [s|] eqn:E; [|discriminate].
    destruct (check_insert t p) eqn:CI; [|discriminate]. cbn [negb] in H.
    destruct (anchored s); [discriminate|].
    destruct (tree_insert s (RBand (band_from_mupa m))) as [s'|] eqn:TI; [|discriminate].
    destruct (good_insert (RBand (band_from_mupa m)) _ _ (subtree_good _ _ _ GT E) ltac:(discriminate) ltac:(discriminate)
      ltac:(intros b0 E0; injection E0 as <-; simpl; rewrite repeat_length; auto) TI) as [G' NL].
    exact (graft_insert p t s s' t' GT E G' NL CI H).
  - unfold node_insert in H. destruct (subtree t p) as [s|] eqn:E; [|discriminate].
    destruct (check_insert t p) eqn:CI; [|discriminate]. cbn [negb] in H.
    destruct (tree_insert s r) as [s'|] eqn:TI; [|discriminate].
    destruct (silent_one _ Si) as [N1 N2].
    destruct (good_insert r _ _ (subtree_good _ _ _ GT E) N1 N2
      ltac:(intros b0 E0; subst r; destruct Si) TI) as [G' NL].
    exact (graft_insert p t s s' t' GT E G' NL CI H).
  - unfold node_insert_filter in H. destruct (subtree t p) as [s|] eqn:E; [|discriminate].
    destruct (check_insert t p) eqn:CI; [|discriminate]. cbn [negb] in H.
    destruct (insert_filter s f) as [s'|] eqn:TI; [|discriminate].
    destruct (good_filter _ _ _ (subtree_good _ _ _ GT E) TI) as (G' & NL & FI).
    exact (graft_insert p t s s' t' GT E G' NL CI H).
  - unfold node_splice_child in H. destruct (subtree t p) as [s|] eqn:E; [|discriminate].
    destruct (tree_splice_child subset s pos) as [s'|] eqn:TS; [|discriminate].
    destruct (subtree_good _ _ _ GT E) as [Ws As].
    destruct (splice_wf _ _ _ _ Ws TS) as [W' NF]. destruct (splice_anch _ _ _ _ As TS) as [A' NL].
    exact (graft_good p t s s' t' GT E (conj W' A') NL (fun Q => False_ind _ (NF Q)) H).
Qed.

Lemma edits_good : forall subset t t', wf t -> anch_ok t -> edits subset t t' -> wf t' /\ anch_ok t'.
Proof.
  intros subset t t' W A H. assert (G : good t) by (split; assumption). clear W A.
  induction H as [t | t t1 t2 E _ IH]; [exact G|]. apply IH. eapply edit_good; eauto.
Qed.


(* The members of the bands of a split, and their flags. *)
Lemma node_split_members : forall t p pos t', wf t -> node_band_split t p pos = Some t' ->
  exists b a cs b1 a1 b2 a2, at_pos t p (Node (RBand b) a cs) /\
    at_pos t' p (Node (RBand b1) a1 [Node (RBand b2) a2 cs]) /\ same_outside p t t' /\
    0 <= pos <= Z.of_nat (b_n b) /\
    b_n b1 = Z.to_nat pos /\ b_n b2 = (b_n b - Z.to_nat pos)%nat /\ b_mupa b1 ++ b_mupa b2 = b_mupa b /\
    (forall k, (k < b_n b1)%nat -> nth k (b_coin b1) false = nth k (b_coin b) false) /\
    (forall k, (k < b_n b2)%nat -> nth k (b_coin b2) false = nth (b_n b1 + k) (b_coin b) false).
Proof.
  intros t p pos t' W H. unfold node_band_split in H.
  destruct (subtree t p) as [s|] eqn:E; [|discriminate].
  destruct (tree_band_split s pos) as [s'|] eqn:TS; [|discriminate].
  unfold tree_band_split in TS. destruct s as [|[b| | | | | | |] a cs]; try discriminate.
  destruct ((pos <? 0) || (pos >? Z.of_nat (b_n b))) eqn:Ep; [discriminate|].
  apply orb_false_iff in Ep. destruct Ep as [E1 E2].
  destruct (band_drop b 0 pos) as [cb|] eqn:D1; [|discriminate].
  destruct (band_drop b pos (Z.of_nat (b_n b) - pos)) as [tb|] eqn:D2; [|discriminate].
  assert (NL : s' <> Leaf) by (destruct cs; simpl in TS; injection TS as <-; discriminate).
  destruct (graft_ok _ _ _ _ W H (or_introl NL)) as (s0 & E0 & Ws & A & A' & SO).
  assert (s0 = Node (RBand b) a cs) by congruence. subst s0.
  destruct (replace_first' (RBand b) (RBand tb) a cs (Node (RBand cb) a cs) s' Ws TS ltac:(discriminate) ltac:(discriminate) ltac:(discriminate)) as [a' ->].
  destruct (wf_one_inv _ _ _ Ws ltac:(discriminate) ltac:(discriminate)) as [OK _].
  destruct (OK b eq_refl) as [O1 O2].
  exists b, a, cs, tb, a', cb, a. split; [exact A|]. split; [exact A'|]. split; [exact SO|].
  unfold band_drop in D1, D2.
  destruct ((0 <? 0) || (pos <? 0) || (0 + pos >? Z.of_nat (b_n b))); [discriminate|].
  destruct ((pos <? 0) || (Z.of_nat (b_n b) - pos <? 0) || (pos + (Z.of_nat (b_n b) - pos) >? Z.of_nat (b_n b))); [discriminate|].
  injection D1 as <-. injection D2 as <-. cbn [b_n b_mupa b_coin].
  replace (Z.to_nat pos + Z.to_nat (Z.of_nat (b_n b) - pos))%nat with (b_n b) by lia.
  rewrite Nat.sub_diag. cbn [shift_down]. simpl (Z.to_nat 0). cbn [Nat.add firstn app].
  split; [lia|]. split; [lia|]. split; [reflexivity|].
  split; [rewrite <- O1, skipn_all, app_nil_r; apply firstn_skipn|].
  split; [reflexivity|]. intros k Hk.
  pose proof (shift_down_spec (b_n b - Z.to_nat pos) (Z.to_nat pos) (Z.to_nat pos) (b_coin b)
    (Nat.le_refl _) ltac:(lia) k Hk) as Q. rewrite Nat.sub_diag in Q. rewrite Nat.add_0_l in Q.
  rewrite Q. f_equal. lia.
Qed.

(* A tree whose flags are right is only refused for a reason. *)
Lemma graft_total : forall p t s s', subtree t p = Some s -> s <> Leaf -> s' <> Leaf ->
  exists t', graft t p s' = Some t' /\ t' <> Leaf.
Proof.
  induction p as [|k p IH]; intros t s s' E NL NL'.
  - exists s'. auto.
  - cbn [subtree] in E. cbn [graft]. destruct (node_child t k) as [c|] eqn:NC; [|discriminate].
    destruct (IH c s s' E NL NL') as (c' & G & NLc). rewrite G.
    destruct t as [|r a cs]; [discriminate|]. unfold replace_child. destruct c' as [|r' a' cs']; [congruence|].
    destruct cs as [|x cs].
    + simpl in NC. injection NC as <-. destruct p; simpl in E; [injection E as <-; congruence | discriminate].
    + assert (L : (k < length (x :: cs))%nat) by (apply nth_error_Some; simpl in NC; congruence).
      apply Nat.ltb_lt in L. rewrite L. eexists. split; [reflexivity | discriminate].
Qed.

Lemma mupa_tile_total : forall scale m sizes, Forall (fun z => 0 < z) sizes ->
  exists m', mupa_tile scale m sizes = Some m'.
Proof.
  intros scale. induction m as [|u m IH]; intros [|v sizes] F; simpl; try (eexists; reflexivity).
  inversion F; subst. unfold upa_scale_down_floor.
  destruct (IH sizes ltac:(assumption)) as [m' ->].
  destruct (v =? 1); [eexists; reflexivity|]. destruct (v <=? 0) eqn:Q; [lia|]. eexists; reflexivity.
Qed.

Lemma node_tile_total : forall scale shift t p sizes b a cs, anch_ok t ->
  subtree t p = Some (Node (RBand b) a cs) -> ~ has_anchor (Node (RBand b) a cs) ->
  length sizes = b_n b -> Forall (fun z => 0 < z) sizes ->
  exists t', node_band_tile scale shift t p sizes = Some t'.
Proof.
  intros scale shift t p sizes b a cs A E NA L F. unfold node_band_tile. rewrite E.
  assert (As : anch_ok (Node (RBand b) a cs)).
  { clear - A E. revert t A E. induction p as [|k p IH]; intros t A E; simpl in E.
    - injection E as <-. exact A.
    - destruct (node_child t k) as [c|] eqn:NC; [|discriminate]. apply (IH c); [|exact E].
      destruct t as [|r0 a0 cs0]; [discriminate|]. apply anch_node in A. destruct A as [_ F].
      destruct cs0 as [|x cs0]; simpl in NC; [injection NC as <-; constructor|].
      apply nth_error_In in NC. rewrite Forall_forall in F. auto. }
  destruct (anchored (Node (RBand b) a cs)) eqn:An.
  - exfalso. apply NA. apply (anch_flag _ As). exact An.
  - rewrite L, Nat.eqb_refl. cbn [negb]. unfold tree_band_tile, band_tile.
    destruct (mupa_tile_total scale (b_mupa b) sizes F) as [m' ->].
    set (pb := band_point shift scale b (mkband (b_n b) (b_coin b) m' (b_anch b)) sizes).
    assert (X : exists s', replace_child (Node (RBand (mkband (b_n b) (b_coin b) m' (b_anch b))) a cs) 0
                  (Node (RBand pb) a cs) = Some s' /\ s' <> Leaf).
    { unfold replace_child. destruct cs as [|x cs]; eexists; (split; [reflexivity | discriminate]). }
    destruct X as (s' & -> & NL).
    destruct (graft_total p t _ s' E ltac:(discriminate) NL) as (t' & G & _). eauto.
Qed.

End Inv.
