(** The dependence analysis computes the dependences. *)
From Coq Require Import ZArith List Bool Arith Lia Classical_Prop Permutation.
From Verif Require Import MatModel SortModel SortSpec SortProofs FlowModel FlowSpec FlowBase FlowMust FlowMay.
Import ListNotations.
Open Scope Z_scope.

Section Flow.
Context {D : Type}.
Variable lb : D -> D -> Z.
Variable pe : rel -> bool.
Hypothesis Pe : sound_empty pe.
Variable spe : vset -> bool.
Hypothesis Spe : sound_set_empty spe.
Variable pos : D -> list Z.
Variable elem : nat.
Variable sink : @lmap D.
Definition sk : @lmap D := mkl (range_map (l_dim sink) (l_map sink)) (l_dim sink + elem) (l_data sink).

Section Spec.
Variables must may : list (@lmap D).
Hypothesis Ok_ : problem_ok pos lb elem sink must may.
Lemma sk_map k e : l_map sk k e -> exists s, k = s ++ e /\ length s = l_dim sink /\ l_map sink s e.
Proof.
  cbn [sk l_map]. unfold range_map. intros (H & ->). destruct (p_sink _ _ _ _ _ _ Ok_) as (_ & X). exists (firstn (l_dim sink) k). split; [symmetry; apply firstn_skipn|]. split; [apply (X _ _ H)|exact H].
Qed.
Lemma sk_app s e e' : length s = l_dim sink -> (l_map sk (s ++ e) e' <-> e' = e /\ l_map sink s e).
Proof.
  intros Hs. cbn [sk l_map]. unfold range_map. rewrite <- Hs, firstn_app, skipn_app, firstn_all, skipn_all, Nat.sub_diag. cbn [firstn skipn]. rewrite app_nil_r. cbn [app]. tauto.
Qed.
Lemma acc_sk a w s e : length s = l_dim sink -> (acc sk a w (s ++ e) <-> l_map sink s e /\ l_map a w e).
Proof.
  intros Hs. unfold acc. split.
  - intros (e' & H1 & H2). apply (sk_app s e e' Hs) in H1. destruct H1 as (-> & H1). auto.
  - intros (H1 & H2). exists e. split; [apply sk_app; auto|exact H2].
Qed.
Lemma tm_sk s e : length s = l_dim sink -> tm pos sk (s ++ e) = moment pos sink s.
Proof. intros Hs. unfold tm, moment. cbn [sk l_data]. apply time_app. destruct (p_sink _ _ _ _ _ _ Ok_) as (X & _). lia. Qed.
Lemma inst_sk a l w s e : length s = l_dim sink -> (inst pos sk a l w (s ++ e) <-> l_map sink s e /\ l_map a w e /\ lt_at (l - 1) (moment pos a w) (moment pos sink s)).
Proof. intros Hs. unfold inst. rewrite acc_sk, tm_sk by exact Hs. unfold tm, moment. tauto. Qed.
Lemma H_Sd k e : l_map sk k e -> length k = l_dim sk.
Proof. intros H. apply sk_map in H. destruct H as (s & -> & H1 & H2). cbn [sk l_dim]. rewrite app_length, H1. f_equal. destruct (p_sink _ _ _ _ _ _ Ok_) as (_ & X). apply (X _ _ H2). Qed.
Lemma H_Sp : (length (pos (l_data sk)) <= S (l_dim sk))%nat /\ pos (l_data sk) <> [].
Proof. destruct (p_sink _ _ _ _ _ _ Ok_) as (X & _). cbn [sk l_dim l_data]. rewrite X. split; [lia|]. intros E. rewrite E in X. discriminate. Qed.
Lemma ok_src a : access_ok pos elem a -> src_ok pos a.
Proof. intros (H1 & H2). split; [exact H1|]. intros x e H. apply (H2 x e H). Qed.
Lemma H_Mo j : (j < length must)%nat -> src_ok pos (nth j must sk).
Proof. intros Hj. apply ok_src. apply (p_must _ _ _ _ _ _ Ok_). apply nth_In, Hj. Qed.
Lemma H_Yo j : (j < length may)%nat -> src_ok pos (nth j may sk).
Proof. intros Hj. apply ok_src. apply (p_may _ _ _ _ _ _ Ok_). apply nth_In, Hj. Qed.
Lemma H_Ma i j : (i < length must)%nat -> (j < length must)%nat -> i <> j -> apart (pos (l_data (nth i must sk))) (pos (l_data (nth j must sk))).
Proof. intros Hi Hj N. rewrite (nth_indep must sk sink Hi), (nth_indep must sk sink Hj). apply (p_apart _ _ _ _ _ _ Ok_); auto. Qed.
Lemma has_last_none (A : vset) : (forall w, ~ A w) -> has_last A.
Proof. intros H P (w & Hw & _). destruct (H w Hw). Qed.
Lemma H_Hl j k : (j < length must)%nat -> has_last (fun w => acc sk (nth j must sk) w k).
Proof.
  intros Hj. destruct (classic (exists e, l_map sk k e)) as [(e & He)|N]; [|apply has_last_none; intros w (e & He & _); apply N; exists e; exact He].
  apply sk_map in He. destruct He as (s & -> & Hs & Hm). pose proof (proj2 (p_must _ _ _ _ _ _ Ok_ _ (nth_In must sk Hj)) e) as H. intros P (w & Hw & Pw). apply acc_sk in Hw; [|exact Hs].
  destruct (H P) as (w1 & A1 & A2 & A3); [exists w; tauto|]. exists w1. split; [apply acc_sk; auto|]. split; [exact A2|]. intros w' Hw'. apply acc_sk in Hw'; [|exact Hs]. apply A3, Hw'.
Qed.

Section Sink.
Variables s e : vec.
Hypothesis Hs : length s = l_dim sink.
Let k := s ++ e.
Let cand := candidate pos sink.
Lemma cand_inst (L : list lmap) j w : (j < length L)%nat -> l_map sink s e -> (cand L j w s e <-> exists l, (0 < l)%nat /\ inst pos sk (nth j L sk) l w k).
Proof.
  intros Hj Hm. unfold cand, candidate, k. rewrite (nth_indep L sk sink Hj). split.
  - intros (_ & H1 & i & H2). exists (S i). split; [lia|]. apply inst_sk; [exact Hs|]. replace (S i - 1)%nat with i by lia. auto.
  - intros (l & Hl & H). apply inst_sk in H; [|exact Hs]. split; [exact Hj|]. split; [apply H|]. exists (l - 1)%nat. apply H.
Qed.
Lemma inst_sink a l w : inst pos sk a l w k -> l_map sink s e.
Proof. intros H. apply inst_sk in H; [|exact Hs]. apply H. Qed.
Lemma cand_lt L j w : cand L j w s e -> (j < length L)%nat.
Proof. intros H. apply H. Qed.
Lemma dom_sk : dom sk k <-> l_map sink s e.
Proof.
  unfold dom, domain, k. split; [intros (y & H); apply sk_app in H; [apply H|exact Hs]|]. intros H. exists e. apply sk_app; auto.
Qed.
Lemma mustgt_0 : l_map sink s e -> (mustgt pos sk must 0 k <-> exists j w, cand must j w s e).
Proof.
  intros Hm. split.
  - intros (l & j & w & H1 & H2 & H3). exists j, w. apply cand_inst; auto. exists l. auto.
  - intros (j & w & H). pose proof (cand_lt _ _ _ H) as Hj. apply cand_inst in H; auto. destruct H as (l & H1 & H2). exists l, j, w. auto.
Qed.
Lemma maygt_0 : l_map sink s e -> (maygt pos sk may 0 k <-> exists i v, cand may i v s e).
Proof.
  intros Hm. split.
  - intros (l & j & w & H1 & H2 & H3). exists j, w. apply cand_inst; auto. exists l. auto.
  - intros (j & w & H). pose proof (cand_lt _ _ _ H) as Hj. apply cand_inst in H; auto. destruct H as (l & H1 & H2). exists l, j, w. auto.
Qed.
(** the source that precedes at an inner level comes last *)
Lemma inner_last a b l l' w w' : inst pos sk a l w k -> inst pos sk b l' w' k -> (0 < l)%nat -> (l < l')%nat -> earlier (tm pos a w) (tm pos b w').
Proof. intros (_ & H1) (_ & H2) H3 H4. exists (l - 1)%nat. apply (outer_first (l - 1) (l' - 1) _ _ (tm pos sk k)); auto. lia. Qed.
Lemma lastgt_last j w : (exists l, lastgt pos sk must 0 l j w k) <-> l_map sink s e /\ last pos sink must j w s e.
Proof.
  split.
  - intros (l & H1 & (Hj & H2 & H3) & H4). pose proof (inst_sink _ _ _ H2) as Hm. split; [exact Hm|]. split; [apply cand_inst; auto; exists l; auto|].
    intros j' w' Hc. pose proof (cand_lt _ _ _ Hc) as Hj'. apply cand_inst in Hc; auto. destruct Hc as (l' & L1 & L2). destruct (lt_eq_lt_dec l' l) as [[Q|Q]|Q].
    + right. unfold before. rewrite <- (nth_indep must sk sink Hj), <- (nth_indep must sk sink Hj'). exact (inner_last _ _ l' l w' w L2 H2 L1 Q).
    + subst l'. destruct (H3 j' w' Hj' L2) as [E|E]; [left; exact E|]. right. unfold before. rewrite <- (nth_indep must sk sink Hj), <- (nth_indep must sk sink Hj'). exact E.
    + exfalso. apply H4. exists l', j', w'. auto.
  - intros (Hm & Hc & Hla). pose proof (cand_lt _ _ _ Hc) as Hj. apply cand_inst in Hc; auto. destruct Hc as (l & L1 & L2). exists l. split; [exact L1|].
    assert (B : forall l' j' w', (0 < l')%nat -> (j' < length must)%nat -> inst pos sk (nth j' must sk) l' w' k -> j' = j /\ w' = w \/ bef pos sk must j' w' j w).
    { intros l' j' w' Q1 Q2 Q3. destruct (Hla j' w') as [E|E]; [apply cand_inst; auto; exists l'; auto|left; exact E|]. right. unfold before in E. rewrite <- (nth_indep must sk sink Hj), <- (nth_indep must sk sink Q2) in E. exact E. }
    split; [split; [exact Hj|]; split; [exact L2|intros j' w'; apply B, L1]|].
    intros (l' & j' & w' & Q1 & Q2 & Q3). pose proof (inner_last _ _ l l' w w' L2 Q3 L1 Q1) as E. destruct (B l' j' w') as [(-> & ->)|E']; [lia|auto|auto|exact (earlier_irr _ E)|exact (earlier_asym _ _ E E')].
Qed.
Lemma lastat_of_last j w l : l_map sink s e -> last pos sink must j w s e -> (0 < l)%nat -> inst pos sk (nth j must sk) l w k -> lastat pos sk must l j w k.
Proof.
  intros Hm Hl L1 Hi. destruct (proj2 (lastgt_last j w) (conj Hm Hl)) as (l0 & L0 & La & _). replace l with l0; [exact La|]. destruct La as (_ & (_ & I) & _). destruct Hi as (_ & I'). pose proof (lt_at_uniq _ _ _ _ I I'). lia.
Qed.
Lemma mayafter_spec l j w : lastgt pos sk must 0 l j w k -> (mayafter pos sk must may l j w k <-> exists i v, cand may i v s e /\ follows pos sink must may i v j w).
Proof.
  intros (L1 & (Hj & H2 & H3) & H4). pose proof (inst_sink _ _ _ H2) as Hm. unfold mayafter, follows, before. rewrite <- (nth_indep must sk sink Hj). split.
  - intros [(l' & i & v & Q1 & Q2 & Q3)|(i & v & Q2 & Q3 & Q4)]; exists i, v; (split; [apply cand_inst; auto; eexists; split; [|exact Q3]; lia|]); rewrite <- (nth_indep may sk sink Q2); [exact (inner_last _ _ l l' w v H2 Q3 L1 Q1)|exact Q4].
  - intros (i & v & Hc & Hf). pose proof (cand_lt _ _ _ Hc) as Hi. apply cand_inst in Hc; auto. destruct Hc as (l' & Q1 & Q2). rewrite <- (nth_indep may sk sink Hi) in Hf. destruct (lt_eq_lt_dec l' l) as [[Q|Q]|Q].
    + exfalso. exact (earlier_asym _ _ Hf (inner_last _ _ l' l v w Q2 H2 Q1 Q)).
    + subst l'. right. exists i, v. auto.
    + left. exists l', i, v. auto.
Qed.
(** if there is a must-source, then there is a last one *)
Lemma last_ex : l_map sink s e -> (exists j w, cand must j w s e) -> exists j w, last pos sink must j w s e.
Proof.
  intros Hm.
  assert (Lj : forall j, (j < length must)%nat -> (exists w, cand must j w s e) -> exists w, cand must j w s e /\ forall w', cand must j w' s e -> w' = w \/ before pos (nth j must sink) w' (nth j must sink) w).
  { intros j Hj (w & Hw). destruct (proj2 (p_must _ _ _ _ _ _ Ok_ _ (nth_In must sink Hj)) e (fun w => before pos (nth j must sink) w sink s)) as (w1 & A1 & A2 & A3); [exists w; split; apply Hw|].
    exists w1. split; [split; [exact Hj|auto]|]. intros w' (_ & B1 & B2). destruct (A3 w' B1 B2) as [->|Lt]; [left; reflexivity|]. right. destruct (p_must _ _ _ _ _ _ Ok_ _ (nth_In must sink Hj)) as ((P1 & P2) & _). unfold before, moment. apply lexlt_time; [rewrite (proj1 (P2 _ _ B1)); exact P1|rewrite (proj1 (P2 _ _ A1)); exact P1|exact Lt]. }
  assert (G : forall m, (m <= length must)%nat -> (exists j w, (j < m)%nat /\ cand must j w s e) -> exists j w, (j < m)%nat /\ cand must j w s e /\ forall j' w', (j' < m)%nat -> cand must j' w' s e -> j' = j /\ w' = w \/ before pos (nth j' must sink) w' (nth j must sink) w).
  { induction m as [|m IH]; intros Hm' (j & w & Hj & Hw); [lia|].
    destruct (classic (exists j w, (j < m)%nat /\ cand must j w s e)) as [Y|N].
    - destruct (IH ltac:(lia) Y) as (j1 & w1 & J1 & C1 & B1). destruct (classic (exists w, cand must m w s e)) as [Y2|N2].
      + destruct (Lj m ltac:(lia) Y2) as (w2 & C2 & B2). pose proof (cand_lt _ _ _ C1) as Z1.
        assert (T : before pos (nth j1 must sink) w1 (nth m must sink) w2 \/ before pos (nth m must sink) w2 (nth j1 must sink) w1).
        { destruct (p_must _ _ _ _ _ _ Ok_ _ (nth_In must sink Z1)) as ((P1 & P2) & _). destruct (p_must _ _ _ _ _ _ Ok_ _ (nth_In must sink (proj1 C2))) as ((P3 & P4) & _).
          destruct (time_total (pos (l_data (nth j1 must sink))) (pos (l_data (nth m must sink))) w1 w2) as [H|[H|(H & _)]]; [left; apply (p_apart _ _ _ _ _ _ Ok_); lia| | |left; exact H|right; exact H|].
          - rewrite P1. f_equal. symmetry. apply (P2 w1 e), C1.
          - rewrite P3. f_equal. symmetry. apply (P4 w2 e), C2.
          - exfalso. destruct (p_apart _ _ _ _ _ _ Ok_ j1 m Z1 ltac:(lia) ltac:(lia)) as (i & _ & _ & _ & Q). rewrite H in Q. congruence. }
        destruct T as [T|T].
        * exists m, w2. split; [lia|]. split; [exact C2|]. intros j' w' Hj' C'. destruct (Nat.eq_dec j' m) as [->|Nj].
          -- destruct (B2 w' C') as [->|E]; [left; auto|right; exact E].
          -- right. destruct (B1 j' w' ltac:(lia) C') as [(-> & ->)|E]; [exact T|exact (earlier_trans _ _ _ E T)].
        * exists j1, w1. split; [lia|]. split; [exact C1|]. intros j' w' Hj' C'. destruct (Nat.eq_dec j' m) as [->|Nj]; [|apply B1; [lia|exact C']].
          right. destruct (B2 w' C') as [->|E]; [exact T|exact (earlier_trans _ _ _ E T)].
      + exists j1, w1. split; [lia|]. split; [exact C1|]. intros j' w' Hj' C'. destruct (Nat.eq_dec j' m) as [->|Nj]; [exfalso; apply N2; exists w'; exact C'|apply B1; [lia|exact C']].
    - assert (j = m) as -> by (destruct (Nat.eq_dec j m); [assumption|exfalso; apply N; exists j, w; split; [lia|exact Hw]]).
      destruct (Lj m ltac:(lia)) as (w2 & C2 & B2); [exists w; exact Hw|]. exists m, w2. split; [lia|]. split; [exact C2|]. intros j' w' Hj' C'. destruct (Nat.eq_dec j' m) as [->|Nj].
      + destruct (B2 w' C') as [->|E]; [left; auto|right; exact E].
      + exfalso. apply N. exists j', w'. split; [lia|exact C']. }
  intros (j & w & Hc). destruct (G (length must) (Nat.le_refl _)) as (j1 & w1 & _ & C1 & B1); [exists j, w; split; [apply Hc|exact Hc]|]. exists j1, w1. split; [exact C1|]. intros j' w' C'. apply B1; [apply C'|exact C'].
Qed.
Lemma may_spec i v : (exists l, (0 < l)%nat /\ (i < length may)%nat /\ inst pos sk (nth i may sk) l v k /\ ~ mustgt pos sk must l k /\ (nomust pos sk must l k \/ exists j w, lastat pos sk must l j w k /\ earlier (tm pos (nth j must sk) w) (tm pos (nth i may sk) v))) <-> may_dep pos sink must may i v s e.
Proof.
  split.
  - intros (l & L1 & Hi & H1 & H2 & H3). pose proof (inst_sink _ _ _ H1) as Hm. split; [exact Hm|]. split; [apply cand_inst; auto; exists l; auto|].
    intros j w Hl. pose proof (proj1 (proj1 Hl)) as Hj. destruct (proj2 (lastgt_last j w) (conj Hm Hl)) as (l0 & L0 & La & Lb). unfold follows, before. rewrite <- (nth_indep must sk sink Hj), <- (nth_indep may sk sink Hi). destruct (lt_eq_lt_dec l0 l) as [[Q|Q]|Q].
    + apply (inner_last _ _ l0 l w v); auto. apply La.
    + subst l0. destruct H3 as [H3|(j' & w' & H3 & H4)]; [destruct La as (_ & La & _); destruct (H3 j w Hj La)|]. destruct (lastat_uniq _ _ _ _ _ _ _ _ _ La H3) as (-> & ->). exact H4.
    + exfalso. apply H2. exists l0, j, w. split; [exact Q|]. split; [exact Hj|apply La].
  - intros (Hm & Hc & Hf). pose proof (cand_lt _ _ _ Hc) as Hi. apply cand_inst in Hc; auto. destruct Hc as (l & L1 & L2). exists l. split; [exact L1|]. split; [exact Hi|]. split; [exact L2|].
    assert (NM : ~ mustgt pos sk must l k).
    { intros (l' & j' & w' & Q1 & Q2 & Q3). destruct (last_ex Hm) as (j & w & Hl); [exists j', w'; apply cand_inst; auto; exists l'; split; [lia|exact Q3]|]. pose proof (proj1 (proj1 Hl)) as Hj. destruct (proj2 (lastgt_last j w) (conj Hm Hl)) as (l0 & L0 & La & Lb).
      assert (L0' : (l' <= l0)%nat) by (destruct (Nat.le_gt_cases l' l0) as [X|X]; [exact X|]; exfalso; apply Lb; exists l', j', w'; auto).
      specialize (Hf j w Hl). unfold follows, before in Hf. rewrite <- (nth_indep must sk sink Hj), <- (nth_indep may sk sink Hi) in Hf. destruct La as (_ & La & _). exact (earlier_asym _ _ Hf (inner_last _ _ l l0 v w L2 La L1 ltac:(lia))). }
    split; [exact NM|]. destruct (classic (nomust pos sk must l k)) as [Y|N]; [left; exact Y|right].
    assert (E : exists j' w', (j' < length must)%nat /\ inst pos sk (nth j' must sk) l w' k) by (destruct (classic (exists j' w', (j' < length must)%nat /\ inst pos sk (nth j' must sk) l w' k)) as [X|X]; [exact X|]; exfalso; apply N; intros j' w' Hj' Hw'; apply X; exists j', w'; auto).
    destruct E as (j' & w' & Q2 & Q3). destruct (last_ex Hm) as (j & w & Hl); [exists j', w'; apply cand_inst; auto; exists l; auto|]. pose proof (proj1 (proj1 Hl)) as Hj. destruct (proj2 (lastgt_last j w) (conj Hm Hl)) as (l0 & L0 & La & Lb).
    destruct (lt_eq_lt_dec l0 l) as [[Q|Q]|Q].
    + exfalso. apply Lb. exists l, j', w'. auto.
    + subst l0. exists j, w. split; [exact La|]. specialize (Hf j w Hl). unfold follows, before in Hf. rewrite <- (nth_indep must sk sink Hj), <- (nth_indep may sk sink Hi) in Hf. exact Hf.
    + exfalso. apply NM. exists l0, j, w. split; [exact Q|]. split; [exact Hj|apply La].
Qed.
End Sink.

(** the result in terms of the sinks extended with the accessed element *)
Record core_spec (f : flow) : Prop := {
  c_must : forall j w s e, length s = l_dim sink -> (f_must f j w (s ++ e) <-> must_dep pos sink must may j w s e);
  c_maym : forall j w s e, length s = l_dim sink -> (f_maym f j w (s ++ e) <-> maym_dep pos sink must may j w s e);
  c_may : forall i v s e, length s = l_dim sink -> (f_may f i v (s ++ e) <-> may_dep pos sink must may i v s e);
  c_mustno : forall s e, length s = l_dim sink -> (f_must_no f (s ++ e) <-> must_no pos sink must may s e);
  c_mayno : forall s e, length s = l_dim sink -> (f_may_no f (s ++ e) <-> may_no pos sink must may s e) }.
Lemma val_core : exists f, compute_val_based_dependences lb pe spe sk must may = Ok f /\ core_spec f.
Proof.
  destruct (val_ok lb pe Pe spe Spe pos (p_call _ _ _ _ _ _ Ok_) sk must may H_Sd H_Sp H_Mo H_Yo H_Ma H_Hl) as (f & E & [T1 T2 T3 T4 T5]). exists f. split; [exact E|]. constructor.
  - intros j w s e Hs. rewrite T1. unfold must_dep. split.
    + intros (l & H1 & H2). destruct (proj1 (lastgt_last s e Hs j w) (ex_intro _ l H1)) as (A & B). split; [exact A|]. split; [exact B|]. intros X. apply H2. apply (mayafter_spec s e Hs l j w H1). exact X.
    + intros (H1 & H2 & H3). destruct (proj2 (lastgt_last s e Hs j w) (conj H1 H2)) as (l & L). exists l. split; [exact L|]. intros X. apply H3. apply (mayafter_spec s e Hs l j w L). exact X.
  - intros j w s e Hs. rewrite T2. unfold maym_dep. split.
    + intros (l & H1 & H2). destruct (proj1 (lastgt_last s e Hs j w) (ex_intro _ l H1)) as (A & B). split; [exact A|]. split; [exact B|]. apply (mayafter_spec s e Hs l j w H1). exact H2.
    + intros (H1 & H2 & H3). destruct (proj2 (lastgt_last s e Hs j w) (conj H1 H2)) as (l & L). exists l. split; [exact L|]. apply (mayafter_spec s e Hs l j w L). exact H3.
  - intros i v s e Hs. rewrite T3. apply (may_spec s e Hs).
  - intros s e Hs. rewrite T4, dom_sk by exact Hs. unfold must_no. split; intros (H1 & H2 & H3); (split; [exact H1|]); rewrite (mustgt_0 s e Hs H1), (maygt_0 s e Hs H1) in *; auto.
  - intros s e Hs. rewrite T5, dom_sk by exact Hs. unfold may_no. split; intros (H1 & H2 & H3); (split; [exact H1|]); rewrite (mustgt_0 s e Hs H1), (maygt_0 s e Hs H1) in *; auto.
Qed.
End Spec.
End Flow.
