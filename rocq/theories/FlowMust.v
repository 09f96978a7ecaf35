(** The last must-source at a level. *)
From Coq Require Import ZArith List Bool Arith Lia Classical_Prop.
From Verif Require Import MatModel FlowModel FlowSpec FlowBase.
Import ListNotations.
Open Scope Z_scope.

Section Core.
Context {D : Type}.
Variable lb : D -> D -> Z.
Variable pe : rel -> bool.
Hypothesis Pe : sound_empty pe.
Variable pos : D -> list Z.
Hypothesis Cb : callback_ok pos lb.
Variable sink : @lmap D.
Variables must may : list (@lmap D).
Let n := length must.
(** the sink is a function, its elements can be longer than the number of loops *)
Hypothesis Sf : forall k e e', l_map sink k e -> l_map sink k e' -> e = e'.
Hypothesis Sd : forall k e, l_map sink k e -> length k = l_dim sink.
Hypothesis Sp : (length (pos (l_data sink)) <= S (l_dim sink))%nat /\ pos (l_data sink) <> [].
Definition src_ok (a : @lmap D) : Prop := length (pos (l_data a)) = S (l_dim a) /\ forall x e, l_map a x e -> length x = l_dim a.
Hypothesis Mo : forall j, (j < n)%nat -> src_ok (nth j must sink).
Hypothesis Yo : forall j, (j < length may)%nat -> src_ok (nth j may sink).
Hypothesis Ma : forall i j, (i < n)%nat -> (j < n)%nat -> i <> j -> apart (pos (l_data (nth i must sink))) (pos (l_data (nth j must sink))).

(** the moments *)
Definition tm (a : @lmap D) (x : vec) : list Z := time (pos (l_data a)) x.
Definition acc (a : @lmap D) (w k : vec) : Prop := exists e, l_map sink k e /\ l_map a w e.
Hypothesis Hl : forall j k, (j < n)%nat -> has_last (fun w => acc (nth j must sink) w k).
(** instance [w] of [a] precedes [k] at level [l] *)
Definition inst (a : @lmap D) (l : nat) (w k : vec) : Prop := acc a w k /\ lt_at (l - 1) (tm a w) (tm sink k).
Definition msrc (j : nat) : @lmap D := nth j must sink.

Lemma after_eq d1 d2 l r : after_at_level d1 d2 l = Ok r -> forall x y, r y x <-> lev_rel l x y.
Proof. unfold after_at_level, lev_rel, equal_first, more_at. destruct (Nat.odd l); destruct (_ && _); try discriminate; intros [= <-] x y; tauto. Qed.
Lemma after_ok d1 d2 l : (if Nat.odd l then (Nat.div2 l <= d2)%nat /\ (Nat.div2 l <= d1)%nat else (Nat.div2 l - 1 < d2)%nat /\ (Nat.div2 l - 1 < d1)%nat) -> exists r, after_at_level d1 d2 l = Ok r.
Proof.
  unfold after_at_level, equal_first, more_at. destruct (Nat.odd l); intros (H1 & H2).
  - rewrite (proj2 (Nat.leb_le _ _) H2), (proj2 (Nat.leb_le _ _) H1). cbn. eauto.
  - rewrite (proj2 (Nat.ltb_lt _ _) H2), (proj2 (Nat.ltb_lt _ _) H1). cbn. eauto.
Qed.
Lemma lb_level d d' : lb d d' = level (pos d) (pos d').
Proof. apply Cb. Qed.
Lemma lb_pos d d' : (lb d d' <? 0) = false.
Proof. rewrite lb_level. apply Z.ltb_ge, level_nonneg. Qed.
Lemma div2_pred l : (1 <= l)%nat -> Nat.odd l = false -> (Nat.div2 l <> 0)%nat.
Proof. destruct l as [|[|l]]; [lia|discriminate|]. cbn. lia. Qed.

(** a source and the sink *)
Lemma sink_level a l : src_ok a -> (1 <= l)%nat ->
  (can_precede_at_level (lb (l_data a) (l_data sink)) l = true -> exists r, after_at_level (l_dim sink) (l_dim a) l = Ok r /\ forall w k, acc a w k -> (r k w <-> lt_at (l - 1) (tm a w) (tm sink k))) /\
  (can_precede_at_level (lb (l_data a) (l_data sink)) l = false -> forall w k, ~ inst a l w k).
Proof.
  intros (Pa & Xa) Hl1. destruct (Cb (l_data a) (l_data sink)) as (-> & Ap). destruct Sp as (Sp1 & Sp2).
  assert (PL : forall w k, acc a w k -> (can_precede_at_level (level (pos (l_data a)) (pos (l_data sink))) l = true /\ lev_rel l w k <-> lt_at (l - 1) (tm a w) (tm sink k))).
  { intros w k (e & Hk & Hw). apply precede_level; auto; [rewrite Pa; f_equal; symmetry; apply (Xa w e Hw)|rewrite (Sd k e Hk); exact Sp1]. }
  split.
  - intros Hc. destruct (after_ok (l_dim sink) (l_dim a) l) as (r & Er).
    + destruct (precede_level (pos (l_data a)) (pos (l_data sink)) (repeat 0 (l_dim a)) (repeat 0 (l_dim sink)) l) as (_ & X); auto; try (rewrite repeat_length; auto). specialize (X Hc). rewrite repeat_length in X. pose proof (div2_pred l Hl1) as Dp. destruct (Nat.odd l); [lia|]. specialize (Dp eq_refl). lia.
    + exists r. split; [exact Er|]. intros w k Hw. rewrite (after_eq _ _ _ _ Er). rewrite <- (PL w k Hw). tauto.
  - intros Hc w k (Hw & Hlt). apply (PL w k Hw) in Hlt. destruct Hlt; congruence.
Qed.
(** two sources *)
Lemma src_level a b l : src_ok a -> src_ok b -> (1 <= l)%nat ->
  (can_precede_at_level (lb (l_data a) (l_data b)) l = true -> exists r, after_at_level (l_dim b) (l_dim a) l = Ok r /\ forall w k v, acc a w k -> acc b v k -> (r v w <-> lt_at (l - 1) (tm a w) (tm b v))) /\
  (can_precede_at_level (lb (l_data a) (l_data b)) l = false -> forall w k v, acc a w k -> acc b v k -> ~ lt_at (l - 1) (tm a w) (tm b v)).
Proof.
  intros (Pa & Xa) (Pb & Xb) Hl1. destruct (Cb (l_data a) (l_data b)) as (-> & Ap).
  assert (PL : forall w k v, acc a w k -> acc b v k -> (can_precede_at_level (level (pos (l_data a)) (pos (l_data b))) l = true /\ lev_rel l w v <-> lt_at (l - 1) (tm a w) (tm b v))).
  { intros w k v (e & Hk & Hw) (e2 & Hk2 & Hv). apply precede_level; auto; [rewrite Pa; f_equal; symmetry; apply (Xa w e Hw)|intros E; rewrite E in Pb; discriminate|rewrite (Xb v e2 Hv), Pb; lia]. }
  split.
  - intros Hc. destruct (after_ok (l_dim b) (l_dim a) l) as (r & Er).
    + destruct (precede_level (pos (l_data a)) (pos (l_data b)) (repeat 0 (l_dim a)) (repeat 0 (l_dim b)) l) as (_ & X); auto; try (rewrite repeat_length; auto; lia); [intros E; rewrite E in Pb; discriminate|]. specialize (X Hc). rewrite repeat_length in X. pose proof (div2_pred l Hl1) as Dp. destruct (Nat.odd l); [lia|]. specialize (Dp eq_refl). lia.
    + exists r. split; [exact Er|]. intros w k v Hw Hv. rewrite (after_eq _ _ _ _ Er). rewrite <- (PL w k v Hw Hv). tauto.
  - intros Hc w k v Hw Hv Hlt. apply (PL w k v Hw Hv) in Hlt. destruct Hlt; congruence.
Qed.

Definition bef (i : nat) (w : vec) (j : nat) (w' : vec) : Prop := earlier (tm (msrc i) w) (tm (msrc j) w').
Lemma acc_len j w k : (j < n)%nat -> acc (msrc j) w k -> length (pos (l_data (msrc j))) = S (length w).
Proof. intros Hj (e & _ & Hw). destruct (Mo j Hj) as (P & X). unfold msrc. rewrite P, (X w e Hw). reflexivity. Qed.
Lemma bef_total i w j w' k : (i < n)%nat -> (j < n)%nat -> acc (msrc i) w k -> acc (msrc j) w' k -> bef i w j w' \/ bef j w' i w \/ (i = j /\ w = w').
Proof.
  intros Hi Hj Hw Hw'. destruct (Nat.eq_dec i j) as [->|N].
  - destruct (time_total (pos (l_data (msrc j))) (pos (l_data (msrc j))) w w') as [H|[H|(_ & H)]]; auto; eapply acc_len; eauto.
  - destruct (time_total (pos (l_data (msrc i))) (pos (l_data (msrc j))) w w') as [H|[H|(H & _)]]; auto; try (eapply acc_len; eauto; fail).
    + left. apply Ma; auto.
    + exfalso. destruct (Ma i j Hi Hj N) as (m & _ & _ & _ & X). unfold msrc in H. rewrite H in X. congruence.
Qed.
Lemma lex_bef j w w' k k' : (j < n)%nat -> acc (msrc j) w k -> acc (msrc j) w' k' -> (lexlt w w' <-> bef j w j w').
Proof. intros Hj Hw Hw'. apply lexlt_time; eapply acc_len; eauto. Qed.

(** Section for a level *)
Section Level.
Variable l : nat.
Hypothesis L1 : (1 <= l)%nat.
Definition lastj (j : nat) (w k : vec) : Prop := inst (msrc j) l w k /\ forall w', inst (msrc j) l w' k -> w' = w \/ lexlt w' w.
Lemma lastj_ex j k : (j < n)%nat -> (exists w, inst (msrc j) l w k) -> exists w, lastj j w k.
Proof.
  intros Hj (w & Hw & Hlt). destruct (Hl j k Hj (fun w => lt_at (l - 1) (tm (msrc j) w) (tm sink k))) as (w1 & A1 & A2 & A3); [exists w; auto|].
  exists w1. split; [split; auto|]. intros w' (B1 & B2). apply A3; auto.
Qed.
Lemma lastj_uniq j w w' k : (j < n)%nat -> lastj j w k -> lastj j w' k -> w = w'.
Proof.
  intros Hj (A1 & A2) (B1 & B2). destruct (A2 w' B1) as [E|E]; [auto|]. destruct (B2 w A1) as [E'|E']; [auto|]. exfalso.
  destruct A1 as (A1 & _), B1 as (B1 & _). apply (lex_bef j w' w k k Hj B1 A1) in E. apply (lex_bef j w w' k k Hj A1 B1) in E'. exact (earlier_asym _ _ E E').
Qed.
Definition can (j : nat) : bool := can_precede_at_level (lb (l_data (msrc j)) (l_data sink)) l.
Lemma last_source_ok set_C j : (j < n)%nat -> can j = true ->
  exists t rest, last_source sink must set_C j l = Ok (t, rest) /\ (forall w k, t w k <-> set_C k /\ lastj j w k) /\ (forall k, rest k <-> set_C k /\ ~ exists w, inst (msrc j) l w k).
Proof.
  intros Hj Hc. destruct (sink_level (msrc j) l (Mo j Hj) L1) as (X & _). destruct (X Hc) as (r & Er & Hr). unfold last_source, src. fold (msrc j). rewrite Er. cbn [bind].
  assert (E : forall w k, intersect (apply_range (l_map sink) (reverse (l_map (msrc j)))) r k w <-> inst (msrc j) l w k).
  { intros w k. unfold intersect, apply_range, reverse, inst. split.
    - intros (Ha & Hrk). split; [exact Ha|]. apply Hr; auto.
    - intros (Ha & Hlt). split; [exact Ha|]. apply Hr; auto. }
  eexists _, _. split; [reflexivity|]. split.
  - intros w k. unfold reverse, lastj. rewrite E. split; intros (H1 & H2 & H3); (split; [exact H1|]); (split; [exact H2|]); intros w' Hw'; apply H3; apply E; exact Hw'.
  - intros k. split; intros (H1 & H2); (split; [exact H1|]); intros (w & Hw); apply H2; exists w; apply E; exact Hw.
Qed.

(** [w] is the last instance of source [i], and later than those of the sources after it *)
Definition held (i : nat) (w k : vec) : Prop := (i < n)%nat /\ lastj i w k /\ forall i' w', (i < i' < n)%nat -> inst (msrc i') l w' k -> bef i' w' i w.
Section Do.
Variable D0 : vset.
Definition Hold (f : nat -> rel) : Prop := forall i w k, f i w k -> D0 k /\ held i w k.
Definition rng (f : nat -> rel) (k : vec) : Prop := exists i w, f i w k.

Lemma bef_inst i w j w' k : inst (msrc i) l w k -> inst (msrc j) l w' k -> bef i w j w' -> (i < n)%nat -> (j < n)%nat -> exists m, (l <= m <= 2 * l_dim (msrc i) + 1)%nat /\ (m <= 2 * l_dim (msrc j) + 1)%nat /\ lt_at (m - 1) (tm (msrc i) w) (tm (msrc j) w').
Proof.
  intros (A1 & A2) (B1 & B2) (m & Hm) Hi Hj. pose proof (same_level _ _ _ _ _ A2 B2 Hm) as Le. destruct Hm as (M1 & M2 & M3). unfold tm in M1, M2.
  rewrite time_length in M1 by (eapply acc_len; eauto). rewrite time_length in M2 by (eapply acc_len; eauto).
  destruct (Mo i Hi) as (Pi & _). destruct (Mo j Hj) as (Pj & _). pose proof (acc_len i w k Hi A1) as Li. pose proof (acc_len j w' k Hj B1) as Lj. fold (msrc i) in Pi. fold (msrc j) in Pj.
  exists (S m). split; [lia|]. split; [lia|]. replace (S m - 1)%nat with m by lia. split; [unfold tm; rewrite time_length; [lia|exact Li]|]. split; [unfold tm; rewrite time_length; [lia|exact Lj]|]. exact M3.
Qed.

Section Inter.
Variables (j : nat) (f0 : nat -> rel).
Hypothesis Hj : (j < n)%nat.
Hypothesis H0 : Hold f0.
(** the state of intermediate_sources *)
Record ist (f : nat -> rel) (P : vec -> vec -> Prop) : Prop := {
  is_hold : Hold f;
  is_gt : forall i w k, (j < i)%nat -> (f i w k <-> f0 i w k);
  is_j : forall w k, f j w k -> f0 j w k /\ P w k;
  is_rng : forall k, rng f k <-> rng f0 k }.
(** the instances of source [c] are before *)
Definition okc (c : nat) (w k : vec) : Prop := forall w', inst (msrc c) l w' k -> bef c w' j w.
(** the instances of source [c] are not later at the levels before [m] *)
Definition okl (c m : nat) (w k : vec) : Prop := forall w' m', (l <= m' < m)%nat -> inst (msrc c) l w' k -> ~ lt_at (m' - 1) (tm (msrc j) w) (tm (msrc c) w').
Lemma inter_levels_ok c : (c < j)%nat -> can c = true -> forall r m f, (l <= m)%nat -> (m + r = S (2 * l_dim (msrc j) + 1))%nat ->
  ist f (fun w k => okl c m w k /\ forall c', (c < c' < j)%nat -> okc c' w k) ->
  exists f', inter_levels pe sink must r m f j l c (lb (l_data (msrc j)) (l_data (msrc c))) = Ok f' /\ ist f' (fun w k => forall c', (c <= c' < j)%nat -> okc c' w k).
Proof.
  intros Hc Cc. assert (Hcn : (c < n)%nat) by lia. induction r as [|r IH]; intros m f Hm Hr [S1 S2 S3 S4]; cbn [inter_levels].
  - exists f. split; [reflexivity|]. constructor; auto. intros w k Hw. destruct (S3 w k Hw) as (A1 & A2 & A3). split; [exact A1|]. intros c' Hc'. destruct (Nat.eq_dec c' c) as [->|N]; [|apply A3; lia].
    intros w' Hi. destruct (S1 j w k Hw) as (_ & _ & (Hjw & _) & _). destruct (bef_total c w' j w k Hcn Hj) as [B|[B|(B & _)]]; [apply Hi|apply Hjw|exact B| |lia].
    exfalso. destruct (bef_inst j w c w' k Hjw Hi B Hj Hcn) as (m' & M1 & _ & M2). apply (A2 w' m'); auto. lia.
  - destruct (src_level (msrc j) (msrc c) m (Mo j Hj) (Mo c Hcn) ltac:(lia)) as (X1 & X2). destruct (can_precede_at_level (lb (l_data (msrc j)) (l_data (msrc c))) m) eqn:Ec; cbn [negb].
    2:{ apply IH; [lia|lia|]. constructor; auto. intros w k Hw. destruct (S3 w k Hw) as (A1 & A2 & A3). split; [exact A1|]. split; [|exact A3]. intros w' m' Hm' Hi. destruct (Nat.eq_dec m' m) as [->|N]; [|apply A2; auto; lia].
        destruct (S1 j w k Hw) as (_ & _ & (Hjw & _) & _). apply (X2 eq_refl w k w'); [apply Hjw|apply Hi]. }
    destruct (X1 eq_refl) as (ra & Ea & Ha). destruct (sink_level (msrc c) l (Mo c Hcn) L1) as (Y & _). destruct (Y Cc) as (rb & Eb & Hb).
    unfold last_later_source, src. fold (msrc c) (msrc j). rewrite Ea. cbn [bind]. rewrite Eb. cbn [bind].
    unfold partial_lexmax. cbn [bind]. (* the later instances of source c *)
    set (dep := intersect (intersect (apply_range (l_map sink) (reverse (l_map (msrc c)))) (reverse (apply_range ra (f j)))) rb) in *.
    set (t := reverse (fun x y : vec => range (f j) x /\ dep x y /\ (forall y' : vec, dep x y' -> y' = y \/ lexlt y' y))). set (trest := fun x : vec => range (f j) x /\ ~ (exists y : vec, dep x y)).
    assert (Ed : forall k w', dep k w' <-> inst (msrc c) l w' k /\ exists w, f j w k /\ lt_at (m - 1) (tm (msrc j) w) (tm (msrc c) w')).
    { intros k w'. unfold dep, intersect, reverse. split.
      - intros ((A1 & (w & A2 & A3)) & A4). assert (Hacc : acc (msrc c) w' k) by exact A1. destruct (S1 j w k A3) as (_ & _ & (Hjw & _) & _). split; [split; [exact Hacc|apply Hb; auto]|]. exists w. split; [exact A3|]. apply (Ha w k w'); auto. apply Hjw.
      - intros ((A1 & A2) & w & A3 & A4). destruct (S1 j w k A3) as (_ & _ & (Hjw & _) & _). split; [split; [exact A1|]|apply Hb; auto]. exists w. split; [|exact A3]. apply (Ha w k w'); auto. apply Hjw. }
    assert (Et : forall w' k, t w' k -> dep k w' /\ forall w'', dep k w'' -> w'' = w' \/ lexlt w'' w') by (intros w' k (_ & T2 & T3); split; assumption).
    assert (Lat : forall w' k, t w' k -> D0 k /\ held c w' k).
    { intros w' k Ht. destruct (Et w' k Ht) as (T1 & T2). apply Ed in T1. destruct T1 as (T1 & w & Fw & Lw). destruct (S3 w k Fw) as (_ & Ol & Oc). destruct (S1 j w k Fw) as (Dk & _ & Lj & Lg). split; [exact Dk|]. split; [exact Hcn|].
      assert (Bw : bef j w c w') by (eexists; exact Lw).
      assert (B1 : forall w2, inst (msrc j) l w2 k -> bef j w2 c w').
      { intros w2 Hi2. destruct Lj as (Lj1 & Lj2). destruct (Lj2 w2 Hi2) as [->|E]; [exact Bw|]. apply (lex_bef j w2 w k k Hj) in E; [|apply Hi2|apply Lj1]. eapply earlier_trans; eassumption. }
      split; [split; [exact T1|]|].
      - intros w2 Hi2. destruct (bef_total c w2 c w' k Hcn Hcn) as [B|[B|(_ & B)]]; [apply Hi2|apply T1| | |auto].
        + right. apply (lex_bef c w2 w' k k Hcn); auto; [apply Hi2|apply T1].
        + (* w2 is later than w' *) assert (Bj : bef j w c w2) by (eapply earlier_trans; eassumption). destruct Lj as (Lj1 & _). destruct (bef_inst j w c w2 k Lj1 Hi2 Bj Hj Hcn) as (m2 & M1 & _ & M2).
          destruct (lt_eq_lt_dec m2 m) as [[H|H]|H].
          * exfalso. apply (Ol w2 m2); auto. lia.
          * subst m2. apply T2. apply Ed. split; [exact Hi2|]. exists w. auto.
          * exfalso. destruct B as (b & Hbb). assert (Lb : lt_at (m - 1) (tm (msrc c) w2) (tm (msrc c) w')).
            { destruct Lw as (Q1 & Q2 & Q3 & Q4). destruct M2 as (Z1 & Z2 & Z3 & Z4). split; [lia|]. split; [exact Q2|]. split; [rewrite <- Q3; symmetry; apply (firstn_le (m - 1) (m2 - 1)); auto; lia|]. rewrite <- (nth_eq (m - 1) (m2 - 1) (tm (msrc j) w) (tm (msrc c) w2)); auto; lia. }
            apply (earlier_asym (tm (msrc c) w') (tm (msrc c) w2)); [exists b; exact Hbb|eexists; exact Lb].
      - intros i' w2 Hi' Hi2. destruct (lt_eq_lt_dec i' j) as [[H|H]|H].
        + eapply earlier_trans; [apply (Oc i' ltac:(lia) w2 Hi2)|exact Bw].
        + subst i'. apply B1, Hi2.
        + eapply earlier_trans; [apply (Lg i' w2 ltac:(lia) Hi2)|exact Bw]. }
    assert (Er : forall k, trest k <-> range (f j) k /\ ~ exists w', dep k w') by (intros k; reflexivity).
    assert (Cov : forall w k, f j w k -> trest k \/ exists w', t w' k).
    { intros w k Fw. destruct (classic (exists w', dep k w')) as [(w' & Hw')|N]; [|left; apply Er; split; [exists w; exact Fw|exact N]]. right.
      destruct (Hl c k Hcn (fun w' => dep k w')) as (w1 & A1 & A2 & A3); [exists w'; split; [apply Ed in Hw'; apply Hw'|exact Hw']|]. exists w1. split; [exists w; exact Fw|]. split; [exact A2|]. intros w2 Hw2. apply A3; [|exact Hw2]. apply Ed in Hw2. apply Hw2. }
    assert (Nex : forall w k, f j w k -> (forall w', ~ dep k w') -> okl c (S m) w k).
    { intros w k Fw N w' m' Hm' Hi Hlt. destruct (Nat.eq_dec m' m) as [->|Nm]; [|apply (proj1 (proj2 (S3 w k Fw)) w' m'); auto; lia]. apply (N w'). apply Ed. split; [exact Hi|]. exists w. auto. }
    destruct (pe t) eqn:Ept.
    + apply IH; [lia|lia|]. constructor; auto. intros w k Fw. destruct (S3 w k Fw) as (A1 & A2 & A3). split; [exact A1|]. split; [|exact A3]. apply Nex; [exact Fw|]. intros w' Hw'. destruct (Cov w k Fw) as [C|(w2 & C)]; [apply Er in C; apply (proj2 C); exists w'; exact Hw'|exact (Pe t Ept w2 k C)].
    + apply IH; [lia|lia|]. set (f1 := upd f j (intersect_range (f j) trest)).
      assert (Ej : upd f1 c (union (f1 c) t) j = intersect_range (f j) trest) by (unfold upd at 1; rewrite (proj2 (Nat.eqb_neq j c)) by lia; unfold f1, upd; rewrite Nat.eqb_refl; reflexivity).
      assert (Ecc : upd f1 c (union (f1 c) t) c = union (f c) t) by (unfold upd at 1; rewrite Nat.eqb_refl; unfold f1, upd; rewrite (proj2 (Nat.eqb_neq c j)) by lia; reflexivity).
      assert (Eo : forall i, i <> j -> i <> c -> upd f1 c (union (f1 c) t) i = f i) by (intros i N1 N2; unfold upd at 1; rewrite (proj2 (Nat.eqb_neq i c)) by lia; unfold f1, upd; rewrite (proj2 (Nat.eqb_neq i j)) by lia; reflexivity).
      set (f2 := upd f1 c (union (f1 c) t)) in *. constructor.
      * intros i w k Fw. destruct (Nat.eq_dec i j) as [->|N1]; [rewrite Ej in Fw; apply S1, Fw|]. destruct (Nat.eq_dec i c) as [->|N2]; [|rewrite Eo in Fw by auto; apply S1, Fw]. rewrite Ecc in Fw. destruct Fw as [Fw|Fw]; [apply S1, Fw|apply Lat, Fw].
      * intros i w k Hi. rewrite Eo by lia. apply S2, Hi.
      * intros w k Fw. rewrite Ej in Fw. destruct Fw as (Fw & Tr). destruct (S3 w k Fw) as (A1 & A2 & A3). split; [exact A1|]. split; [|exact A3]. apply Nex; [exact Fw|]. intros w' Hw'. apply Er in Tr. apply (proj2 Tr). exists w'. exact Hw'.
      * intros k. rewrite <- S4. split.
        -- intros (i & w & Fw). destruct (Nat.eq_dec i j) as [->|N1]; [rewrite Ej in Fw; exists j, w; apply Fw|]. destruct (Nat.eq_dec i c) as [->|N2]; [|rewrite Eo in Fw by auto; exists i, w; exact Fw]. rewrite Ecc in Fw. destruct Fw as [Fw|((w0 & Fw) & _)]; [exists c, w; exact Fw|exists j, w0; exact Fw].
        -- intros (i & w & Fw). destruct (Nat.eq_dec i j) as [->|N1].
           { destruct (Cov w k Fw) as [C|(w' & C)]; [exists j, w; rewrite Ej; split; assumption|exists c, w'; rewrite Ecc; right; exact C]. }
           destruct (Nat.eq_dec i c) as [->|N2]; [exists c, w; rewrite Ecc; left; exact Fw|exists i, w; rewrite Eo by auto; exact Fw].
Qed.
Lemma inter_sources_ok : forall c f, (c <= j)%nat -> ist f (fun w k => forall c', (c <= c' < j)%nat -> okc c' w k) ->
  exists f', inter_sources lb pe sink must c f j l (2 * l_dim (msrc j) + 1) = Ok f' /\ ist f' (fun w k => forall c', (c' < j)%nat -> okc c' w k).
Proof.
  induction c as [|c IH]; intros f Hc St; cbn [inter_sources].
  { exists f. split; [reflexivity|]. destruct St as [S1 S2 S3 S4]. constructor; auto. intros w k Fw. destruct (S3 w k Fw) as (A1 & A2). split; [exact A1|]. intros c' Hc'. apply A2. lia. }
  unfold src. fold (msrc c) (msrc j). rewrite !lb_pos. fold (can c). destruct (can c) eqn:Cc; cbn [negb].
  - destruct (Nat.le_gt_cases l (S (2 * l_dim (msrc j) + 1))) as [Hle|Hgt].
    + destruct (inter_levels_ok c ltac:(lia) Cc (S (2 * l_dim (msrc j) + 1) - l) l f ltac:(lia) ltac:(lia)) as (f1 & E1 & St1).
      { destruct St as [S1 S2 S3 S4]. constructor; auto. intros w k Fw. destruct (S3 w k Fw) as (A1 & A2). split; [exact A1|]. split; [intros w' m' Hm'; lia|]. intros c' Hc'. apply A2. lia. }
      rewrite E1. cbn [bind]. apply IH; [lia|exact St1].
    + replace (S (2 * l_dim (msrc j) + 1) - l)%nat with 0%nat by lia. cbn [inter_levels bind]. apply IH; [lia|]. destruct St as [S1 S2 S3 S4]. constructor; auto. intros w k Fw. exfalso. destruct (S1 j w k Fw) as (_ & _ & (Hjw & _) & _). destruct Hjw as (Hacc & (Q & _)). unfold tm in Q. pose proof (acc_len j w k Hj Hacc) as Ln. rewrite time_length in Q by exact Ln. destruct (Mo j Hj) as (P & _). fold (msrc j) in P. lia.
  - apply IH; [lia|]. destruct St as [S1 S2 S3 S4]. constructor; auto. intros w k Fw. destruct (S3 w k Fw) as (A1 & A2). split; [exact A1|]. intros c' Hc'. destruct (Nat.eq_dec c' c) as [->|N]; [|apply A2; lia]. intros w' Hi. exfalso. destruct (sink_level (msrc c) l (Mo c ltac:(lia)) L1) as (_ & Y). exact (Y Cc w' k Hi).
Qed.
Lemma intermediate_ok : exists f', intermediate_sources lb pe sink must f0 j l = Ok f' /\ ist f' (fun w k => forall c', (c' < j)%nat -> okc c' w k).
Proof.
  unfold intermediate_sources, src. fold (msrc j). destruct (pe (f0 j)) eqn:E.
  - exists f0. split; [reflexivity|]. constructor; auto; try tauto. intros w k Fw. destruct (Pe _ E w k Fw).
  - apply inter_sources_ok; [lia|]. constructor; auto; try tauto. intros w k Fw. split; [exact Fw|]. intros c' Hc'. lia.
Qed.
End Inter.

(** the state of the loops over the must-sources: the sources from [j] on have
    been considered *)
Record mst (j : nat) (f : nat -> rel) : Prop := {
  ms_hold : Hold f;
  ms_max : forall i w k, (j <= i)%nat -> f i w k -> forall i' w', (i' < i)%nat -> inst (msrc i') l w' k -> bef i' w' i w;
  ms_src : forall k, rng f k -> exists i w, (j <= i < n)%nat /\ inst (msrc i) l w k;
  ms_cov : forall i w k, D0 k -> (j <= i < n)%nat -> inst (msrc i) l w k -> rng f k }.
Definition dst (j : nat) (d : vset) : Prop := forall k, d k <-> D0 k /\ forall i w, (j <= i < n)%nat -> ~ inst (msrc i) l w k.
Lemma mst_skip j f : (j < n)%nat -> can j = false -> mst (S j) f -> mst j f.
Proof.
  intros Hj Cj [S1 S2 S3 S4]. assert (N : forall w k, ~ inst (msrc j) l w k) by (destruct (sink_level (msrc j) l (Mo j Hj) L1) as (_ & Y); exact (Y Cj)). constructor; auto.
  - intros i w k Hi Fw. destruct (Nat.eq_dec i j) as [->|Ni]; [|apply (S2 i w k); auto; lia]. destruct (S1 j w k Fw) as (_ & _ & (Hjw & _) & _). destruct (N w k Hjw).
  - intros k Hk. destruct (S3 k Hk) as (i & w & Hi & Hw). exists i, w. split; [lia|exact Hw].
  - intros i w k Dk Hi Hw. destruct (Nat.eq_dec i j) as [->|Ni]; [destruct (N w k Hw)|]. apply (S4 i w k); auto. lia.
Qed.
Lemma dst_skip j d : (j < n)%nat -> can j = false -> dst (S j) d -> dst j d.
Proof.
  intros Hj Cj Hd k. assert (N : forall w k, ~ inst (msrc j) l w k) by (destruct (sink_level (msrc j) l (Mo j Hj) L1) as (_ & Y); exact (Y Cj)). rewrite (Hd k). split; intros (H1 & H2); (split; [exact H1|]); intros i w Hi.
  - destruct (Nat.eq_dec i j) as [->|Ni]; [apply N|apply H2; lia].
  - apply H2. lia.
Qed.
(** without new instances of source [j] *)
Lemma mst_inter j f : (j < n)%nat -> mst (S j) f -> (forall k w, D0 k -> inst (msrc j) l w k -> rng f k) ->
  exists f', intermediate_sources lb pe sink must f j l = Ok f' /\ mst j f'.
Proof.
  intros Hj [S1 S2 S3 S4] Hn. destruct (intermediate_ok j f Hj S1) as (f' & E & [T1 T2 T3 T4]). exists f'. split; [exact E|]. constructor; auto.
  - intros i w k Hi Fw. destruct (Nat.eq_dec i j) as [->|Ni]; [|apply (S2 i w k); [lia|apply T2; [lia|exact Fw]]]. intros i' w' Hi' Hw'. destruct (T3 w k Fw) as (_ & O). apply (O i'); auto.
  - intros k Hk. apply T4 in Hk. destruct (S3 k Hk) as (i & w & Hi & Hw). exists i, w. split; [lia|exact Hw].
  - intros i w k Dk Hi Hw. apply T4. destruct (Nat.eq_dec i j) as [->|Ni]; [apply (Hn k w); auto|]. apply (S4 i w k); auto. lia.
Qed.
(** with the last instances of source [j] *)
Lemma mst_last j f d t rest : (j < n)%nat -> mst (S j) f -> dst (S j) d -> (forall w k, t w k <-> d k /\ lastj j w k) -> (forall k, rest k <-> d k /\ ~ exists w, inst (msrc j) l w k) ->
  dst j rest /\ exists f', intermediate_sources lb pe sink must (upd f j (union (f j) t)) j l = Ok f' /\ mst j f'.
Proof.
  intros Hj [S1 S2 S3 S4] Hd Ht Hr. split.
  { intros k. rewrite Hr, (Hd k). split.
    - intros ((A1 & A2) & A3). split; [exact A1|]. intros i w Hi. destruct (Nat.eq_dec i j) as [->|N]; [intros X; apply A3; exists w; exact X|apply A2; lia].
    - intros (A1 & A2). split; [split; [exact A1|intros i w Hi; apply A2; lia]|]. intros (w & X). apply (A2 j w); [lia|exact X]. }
  set (f1 := upd f j (union (f j) t)). assert (Ej : f1 j = union (f j) t) by (unfold f1, upd; rewrite Nat.eqb_refl; reflexivity). assert (Eo : forall i, i <> j -> f1 i = f i) by (intros i N; unfold f1, upd; rewrite (proj2 (Nat.eqb_neq i j)) by lia; reflexivity).
  assert (Rg : forall k, rng f k -> rng f1 k) by (intros k (i & w & Fw); exists i, w; destruct (Nat.eq_dec i j) as [->|N]; [rewrite Ej; left|rewrite Eo by exact N]; exact Fw).
  assert (H1 : Hold f1).
  { intros i w k Fw. destruct (Nat.eq_dec i j) as [->|N]; [|rewrite Eo in Fw by exact N; apply S1, Fw]. rewrite Ej in Fw. destruct Fw as [Fw|Fw]; [apply S1, Fw|]. apply Ht in Fw. destruct Fw as (Dk & La). apply Hd in Dk. destruct Dk as (Dk & Nk). split; [exact Dk|]. split; [exact Hj|]. split; [exact La|]. intros i' w' Hi' Hw'. destruct (Nk i' w' ltac:(lia) Hw'). }
  destruct (intermediate_ok j f1 Hj H1) as (f' & E & [T1 T2 T3 T4]). exists f'. split; [exact E|]. constructor; auto.
  - intros i w k Hi Fw. destruct (Nat.eq_dec i j) as [->|Ni].
    + intros i' w' Hi' Hw'. destruct (T3 w k Fw) as (_ & O). apply (O i'); auto.
    + apply (S2 i w k); [lia|]. apply T2 in Fw; [|lia]. rewrite Eo in Fw by exact Ni. exact Fw.
  - intros k Hk. apply T4 in Hk. destruct Hk as (i & w & Fw). destruct (Nat.eq_dec i j) as [->|Ni].
    + rewrite Ej in Fw. destruct Fw as [Fw|Fw]; [|apply Ht in Fw; exists j, w; split; [lia|apply Fw]]. destruct (S3 k) as (i & w' & Hi & Hw); [exists j, w; exact Fw|]. exists i, w'. split; [lia|exact Hw].
    + rewrite Eo in Fw by exact Ni. destruct (S3 k) as (i2 & w' & Hi & Hw); [exists i, w; exact Fw|]. exists i2, w'. split; [lia|exact Hw].
  - intros i w k Dk Hi Hw. apply T4. destruct (classic (exists i' w', (S j <= i' < n)%nat /\ inst (msrc i') l w' k)) as [(i' & w' & Hi' & Hw')|N]; [apply Rg; apply (S4 i' w' k); auto|].
    assert (i = j) as -> by (destruct (Nat.eq_dec i j) as [E'|Ne]; [exact E'|]; exfalso; apply N; exists i, w; split; [lia|exact Hw]).
    destruct (lastj_ex j k Hj) as (w1 & Hw1); [exists w; exact Hw|]. exists j, w1. rewrite Ej. right. apply Ht. split; [|exact Hw1]. apply Hd. split; [exact Dk|]. intros i' w' Hi' Hw'. apply N. exists i', w'. auto.
Qed.
(** the last of all must-sources at this level *)
Definition lastat (j : nat) (w k : vec) : Prop :=
  (j < n)%nat /\ inst (msrc j) l w k /\ forall j' w', (j' < n)%nat -> inst (msrc j') l w' k -> j' = j /\ w' = w \/ bef j' w' j w.
Lemma lastat_uniq j w j' w' k : lastat j w k -> lastat j' w' k -> j = j' /\ w = w'.
Proof.
  intros (A1 & A2 & A3) (B1 & B2 & B3). destruct (A3 j' w' B1 B2) as [(-> & ->)|E]; [auto|]. destruct (B3 j w A1 A2) as [(-> & ->)|E']; [auto|]. exfalso. exact (earlier_asym _ _ E E').
Qed.
Lemma mst_last_all f : mst 0 f -> forall j w k, f j w k <-> D0 k /\ lastat j w k.
Proof.
  intros [S1 S2 S3 S4]. assert (X : forall j w k, f j w k -> D0 k /\ lastat j w k).
  { intros j w k Fw. destruct (S1 j w k Fw) as (Dk & Hj & (Ij & Lj) & Lg). split; [exact Dk|]. split; [exact Hj|]. split; [exact Ij|]. intros j' w' Hj' Hw'. destruct (lt_eq_lt_dec j' j) as [[H|H]|H].
    - right. apply (S2 j w k); auto. lia.
    - subst j'. destruct (Lj w' Hw') as [->|E]; [auto|]. right. apply (lex_bef j w' w k k Hj); auto; [apply Hw'|apply Ij].
    - right. apply Lg; auto. }
  intros j w k. split; [apply X|]. intros (Dk & La). destruct (S4 j w k Dk) as (j' & w' & Fw); [destruct La; lia|apply La|]. destruct (X j' w' k Fw) as (_ & La'). destruct (lastat_uniq j w j' w' k La La') as (-> & ->). exact Fw.
Qed.
End Do.

Variable spe : vset -> bool.
Hypothesis Spe : sound_set_empty spe.
Section Both.
Variables D1 D2 : vset.
Record bst (j : nat) (w : work) : Prop := { b_must : mst D1 j (w_must w); b_may : mst D2 j (w_may w); b_mustdo : dst D1 j (w_mustdo w); b_maydo : dst D2 j (w_maydo w) }.
(** the second loop: all sink iterations have a source already *)
Lemma val_rest_ok : forall j w, (j <= n)%nat -> mst D1 j (w_must w) -> mst D2 j (w_may w) -> (forall k, ~ w_mustdo w k) -> (forall k, ~ w_maydo w k) ->
  (forall k, D1 k -> rng (w_must w) k) -> (forall k, D2 k -> rng (w_may w) k) ->
  exists w', val_rest lb pe sink must j w l = Ok w' /\ mst D1 0 (w_must w') /\ mst D2 0 (w_may w') /\ (forall k, ~ w_mustdo w' k) /\ (forall k, ~ w_maydo w' k) /\ (forall k, D1 k -> rng (w_must w') k) /\ (forall k, D2 k -> rng (w_may w') k).
Proof.
  induction j as [|j IH]; intros w Hj M1 M2 E1 E2 R1 R2; cbn [val_rest]; [exists w; auto 10|]. unfold src. fold (msrc j). rewrite lb_pos. fold (can j). destruct (can j) eqn:Cj; cbn [negb].
  - destruct (mst_inter D1 j (w_must w) ltac:(lia) M1) as (f1 & Ef1 & N1); [intros k w0 Dk _; apply R1, Dk|]. rewrite Ef1. cbn [bind].
    destruct (mst_inter D2 j (w_may w) ltac:(lia) M2) as (f2 & Ef2 & N2); [intros k w0 Dk _; apply R2, Dk|]. rewrite Ef2. cbn [bind].
    apply IH; auto; [lia| |]; cbn [w_must w_may].
    + intros k Dk. destruct (ms_src _ _ _ M1 k (R1 k Dk)) as (i & w0 & Hi & Hw0). apply (ms_cov _ _ _ N1 i w0 k Dk); [lia|exact Hw0].
    + intros k Dk. destruct (ms_src _ _ _ M2 k (R2 k Dk)) as (i & w0 & Hi & Hw0). apply (ms_cov _ _ _ N2 i w0 k Dk); [lia|exact Hw0].
  - apply IH; auto; [lia|apply mst_skip; auto; lia|apply mst_skip; auto; lia].
Qed.
Lemma val_sources_ok : forall j w, (j <= n)%nat -> bst j w ->
  exists w', val_sources lb pe spe sink must j w l = Ok w' /\ bst 0 w'.
Proof.
  induction j as [|j IH]; intros w Hj [M1 M2 E1 E2]; cbn [val_sources]; [exists w; split; [reflexivity|constructor; assumption]|]. unfold src. fold (msrc j). rewrite lb_pos. fold (can j). destruct (can j) eqn:Cj; cbn [negb].
  - destruct (last_source_ok (w_mustdo w) j ltac:(lia) Cj) as (t1 & r1 & -> & Ht1 & Hr1). cbn [bind]. destruct (mst_last D1 j _ _ t1 r1 ltac:(lia) M1 E1 Ht1 Hr1) as (F1 & f1 & -> & N1). cbn [bind].
    destruct (last_source_ok (w_maydo w) j ltac:(lia) Cj) as (t2 & r2 & -> & Ht2 & Hr2). cbn [bind]. destruct (mst_last D2 j _ _ t2 r2 ltac:(lia) M2 E2 Ht2 Hr2) as (F2 & f2 & -> & N2). cbn [bind].
    destruct (spe r1) eqn:Ep1; cbn [andb]; [destruct (spe r2) eqn:Ep2|]; try (apply IH; [lia|constructor; assumption]).
    pose proof (Spe r1 Ep1) as Z1. pose proof (Spe r2 Ep2) as Z2.
    assert (Al : forall (D0 d : vset) f, dst D0 j d -> mst D0 j f -> (forall k, ~ d k) -> forall k, D0 k -> rng f k).
    { intros D0 d f Hd Hm Hz k Dk. destruct (classic (exists i w0, (j <= i < n)%nat /\ inst (msrc i) l w0 k)) as [(i & w0 & Hi & Hw0)|N]; [apply (ms_cov _ _ _ Hm i w0 k Dk Hi Hw0)|]. exfalso. apply (Hz k). apply Hd. split; [exact Dk|]. intros i w0 Hi Hw0. apply N. exists i, w0. auto. }
    destruct (val_rest_ok j (mkw f1 f2 r1 r2)) as (w' & Ew & X1 & X2 & X3 & X4 & X5 & X6); cbn [w_must w_may w_mustdo w_maydo]; auto; [lia|apply (Al D1 r1 f1); auto|apply (Al D2 r2 f2); auto|].
    exists w'. split; [exact Ew|]. constructor; auto.
    + intros k. split; [intros H; destruct (X3 k H)|]. intros (Dk & Nk). exfalso. destruct (ms_src _ _ _ X1 k (X5 k Dk)) as (i & w0 & Hi & Hw0). exact (Nk i w0 Hi Hw0).
    + intros k. split; [intros H; destruct (X4 k H)|]. intros (Dk & Nk). exfalso. destruct (ms_src _ _ _ X2 k (X6 k Dk)) as (i & w0 & Hi & Hw0). exact (Nk i w0 Hi Hw0).
  - apply IH; [lia|]. constructor; [apply mst_skip|apply mst_skip|apply dst_skip|apply dst_skip]; auto; lia.
Qed.
Definition nomust (k : vec) : Prop := forall i w, (i < n)%nat -> ~ inst (msrc i) l w k.
Lemma val_sources_all : exists w', val_sources lb pe spe sink must n (mkw (fun _ => empty_rel) (fun _ => empty_rel) D1 D2) l = Ok w' /\
  (forall j w k, w_must w' j w k <-> D1 k /\ lastat j w k) /\ (forall j w k, w_may w' j w k <-> D2 k /\ lastat j w k) /\
  (forall k, w_mustdo w' k <-> D1 k /\ nomust k) /\ (forall k, w_maydo w' k <-> D2 k /\ nomust k).
Proof.
  assert (B0 : bst n (mkw (fun _ => empty_rel) (fun _ => empty_rel) D1 D2)).
  { assert (M : forall D0, mst D0 n (fun _ => empty_rel)) by (intros D0; constructor; [intros i w k []|intros i w k _ []|intros k (i & w & [])|intros i w k _ Hi; lia]).
    assert (E : forall D0, dst D0 n D0) by (intros D0 k; split; [intros H; split; [exact H|intros i w Hi; lia]|tauto]). constructor; cbn; auto. }
  destruct (val_sources_ok n _ (Nat.le_refl n) B0) as (w' & E & [M1 M2 E1 E2]). exists w'. split; [exact E|]. split; [apply mst_last_all, M1|]. split; [apply mst_last_all, M2|]. split.
  - intros k. rewrite (E1 k). unfold nomust. split; intros (H1 & H2); (split; [exact H1|]); intros i w Hi; apply H2; lia.
  - intros k. rewrite (E2 k). unfold nomust. split; intros (H1 & H2); (split; [exact H1|]); intros i w Hi; apply H2; lia.
Qed.
End Both.
End Level.
End Core.
