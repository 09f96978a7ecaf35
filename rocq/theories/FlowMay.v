(** The may-sources at a level, and all levels. *)
From Coq Require Import ZArith List Bool Arith Lia Classical_Prop.
From Verif Require Import MatModel FlowModel FlowSpec FlowBase FlowMust.
Import ListNotations.
Open Scope Z_scope.

Section Core.
Context {D : Type}.
Variable lb : D -> D -> Z.
Variable pe : rel -> bool.
Hypothesis Pe : sound_empty pe.
Variable spe : vset -> bool.
Hypothesis Spe : sound_set_empty spe.
Variable pos : D -> list Z.
Hypothesis Cb : callback_ok pos lb.
Variable sink : @lmap D.
Variables must may : list (@lmap D).
Hypothesis Sd : forall k e, l_map sink k e -> length k = l_dim sink.
Hypothesis Sp : (length (pos (l_data sink)) <= S (l_dim sink))%nat /\ pos (l_data sink) <> [].
Hypothesis Mo : forall j, (j < length must)%nat -> src_ok pos (nth j must sink).
Hypothesis Yo : forall j, (j < length may)%nat -> src_ok pos (nth j may sink).
Hypothesis Ma : forall i j, (i < length must)%nat -> (j < length must)%nat -> i <> j -> apart (pos (l_data (nth i must sink))) (pos (l_data (nth j must sink))).
Hypothesis Hl : forall j k, (j < length must)%nat -> has_last (fun w => acc sink (nth j must sink) w k).
Let msrc (j : nat) : @lmap D := nth j must sink.
Definition ysrc (i : nat) : @lmap D := nth i may sink.
Let acc := acc sink.
Let inst := inst pos sink.
Let tm := tm pos.
Let lastat := lastat pos sink must.
Let nomust := nomust pos sink must.
(** must-source instance [w] is executed before may-source instance [v] *)
Definition fol (j : nat) (w : vec) (i : nat) (v : vec) : Prop := earlier (tm (msrc j) w) (tm (ysrc i) v).

Section Level.
Variable l : nat.
Hypothesis L1 : (1 <= l)%nat.
Lemma sinky i : (i < length may)%nat ->
  (can_precede_at_level (lb (l_data (ysrc i)) (l_data sink)) l = true -> exists r, after_at_level (l_dim sink) (l_dim (ysrc i)) l = Ok r /\ forall w k, acc (ysrc i) w k -> (r k w <-> lt_at (l - 1) (tm (ysrc i) w) (tm sink k))) /\
  (can_precede_at_level (lb (l_data (ysrc i)) (l_data sink)) l = false -> forall w k, ~ inst (ysrc i) l w k).
Proof. intros Hi. apply (sink_level lb pos Cb sink must Sd Sp (ysrc i) l (Yo i Hi) L1). Qed.
Lemma all_sources_ok (d : vset) i : (i < length may)%nat -> can_precede_at_level (lb (l_data (ysrc i)) (l_data sink)) l = true ->
  exists t, all_sources sink may d i l = Ok t /\ forall v k, t v k <-> d k /\ inst (ysrc i) l v k.
Proof.
  intros Hi Hc. destruct (proj1 (sinky i Hi) Hc) as (r & Er & Hr). unfold all_sources, src. fold (ysrc i). rewrite Er. cbn [bind]. eexists. split; [reflexivity|].
  intros v k. unfold reverse, intersect, apply_range, intersect_domain. split.
  - intros ((e & (H1 & H2) & H3) & H4). split; [exact H2|]. assert (A : acc (ysrc i) v k) by (exists e; auto). split; [exact A|apply Hr; auto].
  - intros (H1 & (e & H2 & H3) & H4). split; [exists e; auto|]. apply Hr; [exists e; auto|exact H4].
Qed.
Lemma later_ok (old : rel) i c m : (i < length may)%nat -> (c < length must)%nat -> (1 <= m)%nat -> can_precede_at_level (lb (l_data (ysrc i)) (l_data sink)) l = true -> can_precede_at_level (lb (l_data (msrc c)) (l_data (ysrc i))) m = true ->
  (forall w k, old w k -> acc (msrc c) w k) ->
  exists t, all_later_sources sink must may old i l c m = Ok t /\ forall v k, t v k <-> inst (ysrc i) l v k /\ exists w, old w k /\ lt_at (m - 1) (tm (msrc c) w) (tm (ysrc i) v).
Proof.
  intros Hi Hc Hm C1 C2 Ho. destruct (proj1 (sinky i Hi) C1) as (rb & Eb & Hb). destruct (proj1 (src_level lb pos Cb sink must Sp (msrc c) (ysrc i) m (Mo c Hc) (Yo i Hi) Hm) C2) as (ra & Ea & Ha).
  unfold all_later_sources, src. fold (ysrc i). fold (msrc c). rewrite Ea. cbn [bind]. rewrite Eb. cbn [bind]. eexists. split; [reflexivity|].
  intros v k. unfold reverse, intersect, apply_range, intersect_domain, range. split.
  - intros (((e & (H1 & _) & H3) & w & H4 & H5) & H6). assert (A : acc (ysrc i) v k) by (exists e; auto). split; [split; [exact A|apply Hb; auto]|]. exists w. split; [exact H5|]. apply (Ha w k v); auto. apply Ho, H5.
  - intros ((A & H2) & w & H3 & H4). pose proof A as (e & E1 & E2). split; [split|apply Hb; auto].
    + exists e. split; [split; [exact E1|exists w; exact H3]|exact E2].
    + exists w. split; [|exact H3]. apply (Ha w k v); auto. apply Ho, H3.
Qed.

Lemma acc_leny i v k : (i < length may)%nat -> acc (ysrc i) v k -> length (pos (l_data (ysrc i))) = S (length v) /\ length v = l_dim (ysrc i).
Proof. intros Hi (e & _ & Hw). destruct (Yo i Hi) as (P & X). unfold ysrc. rewrite P, (X v e Hw). auto. Qed.
Lemma fol_inst c w i v k : (i < length may)%nat -> inst (msrc c) l w k -> inst (ysrc i) l v k -> fol c w i v -> exists m, (l <= m <= 2 * l_dim (ysrc i) + 1)%nat /\ lt_at (m - 1) (tm (msrc c) w) (tm (ysrc i) v).
Proof.
  intros Hi (A1 & A2) (B1 & B2) (m & Hm). pose proof (same_level _ _ _ _ _ A2 B2 Hm) as Le. pose proof Hm as (M1 & M2 & _). destruct (acc_leny i v k Hi B1) as (X1 & X2). unfold tm, FlowMust.tm in M2. rewrite time_length in M2 by exact X1.
  exists (S m). replace (S m - 1)%nat with m by lia. split; [lia|exact Hm].
Qed.

Section May.
Variable i : nat.
Hypothesis Hi : (i < length may)%nat.
Hypothesis Ci : can_precede_at_level (lb (l_data (ysrc i)) (l_data sink)) l = true.
(** some instance of the may-source follows at a level before [m] *)
Definition found (c m : nat) (w k : vec) : Prop := exists v m', (l <= m' < m)%nat /\ inst (ysrc i) l v k /\ lt_at (m' - 1) (tm (msrc c) w) (tm (ysrc i) v).
Definition foundv (c m : nat) (w v k : vec) : Prop := exists m', (l <= m' < m)%nat /\ inst (ysrc i) l v k /\ lt_at (m' - 1) (tm (msrc c) w) (tm (ysrc i) v).

Lemma all_levels_ok c : (c < length must)%nat -> forall (M0 Y0 : nat -> rel) (map0 : rel),
  (forall w k, M0 c w k -> inst (msrc c) l w k) -> (forall w k, Y0 c w k -> inst (msrc c) l w k) -> (forall w w' k, M0 c w k -> M0 c w' k -> w = w') ->
  forall r m (map : rel) (mr yr : nat -> rel), (l <= m)%nat -> (m + r = S (2 * l_dim (ysrc i) + 1))%nat ->
  (forall v k, map v k <-> map0 v k \/ exists w, (M0 c w k \/ Y0 c w k) /\ foundv c m w v k) ->
  (forall j w k, mr j w k <-> if (j =? c)%nat then M0 c w k /\ ~ found c m w k else M0 j w k) ->
  (forall j w k, yr j w k <-> if (j =? c)%nat then Y0 c w k \/ M0 c w k /\ found c m w k else Y0 j w k) ->
  exists map' mr' yr', all_inter_levels sink must may r m map mr yr i l c (lb (l_data (msrc c)) (l_data (ysrc i))) = Ok (map', mr', yr') /\
  (forall v k, map' v k <-> map0 v k \/ exists w, (M0 c w k \/ Y0 c w k) /\ inst (ysrc i) l v k /\ fol c w i v) /\
  (forall j w k, mr' j w k <-> if (j =? c)%nat then M0 c w k /\ ~ exists v, inst (ysrc i) l v k /\ fol c w i v else M0 j w k) /\
  (forall j w k, yr' j w k <-> if (j =? c)%nat then Y0 c w k \/ M0 c w k /\ exists v, inst (ysrc i) l v k /\ fol c w i v else Y0 j w k).
Proof.
  intros Hc M0 Y0 map0 HM HY HU. induction r as [|r IH]; intros m map mr yr Hm Hr Emap Emr Eyr; cbn [all_inter_levels].
  - assert (F : forall w v k, inst (msrc c) l w k -> (foundv c m w v k <-> inst (ysrc i) l v k /\ fol c w i v)).
    { intros w v k Hw. split; [intros (m' & _ & H1 & H2); split; [exact H1|exists (m' - 1)%nat; exact H2]|]. intros (H1 & H2). destruct (fol_inst c w i v k Hi Hw H1 H2) as (m' & Hm' & Lt). exists m'. split; [lia|auto]. }
    assert (F' : forall w k, inst (msrc c) l w k -> (found c m w k <-> exists v, inst (ysrc i) l v k /\ fol c w i v)).
    { intros w k Hw. split; [intros (v & m' & H); exists v; apply F; [exact Hw|exists m'; exact H]|]. intros (v & H). apply F in H; [|exact Hw]. destruct H as (m' & H). exists v, m'. exact H. }
    exists map, mr, yr. split; [reflexivity|]. split; [|split].
    + intros v k. rewrite Emap. split; (intros [H|(w & H1 & H2)]; [left; exact H|right; exists w; split; [exact H1|]]); apply F; auto; destruct H1 as [H1|H1]; auto.
    + intros j w k. rewrite Emr. destruct (j =? c)%nat; [|tauto]. split; intros (H1 & H2); (split; [exact H1|]); intros X; apply H2; apply F'; auto.
    + intros j w k. rewrite Eyr. destruct (j =? c)%nat; [|tauto]. split; (intros [H|(H1 & H2)]; [left; exact H|right; split; [exact H1|apply F'; auto]]).
  - destruct (can_precede_at_level (lb (l_data (msrc c)) (l_data (ysrc i))) m) eqn:Ec; cbn [negb].
    + assert (HA : forall w k, inst (msrc c) l w k -> acc (msrc c) w k) by (intros w k H; apply H).
      assert (My : forall w k, yr c w k -> inst (msrc c) l w k) by (intros w k H; apply Eyr in H; rewrite Nat.eqb_refl in H; destruct H as [H|(H & _)]; auto).
      assert (Mm : forall w k, mr c w k -> inst (msrc c) l w k) by (intros w k H; apply Emr in H; rewrite Nat.eqb_refl in H; apply HM, H).
      destruct (later_ok (yr c) i c m Hi Hc ltac:(lia) Ci Ec) as (t1 & -> & Ht1); [auto|]. cbn [bind]. destruct (later_ok (mr c) i c m Hi Hc ltac:(lia) Ci Ec) as (t2 & -> & Ht2); [auto|]. cbn [bind].
      assert (Fs : forall w k, found c (S m) w k <-> found c m w k \/ exists v, inst (ysrc i) l v k /\ lt_at (m - 1) (tm (msrc c) w) (tm (ysrc i) v)).
      { intros w k. split.
        - intros (v & m' & H1 & H2 & H3). destruct (Nat.eq_dec m' m) as [->|N]; [right; exists v; auto|left; exists v, m'; split; [lia|auto]].
        - intros [(v & m' & H1 & H2)|(v & H1 & H2)]; [exists v, m'; split; [lia|exact H2]|exists v, m; split; [lia|auto]]. }
      apply IH; [lia|lia| | |].
      * intros v k. unfold union. rewrite Emap, Ht1, Ht2. split.
        -- intros [[[H|(w & H1 & m' & H2 & H3)]|(H1 & w & H2 & H3)]|(H1 & w & H2 & H3)].
           ++ left. exact H.
           ++ right. exists w. split; [exact H1|]. exists m'. split; [lia|exact H3].
           ++ right. exists w. apply Eyr in H2. rewrite Nat.eqb_refl in H2. split; [tauto|]. exists m. split; [lia|auto].
           ++ right. exists w. apply Emr in H2. rewrite Nat.eqb_refl in H2. split; [tauto|]. exists m. split; [lia|auto].
        -- intros [H|(w & H1 & m' & H2 & H3 & H4)]; [left; left; left; exact H|]. destruct (Nat.eq_dec m' m) as [->|N]; [|left; left; right; exists w; split; [exact H1|exists m'; split; [lia|auto]]].
           destruct (classic (yr c w k)) as [Y|NY]; [left; right; split; [exact H3|exists w; auto]|]. right. split; [exact H3|]. exists w. split; [|exact H4]. apply Emr. rewrite Nat.eqb_refl.
           rewrite (Eyr c w k), Nat.eqb_refl in NY. destruct H1 as [H1|H1]; [|tauto]. split; [exact H1|]. intros X. apply NY. auto.
      * intros j w k. unfold upd. destruct (Nat.eqb_spec j c) as [->|N]; [|rewrite Emr, (proj2 (Nat.eqb_neq j c)) by exact N; tauto].
        unfold subtract, from_range, range. rewrite Fs. rewrite (Emr c w k), Nat.eqb_refl. split.
        -- intros ((H1 & H2) & H3). split; [exact H1|]. intros [H4|(v & H4 & H5)]; [exact (H2 H4)|]. apply H3. exists v. apply Ht2. split; [exact H4|]. exists w. split; [|exact H5]. apply Emr. rewrite Nat.eqb_refl. auto.
        -- intros (H1 & H2). split; [split; [exact H1|tauto]|]. intros (v & Hv). apply Ht2 in Hv. destruct Hv as (V1 & w' & V2 & V3). apply Emr in V2. rewrite Nat.eqb_refl in V2. assert (w' = w) as -> by (apply (HU w' w k); tauto). apply H2. right. exists v. auto.
      * intros j w k. unfold upd. destruct (Nat.eqb_spec j c) as [->|N]; [|rewrite Eyr, (proj2 (Nat.eqb_neq j c)) by exact N; tauto].
        unfold union, intersect_range, range. rewrite Fs. rewrite (Eyr c w k), (Emr c w k), Nat.eqb_refl. split.
        -- intros [[H|(H1 & H2)]|((H1 & H2) & (v & Hv))]; [left; exact H|right; auto|]. right. split; [exact H1|]. apply Ht2 in Hv. destruct Hv as (V1 & w' & V2 & V3). apply Emr in V2. rewrite Nat.eqb_refl in V2. assert (w' = w) as -> by (apply (HU w' w k); tauto). right. exists v. auto.
        -- intros [H|(H1 & H2)]; [left; left; exact H|]. destruct (classic (found c m w k)) as [F|NF]; [left; right; auto|]. destruct H2 as [H2|(v & V1 & V2)]; [contradiction|]. right. split; [auto|]. exists v. apply Ht2. split; [exact V1|]. exists w. split; [|exact V2]. apply Emr. rewrite Nat.eqb_refl. auto.
    + pose proof (proj2 (src_level lb pos Cb sink must Sp (msrc c) (ysrc i) m (Mo c Hc) (Yo i Hi) ltac:(lia)) Ec) as X.
      assert (Fv : forall w v k, inst (msrc c) l w k -> (foundv c (S m) w v k <-> foundv c m w v k)).
      { intros w v k Hw. split; intros (m' & H1 & H2 & H3); exists m'; (split; [|auto]); [|lia]. destruct (Nat.eq_dec m' m) as [->|N]; [|lia]. exfalso. apply (X w k v); auto; [apply Hw|apply H2]. }
      assert (Fs : forall w k, inst (msrc c) l w k -> (found c (S m) w k <-> found c m w k)).
      { intros w k Hw. split; intros (v & m' & H); assert (Q : exists m', _) by (exists m'; exact H).
        - apply (Fv w v k Hw) in Q. destruct Q as (m2 & Q). exists v, m2. exact Q.
        - apply (Fv w v k Hw) in Q. destruct Q as (m2 & Q). exists v, m2. exact Q. }
      apply IH; [lia|lia| | |].
      * intros v k. rewrite Emap. split; (intros [H|(w & H1 & H2)]; [left; exact H|right; exists w; split; [exact H1|]]); apply Fv; auto; destruct H1 as [H1|H1]; auto.
      * intros j w k. rewrite Emr. destruct (j =? c)%nat; [|tauto]. split; intros (H1 & H2); (split; [exact H1|]); intros Z; apply H2; apply Fs; auto.
      * intros j w k. rewrite Eyr. destruct (j =? c)%nat; [|tauto]. split; (intros [H|(H1 & H2)]; [left; exact H|right; split; [exact H1|apply Fs; auto]]).
Qed.
Definition after_it (c : nat) (w k : vec) : Prop := exists v, inst (ysrc i) l v k /\ fol c w i v.
Lemma all_inter_ok (M0 Y0 : nat -> rel) (map0 : rel) :
  (forall j w k, M0 j w k -> inst (msrc j) l w k) -> (forall j w k, Y0 j w k -> inst (msrc j) l w k) -> (forall j w w' k, M0 j w k -> M0 j w' k -> w = w') ->
  (forall j w k, M0 j w k \/ Y0 j w k -> (j < length must)%nat) ->
  exists map' mr' yr', all_intermediate_sources lb pe sink must may map0 M0 Y0 i l = Ok (map', mr', yr') /\
  (forall v k, map' v k <-> map0 v k \/ exists c w, (M0 c w k \/ Y0 c w k) /\ inst (ysrc i) l v k /\ fol c w i v) /\
  (forall j w k, mr' j w k <-> M0 j w k /\ ~ after_it j w k) /\
  (forall j w k, yr' j w k <-> Y0 j w k \/ M0 j w k /\ after_it j w k).
Proof.
  intros HM HY HU HN. unfold all_intermediate_sources, src. fold (ysrc i).
  assert (G : forall r c (map : rel) (mr yr : nat -> rel), (c + r = length must)%nat ->
    (forall v k, map v k <-> map0 v k \/ exists c' w, (c' < c)%nat /\ (M0 c' w k \/ Y0 c' w k) /\ inst (ysrc i) l v k /\ fol c' w i v) ->
    (forall j w k, mr j w k <-> M0 j w k /\ ~ ((j < c)%nat /\ after_it j w k)) -> (forall j w k, yr j w k <-> Y0 j w k \/ M0 j w k /\ (j < c)%nat /\ after_it j w k) ->
    exists map' mr' yr', all_inter_sources lb pe sink must may r c map mr yr i l (2 * l_dim (ysrc i) + 1) = Ok (map', mr', yr') /\
      (forall v k, map' v k <-> map0 v k \/ exists c w, (M0 c w k \/ Y0 c w k) /\ inst (ysrc i) l v k /\ fol c w i v) /\
      (forall j w k, mr' j w k <-> M0 j w k /\ ~ after_it j w k) /\ (forall j w k, yr' j w k <-> Y0 j w k \/ M0 j w k /\ after_it j w k)).
  { induction r as [|r IH]; intros c map mr yr Hc Emap Emr Eyr; cbn [all_inter_sources].
    - exists map, mr, yr. split; [reflexivity|]. split; [|split].
      + intros v k. rewrite Emap. split; (intros [H|H]; [left; exact H|right]); [destruct H as (c' & w & _ & H); exists c', w; exact H|]. destruct H as (c' & w & H1 & H2). exists c', w. split; [specialize (HN c' w k H1); lia|auto].
      + intros j w k. rewrite Emr. split; intros (H1 & H2); (split; [exact H1|]); intros H3; apply H2; [|tauto]. split; [|exact H3]. specialize (HN j w k (or_introl H1)). lia.
      + intros j w k. rewrite Eyr. split; (intros [H|(H1 & H2)]; [left; exact H|right; split; [exact H1|]]); [tauto|]. split; [|exact H2]. specialize (HN j w k (or_introl H1)). lia.
    - assert (Hcn : (c < length must)%nat) by lia.
      assert (Ex : forall j w k, (j < S c)%nat /\ after_it j w k <-> (j < c)%nat /\ after_it j w k \/ j = c /\ after_it j w k).
      { intros j w k. split; [intros (H1 & H2); destruct (Nat.eq_dec j c) as [->|N]; [auto|left; split; [lia|exact H2]]|]. intros [(H1 & H2)|(-> & H2)]; (split; [lia|exact H2]). }
      destruct (pe (yr c) && pe (mr c)) eqn:Ep.
      + apply andb_prop in Ep. destruct Ep as (Ep1 & Ep2). assert (NM : forall w k, ~ M0 c w k) by (intros w k H; apply (Pe _ Ep2 w k), Emr; split; [exact H|lia]). assert (NY : forall w k, ~ Y0 c w k) by (intros w k H; apply (Pe _ Ep1 w k), Eyr; left; exact H).
        apply IH; [lia| | |].
        * intros v k. rewrite Emap. split; (intros [H|(c' & w & H1 & H2)]; [left; exact H|right; exists c', w]); [split; [lia|exact H2]|]. split; [|exact H2]. destruct (Nat.eq_dec c' c) as [->|N]; [|lia]. exfalso. destruct H2 as ([H2|H2] & _); [apply (NM w k H2)|apply (NY w k H2)].
        * intros j w k. rewrite Emr, Ex. split; intros (H1 & H2); (split; [exact H1|]); [|tauto]. intros [H3|(-> & _)]; [tauto|apply (NM w k H1)].
        * intros j w k. rewrite Eyr, Ex. split; (intros [H|(H1 & H2)]; [left; exact H|right; split; [exact H1|]]); [tauto|]. destruct H2 as [H2|(-> & _)]; [exact H2|destruct (NM w k H1)].
      + unfold src. fold (ysrc i). fold (msrc c). rewrite (lb_pos lb pos Cb).
        destruct (Nat.le_gt_cases l (S (2 * l_dim (ysrc i) + 1))) as [Hle|Hgt].
        * destruct (all_levels_ok c Hcn mr yr map) with (r := (S (2 * l_dim (ysrc i) + 1) - l)%nat) (m := l) (map := map) (mr := mr) (yr := yr) as (m1 & mr1 & yr1 & E1 & X1 & X2 & X3).
          -- intros w k H. apply Emr in H. apply HM, H.
          -- intros w k H. apply Eyr in H. destruct H as [H|(H & _)]; [apply HY, H|apply HM, H].
          -- intros w w' k H H'. apply Emr in H. apply Emr in H'. apply (HU c w w' k); tauto.
          -- lia.
          -- lia.
          -- intros v k. split; [auto|]. intros [H|(w & _ & m' & H & _)]; [exact H|lia].
          -- intros j w k. destruct (Nat.eqb_spec j c) as [->|N]; [|tauto]. split; [|tauto]. intros H. split; [exact H|]. intros (v & m' & H1 & _). lia.
          -- intros j w k. destruct (Nat.eqb_spec j c) as [->|N]; [|tauto]. split; [auto|]. intros [H|(_ & v & m' & H1 & _)]; [exact H|lia].
          -- rewrite E1. cbn [bind]. apply IH; [lia| | |].
             ++ intros v k. rewrite X1, Emap. split.
                ** intros [[H|(c' & w & H1 & H2)]|(w & H1 & H2)]; [left; exact H|right; exists c', w; split; [lia|exact H2]|]. right. exists c, w. split; [lia|]. split; [|exact H2]. rewrite Emr, Eyr in H1. tauto.
                ** intros [H|(c' & w & H1 & H2 & H3)]; [left; left; exact H|]. destruct (Nat.eq_dec c' c) as [->|N]; [|left; right; exists c', w; split; [lia|auto]]. right. exists w. split; [|exact H3]. rewrite Emr, Eyr. destruct H2 as [H2|H2]; [left; split; [exact H2|lia]|right; left; exact H2].
             ++ intros j w k. rewrite X2, Ex. destruct (Nat.eqb_spec j c) as [->|N]; rewrite Emr.
                ** fold (after_it c w k). split; [intros ((H1 & H2) & H3)|intros (H1 & H2)]; [split; [exact H1|]|split; [split; [exact H1|tauto]|tauto]]. intros [H4|(_ & H4)]; tauto.
                ** tauto.
             ++ intros j w k. rewrite X3, Ex. destruct (Nat.eqb_spec j c) as [->|N]; rewrite Eyr; [|tauto]. rewrite Emr. fold (after_it c w k). split; [tauto|]. intros [H|(H1 & [H2|(_ & H2)])]; [tauto|lia|]. right. split; [|exact H2]. split; [exact H1|lia].
        * replace (S (2 * l_dim (ysrc i) + 1) - l)%nat with 0%nat by lia. cbn [all_inter_levels bind].
          assert (No : forall v k, ~ inst (ysrc i) l v k). { intros v k (A & (_ & _ & _) & _) || intros v k (A & (Q & _)). destruct (acc_leny i v k Hi A) as (Z1 & Z2). unfold tm, FlowMust.tm in Q. rewrite time_length in Q by exact Z1. lia. }
          apply IH; [lia| | |].
          -- intros v k. rewrite Emap. split; (intros [H|(c' & w & H1 & H2 & H3 & H4)]; [left; exact H|destruct (No v k H3)]).
          -- intros j w k. rewrite Emr, Ex. split; intros (H1 & H2); (split; [exact H1|]); [|tauto]. intros [H3|(_ & v & H3 & _)]; [tauto|destruct (No v k H3)].
          -- intros j w k. rewrite Eyr, Ex. split; (intros [H|(H1 & H2)]; [left; exact H|right; split; [exact H1|]]); [tauto|]. destruct H2 as [H2|(_ & v & H2 & _)]; [exact H2|destruct (No v k H2)]. }
  apply (G (length must) 0%nat); [reflexivity| | |].
  - intros v k. split; [auto|]. intros [H|(c & w & H & _)]; [exact H|lia].
  - intros j w k. split; [|tauto]. intros H. split; [exact H|lia].
  - intros j w k. split; [auto|]. intros [H|(_ & H & _)]; [exact H|lia].
Qed.
End May.

(** the loop over the may-sources *)
Section Mays.
Variables (D1 D2 : vset) (dep0 : nat -> rel).
(** some of the first [i] may-sources has an instance at this level (after [w]) *)
Definition anyy (i : nat) (k : vec) : Prop := exists i' v, (i' < i)%nat /\ inst (ysrc i') l v k.
Definition anya (i j : nat) (w k : vec) : Prop := exists i' v, (i' < i)%nat /\ inst (ysrc i') l v k /\ fol j w i' v.
Definition newdep (i : nat) (v k : vec) : Prop := inst (ysrc i) l v k /\ (D1 k \/ D2 k) /\ (nomust l k \/ exists j w, lastat l j w k /\ fol j w i v).
Record yst (i : nat) (w : work) (dep : nat -> rel) : Prop := {
  y_must : forall j x k, w_must w j x k <-> D1 k /\ lastat l j x k /\ ~ anya i j x k;
  y_may : forall j x k, w_may w j x k <-> (D2 k /\ lastat l j x k) \/ (D1 k /\ lastat l j x k /\ anya i j x k);
  y_mustdo : forall k, w_mustdo w k <-> D1 k /\ nomust l k /\ ~ anyy i k;
  y_maydo : forall k, w_maydo w k <-> (D2 k /\ nomust l k) \/ (D1 k /\ nomust l k /\ anyy i k);
  y_dep : forall i' v k, dep i' v k <-> dep0 i' v k \/ (i' < i)%nat /\ newdep i' v k }.
Lemma anyy_S i k : anyy (S i) k <-> anyy i k \/ exists v, inst (ysrc i) l v k.
Proof.
  split.
  - intros (i' & v & H1 & H2). destruct (Nat.eq_dec i' i) as [->|N]; [right; exists v; exact H2|left; exists i', v; split; [lia|exact H2]].
  - intros [(i' & v & H1 & H2)|(v & H)]; [exists i', v; split; [lia|exact H2]|exists i, v; split; [lia|exact H]].
Qed.
Lemma anya_S i j w k : anya (S i) j w k <-> anya i j w k \/ after_it i j w k.
Proof.
  split.
  - intros (i' & v & H1 & H2). destruct (Nat.eq_dec i' i) as [->|N]; [right; exists v; exact H2|left; exists i', v; split; [lia|exact H2]].
  - intros [(i' & v & H1 & H2)|(v & H)]; [exists i', v; split; [lia|exact H2]|exists i, v; split; [lia|exact H]].
Qed.
Lemma val_may_ok : forall r i w dep, (i + r = length may)%nat -> yst i w dep -> exists w' dep', val_may lb pe sink must may r i w dep l = Ok (w', dep') /\ yst (length may) w' dep'.
Proof.
  induction r as [|r IH]; intros i w dep Hr [S1 S2 S3 S4 S5]; cbn [val_may]; [exists w, dep; split; [reflexivity|]; replace (length may) with i by lia; constructor; assumption|].
  assert (Hi : (i < length may)%nat) by lia. unfold src. fold (ysrc i). rewrite (lb_pos lb pos Cb). destruct (can_precede_at_level (lb (l_data (ysrc i)) (l_data sink)) l) eqn:Ci; cbn [negb].
  - destruct (all_sources_ok (w_maydo w) i Hi Ci) as (t1 & -> & Ht1). cbn [bind]. destruct (all_sources_ok (w_mustdo w) i Hi Ci) as (t2 & -> & Ht2). cbn [bind].
    set (dep2 := upd (upd dep i (union (dep i) t1)) i (union (upd dep i (union (dep i) t1) i) t2)). cbv zeta.
    assert (Ed2 : forall v k, dep2 i v k <-> dep i v k \/ t1 v k \/ t2 v k) by (intros v k; unfold dep2, upd; rewrite Nat.eqb_refl; unfold union; tauto).
    assert (Ed2' : forall i', i' <> i -> dep2 i' = dep i') by (intros i' N; unfold dep2, upd; rewrite (proj2 (Nat.eqb_neq i' i)) by exact N; reflexivity).
    destruct (all_inter_ok i Hi Ci (w_must w) (w_may w) (dep2 i)) as (m' & mr' & yr' & -> & X1 & X2 & X3).
    { intros j x k H. apply S1 in H. apply H. }
    { intros j x k H. apply S2 in H. destruct H as [(_ & H)|(_ & H & _)]; apply H. }
    { intros j x x' k H H'. apply S1 in H. apply S1 in H'. apply (lastat_uniq pos sink must l j x j x' k); [apply H|apply H']. }
    { intros j x k [H|H]; [apply S1 in H; apply H|]. apply S2 in H. destruct H as [(_ & H)|(_ & H & _)]; apply H. }
    cbn [bind]. apply IH; [lia|]. constructor; cbn [w_must w_may w_mustdo w_maydo].
    + intros j x k. rewrite X2, S1, anya_S. tauto.
    + intros j x k. rewrite X3, S1, S2, anya_S. destruct (classic (anya i j x k)); tauto.
    + intros k. unfold set_subtract, range. rewrite S3, anyy_S. split.
      * intros ((H1 & H2 & H3) & H4). split; [exact H1|]. split; [exact H2|]. intros [H5|(v & H5)]; [exact (H3 H5)|]. apply H4. exists v. apply Ht2. split; [apply S3; auto|exact H5].
      * intros (H1 & H2 & H3). split; [split; [exact H1|tauto]|]. intros (v & Hv). apply Ht2 in Hv. apply H3. right. exists v. apply Hv.
    + intros k. unfold set_union, range. rewrite S4, anyy_S. split.
      * intros [[H|H]|(v & Hv)]; [tauto|tauto|]. apply Ht2 in Hv. destruct Hv as (V1 & V2). apply S3 in V1. right. split; [apply V1|]. split; [apply V1|]. right. exists v. exact V2.
      * intros [H|(H1 & H2 & H3)]; [tauto|]. destruct (classic (anyy i k)) as [A|NA]; [tauto|]. destruct H3 as [H3|(v & H3)]; [contradiction|]. right. exists v. apply Ht2. split; [apply S3; auto|exact H3].
    + intros i' v k. destruct (Nat.eq_dec i' i) as [->|N].
      * unfold upd at 1. rewrite Nat.eqb_refl. rewrite X1, Ed2, Ht1, Ht2, S5, S3, S4. unfold newdep. split.
        -- intros [[[H|(H & _)]|[([H1|H1] & H2)|(H1 & H2)]]|(c & x & H1 & H2 & H3)]; [left; exact H|lia|right|right|right|right]; (split; [lia|]); try tauto.
           split; [exact H2|]. rewrite S1, S2 in H1. split; [tauto|]. right. exists c, x. split; [tauto|exact H3].
        -- intros [H|(_ & H1 & H2 & H3)]; [left; left; left; exact H|]. destruct H3 as [H3|(j & x & H3 & H4)].
           ++ left. right. destruct (classic (anyy i k)); tauto.
           ++ right. exists j, x. rewrite S1, S2. split; [|auto]. destruct (classic (anya i j x k)); tauto.
      * unfold upd at 1. rewrite (proj2 (Nat.eqb_neq i' i)) by exact N. rewrite (Ed2' i' N), S5. split; (intros [H|(H1 & H2)]; [left; exact H|right; split; [lia|exact H2]]).
  - assert (No : forall v k, ~ inst (ysrc i) l v k) by exact (proj2 (sinky i Hi) Ci). apply IH; [lia|]. constructor.
    + intros j x k. rewrite S1, anya_S. split; intros (H1 & H2 & H3); (split; [exact H1|]); (split; [exact H2|]); [|tauto]. intros [H|(v & H & _)]; [exact (H3 H)|destruct (No v k H)].
    + intros j x k. rewrite S2, anya_S. split; (intros [H|(H1 & H2 & H3)]; [left; exact H|right; split; [exact H1|]; split; [exact H2|]]); [left; exact H3|]. destruct H3 as [H3|(v & H3 & _)]; [exact H3|destruct (No v k H3)].
    + intros k. rewrite S3, anyy_S. split; intros (H1 & H2 & H3); (split; [exact H1|]); (split; [exact H2|]); [|tauto]. intros [H|(v & H)]; [exact (H3 H)|destruct (No v k H)].
    + intros k. rewrite S4, anyy_S. split; (intros [H|(H1 & H2 & H3)]; [left; exact H|right; split; [exact H1|]; split; [exact H2|]]); [left; exact H3|]. destruct H3 as [H3|(v & H3)]; [exact H3|destruct (No v k H3)].
    + intros i' v k. rewrite S5. split; (intros [H|(H1 & H2)]; [left; exact H|right; split; [|exact H2]]); [lia|]. destruct (Nat.eq_dec i' i) as [->|N]; [|lia]. destruct H2 as (H2 & _). destruct (No v k H2).
Qed.
End Mays.
End Level.

(** the loop over the levels *)
Definition mustgt (L : nat) (k : vec) : Prop := exists l j w, (L < l)%nat /\ (j < length must)%nat /\ inst (msrc j) l w k.
Definition maygt (L : nat) (k : vec) : Prop := exists l i v, (L < l)%nat /\ (i < length may)%nat /\ inst (ysrc i) l v k.
Definition dom (k : vec) : Prop := domain (l_map sink) k.
(** the last must-source, at a level after [L] *)
Definition lastgt (L l j : nat) (w k : vec) : Prop := (L < l)%nat /\ lastat l j w k /\ ~ mustgt l k.
Definition mayafter (l j : nat) (w k : vec) : Prop := maygt l k \/ anya l (length may) j w k.
Record fst_ (L : nat) (f : flow) : Prop := {
  t_must : forall j w k, f_must f j w k <-> exists l, lastgt L l j w k /\ ~ mayafter l j w k;
  t_maym : forall j w k, f_maym f j w k <-> exists l, lastgt L l j w k /\ mayafter l j w k;
  t_may : forall i v k, f_may f i v k <-> exists l, (L < l)%nat /\ (i < length may)%nat /\ inst (ysrc i) l v k /\ ~ mustgt l k /\ (nomust l k \/ exists j w, lastat l j w k /\ fol j w i v);
  t_mustno : forall k, f_must_no f k <-> dom k /\ ~ mustgt L k /\ ~ maygt L k;
  t_mayno : forall k, f_may_no f k <-> dom k /\ ~ mustgt L k /\ maygt L k }.
Lemma inst_dom a l w k : inst a l w k -> dom k.
Proof. intros ((e & He & _) & _). exists e. exact He. Qed.
Lemma mustgt_S L k : mustgt L k <-> mustgt (S L) k \/ ~ nomust (S L) k.
Proof.
  split.
  - intros (l & j & w & H1 & H2 & H3). destruct (Nat.eq_dec l (S L)) as [->|N]; [right; intros X; exact (X j w H2 H3)|left; exists l, j, w; split; [lia|auto]].
  - intros [(l & j & w & H1 & H2)|H]; [exists l, j, w; split; [lia|exact H2]|]. destruct (classic (exists j w, (j < length must)%nat /\ inst (msrc j) (S L) w k)) as [(j & w & H1 & H2)|N]; [exists (S L), j, w; split; [lia|auto]|]. exfalso. apply H. intros j w Hj Hw. apply N. exists j, w. auto.
Qed.
Lemma maygt_S L k : maygt L k <-> maygt (S L) k \/ anyy (S L) (length may) k.
Proof.
  split.
  - intros (l & i & v & H1 & H2 & H3). destruct (Nat.eq_dec l (S L)) as [->|N]; [right; exists i, v; auto|left; exists l, i, v; split; [lia|auto]].
  - intros [(l & i & v & H1 & H2)|(i & v & H)]; [exists l, i, v; split; [lia|exact H2]|exists (S L), i, v; split; [lia|exact H]].
Qed.
Lemma val_levels_ok : forall L f, fst_ L f -> exists f', val_levels lb pe spe sink must may L f = Ok f' /\ fst_ 0 f'.
Proof.
  induction L as [|L IH]; intros f [S1 S2 S3 S4 S5]; cbn [val_levels]; [exists f; split; [reflexivity|constructor; assumption]|].
  set (D1 := f_must_no f) in *. set (D2 := f_may_no f) in *.
  destruct (val_sources_all lb pe Pe pos Cb sink must Sd Sp Mo Ma Hl (S L) ltac:(lia) spe Spe D1 D2) as (w & -> & W1 & W2 & W3 & W4). cbn [bind].
  destruct (val_may_ok (S L) ltac:(lia) D1 D2 (f_may f) (length may) 0 w (f_may f) eq_refl) as (w' & dep' & -> & [Y1 Y2 Y3 Y4 Y5]).
  { constructor.
    - intros j x k. rewrite W1. split; [intros (H1 & H2); split; [exact H1|]; split; [exact H2|]; intros (i & v & H & _); lia|tauto].
    - intros j x k. rewrite W2. split; [auto|]. intros [H|(_ & _ & i & v & H & _)]; [exact H|lia].
    - intros k. rewrite W3. split; [intros (H1 & H2); split; [exact H1|]; split; [exact H2|]; intros (i & v & H & _); lia|tauto].
    - intros k. rewrite W4. split; [auto|]. intros [H|(_ & _ & i & v & H & _)]; [exact H|lia].
    - intros i v k. split; [auto|]. intros [H|(H & _)]; [exact H|lia]. }
  cbn [bind]. set (f1 := mkf _ _ _ _ _).
  assert (LD : forall j x k, lastat (S L) j x k -> dom k) by (intros j x k (_ & H & _); exact (inst_dom _ _ _ _ H)).
  assert (F1 : fst_ L f1).
  { constructor; unfold f1; cbn [f_must f_maym f_may f_must_no f_may_no].
    - intros j x k. unfold union. rewrite S1, Y1. split.
      + intros [(l & (H1 & H2) & H3)|(H1 & H2 & H3)]; [exists l; split; [split; [lia|exact H2]|exact H3]|]. apply S4 in H1. exists (S L). split; [split; [lia|]; split; [exact H2|apply H1]|]. intros [H|H]; [tauto|contradiction].
      + intros (l & (H1 & H2 & H3) & H4). destruct (Nat.eq_dec l (S L)) as [->|N]; [|left; exists l; split; [split; [lia|auto]|exact H4]]. right. split; [apply S4; split; [exact (LD j x k H2)|]; split; [exact H3|]; intros H; apply H4; left; exact H|]. split; [exact H2|]. intros H. apply H4. right. exact H.
    - intros j x k. unfold union. rewrite S2, Y2. split.
      + intros [(l & (H1 & H2) & H3)|[(H1 & H2)|(H1 & H2 & H3)]].
        * exists l. split; [split; [lia|exact H2]|exact H3].
        * apply S5 in H1. exists (S L). split; [split; [lia|]; split; [exact H2|apply H1]|]. left. apply H1.
        * apply S4 in H1. exists (S L). split; [split; [lia|]; split; [exact H2|apply H1]|]. right. exact H3.
      + intros (l & (H1 & H2 & H3) & H4). destruct (Nat.eq_dec l (S L)) as [->|N]; [|left; exists l; split; [split; [lia|auto]|exact H4]]. right. destruct (classic (maygt (S L) k)) as [G|NG].
        * left. split; [apply S5; split; [exact (LD j x k H2)|auto]|exact H2].
        * right. destruct H4 as [H4|H4]; [contradiction|]. split; [apply S4; split; [exact (LD j x k H2)|auto]|auto].
    - intros i v k. rewrite Y5, S3. unfold newdep. split.
      + intros [(l & H1 & H2)|(H1 & H2 & H3 & H4)]; [exists l; split; [lia|exact H2]|]. exists (S L). split; [lia|]. split; [exact H1|]. split; [exact H2|]. split; [|exact H4]. destruct H3 as [H3|H3]; [apply S4 in H3|apply S5 in H3]; apply H3.
      + intros (l & H1 & H2 & H3 & H4 & H5). destruct (Nat.eq_dec l (S L)) as [->|N]; [|left; exists l; split; [lia|auto]]. right. split; [exact H2|]. split; [exact H3|]. split; [|exact H5]. pose proof (inst_dom _ _ _ _ H3) as Dk. destruct (classic (maygt (S L) k)) as [G|NG]; [right; apply S5; auto|left; apply S4; auto].
    - intros k. rewrite Y3, mustgt_S, maygt_S. rewrite S4. destruct (classic (nomust (S L) k)); tauto.
    - intros k. rewrite Y4, mustgt_S, maygt_S. rewrite S4, S5. destruct (classic (nomust (S L) k)), (classic (maygt (S L) k)); tauto. }
  destruct (spe (w_mustdo w') && spe (w_maydo w')) eqn:Ep; [|apply IH, F1]. apply andb_prop in Ep. destruct Ep as (E1 & E2). exists f1. split; [reflexivity|].
  assert (All : forall k, dom k -> mustgt L k).
  { intros k Dk. destruct (classic (mustgt L k)) as [G|NG]; [exact G|]. exfalso. destruct (classic (maygt L k)) as [G|NG2]; [apply (Spe _ E2 k), (t_mayno L f1 F1 k)|apply (Spe _ E1 k), (t_mustno L f1 F1 k)]; auto. }
  assert (Mn : forall l l' k, (l <= l')%nat -> mustgt l' k -> mustgt l k) by (intros l l' k H (m & j & x & H1 & H2); exists m, j, x; split; [lia|exact H2]).
  destruct F1 as [T1 T2 T3 T4 T5]. constructor.
  - intros j x k. rewrite T1. split; intros (l & (H1 & H2 & H3) & H4); exists l; (split; [split; [|auto]|exact H4]); [lia|]. destruct (Nat.le_gt_cases l L) as [Q|Q]; [|exact Q]. exfalso. apply H3. apply (Mn l L k Q), All. destruct H2 as (_ & H2 & _). exact (inst_dom _ _ _ _ H2).
  - intros j x k. rewrite T2. split; intros (l & (H1 & H2 & H3) & H4); exists l; (split; [split; [|auto]|exact H4]); [lia|]. destruct (Nat.le_gt_cases l L) as [Q|Q]; [|exact Q]. exfalso. apply H3. apply (Mn l L k Q), All. destruct H2 as (_ & H2 & _). exact (inst_dom _ _ _ _ H2).
  - intros i v k. rewrite T3. split; intros (l & H1 & H2 & H3 & H4 & H5); exists l; (split; [|auto]); [lia|]. destruct (Nat.le_gt_cases l L) as [Q|Q]; [|exact Q]. exfalso. apply H4. apply (Mn l L k Q), All. exact (inst_dom _ _ _ _ H3).
  - intros k. rewrite T4. split; intros (H1 & H2 & H3); exfalso; apply H2; [apply All, H1|]. apply (Mn 0%nat L k); [lia|]. apply All, H1.
  - intros k. rewrite T5. split; intros (H1 & H2 & H3); exfalso; apply H2; [apply All, H1|]. apply (Mn 0%nat L k); [lia|]. apply All, H1.
Qed.
Lemma val_ok : exists f, compute_val_based_dependences lb pe spe sink must may = Ok f /\ fst_ 0 f.
Proof.
  unfold compute_val_based_dependences. set (f0 := mkf _ _ _ _ _).
  (* no instance at a level after the innermost one *)
  assert (No : forall a l w k, (2 * l_dim sink + 1 < l)%nat -> ~ inst a l w k).
  { intros a l w k Hlv ((e & He & _) & (_ & Q & _)). unfold FlowMust.tm in Q. pose proof (Sd k e He) as Lk. destruct Sp as (Sp1 & _).
    assert (Lt : forall p x, (length (time p x) <= 2 * length x + 1)%nat) by (induction p as [|b [|b' p] IHp]; intros x; [cbn; lia|cbn; lia|]; destruct x as [|u x]; [cbn; lia|]; rewrite time_cons by discriminate; cbn [length]; specialize (IHp x); lia).
    specialize (Lt (pos (l_data sink)) k). lia. }
  assert (NoM : forall L k, (2 * l_dim sink + 1 <= L)%nat -> ~ mustgt L k) by (intros L k H (l & j & w & H1 & _ & H2); apply (No _ l w k ltac:(lia) H2)).
  assert (NoY : forall L k, (2 * l_dim sink + 1 <= L)%nat -> ~ maygt L k) by (intros L k H (l & j & w & H1 & _ & H2); apply (No _ l w k ltac:(lia) H2)).
  assert (F0 : fst_ (2 * l_dim sink + 1) f0).
  { constructor; unfold f0; cbn [f_must f_maym f_may f_must_no f_may_no].
    - intros j w k. split; [intros []|]. intros (l & (H1 & (_ & H2 & _) & _) & _). destruct (No _ l w k H1 H2).
    - intros j w k. split; [intros []|]. intros (l & (H1 & (_ & H2 & _) & _) & _). destruct (No _ l w k H1 H2).
    - intros i v k. split; [intros []|]. intros (l & H1 & _ & H2 & _). destruct (No _ l v k H1 H2).
    - intros k. split; [intros H; split; [exact H|]; split; [apply NoM|apply NoY]; lia|]. intros (H & _). exact H.
    - intros k. split; [intros []|]. intros (_ & _ & H). destruct (NoY _ k (Nat.le_refl _) H). }
  destruct (spe (domain (l_map sink))) eqn:Ep; [|apply val_levels_ok, F0]. exists f0. split; [reflexivity|]. pose proof (Spe _ Ep) as Z. clear F0.
  assert (ND : forall a l w k, ~ inst a l w k) by (intros a l w k H; apply (Z k); exact (inst_dom _ _ _ _ H)).
  constructor; unfold f0; cbn [f_must f_maym f_may f_must_no f_may_no].
  - intros j w k. split; [intros []|]. intros (l & (_ & (_ & H2 & _) & _) & _). destruct (ND _ _ _ _ H2).
  - intros j w k. split; [intros []|]. intros (l & (_ & (_ & H2 & _) & _) & _). destruct (ND _ _ _ _ H2).
  - intros i v k. split; [intros []|]. intros (l & _ & _ & H2 & _). destruct (ND _ _ _ _ H2).
  - intros k. split; [intros H; destruct (Z k H)|intros (H & _); exact H].
  - intros k. split; [intros []|intros (H & _); destruct (Z k H)].
Qed.
End Core.
