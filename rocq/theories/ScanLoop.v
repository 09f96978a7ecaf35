(** Enumeration of integer points: the search. *)
From Coq Require Import ZArith List Bool Arith Lia.
From Verif Require Import SeqModel SeqSpec SeqProofs MatModel BMapModel BMapSpec BMapSem LocalModel ScanModel ScanSpec ScanBase.
Import ListNotations.
Open Scope Z_scope.

(** the coordinates up to [k] are fixed to integers *)
Definition fixed_to (n : nat) (B : list (list Z)) (k : nat) (d : sys) : Prop :=
  forall i, (i < k)%nat -> exists c, forall p, rpoint n p -> sat d p -> dot (nth i B []) p = c * hd 0 p.
Lemma fixed_coords n B k d : fixed_to n B k d -> exists c, length c = k /\ forall i p, (i < k)%nat -> rpoint n p -> sat d p -> dot (nth i B []) p = nth i c 0 * hd 0 p.
Proof.
  induction k as [|k IH]; intros F; [exists []; split; [reflexivity|intros i p H; lia]|].
  destruct IH as (c & L & C); [intros i H; apply F; lia|]. destruct (F k ltac:(lia)) as (x & X). exists (c ++ [x]). split; [rewrite app_length; cbn; lia|]. intros i p H R S. destruct (Nat.eq_dec i k) as [->|N].
  - rewrite app_nth2, L, Nat.sub_diag by lia. exact (X p R S).
  - rewrite app_nth1 by lia. apply C; auto. lia.
Qed.
Lemma map_one l : map (fun y => 1 * y) l = l.
Proof. rewrite <- (map_id l) at 2. apply map_ext. intros a. lia. Qed.
Lemma ipoint_rpoint n v : ipoint n v -> rpoint n v.
Proof. intros (L & H). split; [exact L|lia]. Qed.
(** all coordinates are fixed: there is one integer point *)
Lemma one_point n B d : basis n B -> fixed_to n B n d -> (exists p, rpoint n p /\ sat d p) ->
  exists v, ipoint n v /\ sat d v /\ forall p, rpoint n p -> sat d p -> p = map (fun y => hd 0 p * y) v.
Proof.
  intros BB F (p & R & S). destruct (fixed_coords n B n d F) as (c & L & C). destruct (coords n B c BB L) as (x & LX & _ & U). exists (1 :: x).
  assert (I : ipoint n (1 :: x)) by (split; [cbn; lia|reflexivity]). split; [exact I|].
  assert (E : forall q, rpoint n q -> sat d q -> q = map (fun y => hd 0 q * y) (1 :: x)) by (intros q RQ SQ; apply U; [exact RQ|]; intros i H; apply C; auto).
  split; [|exact E]. pose proof (E p R S) as EP. rewrite EP in S. apply sat_scale in S; [exact S|apply R].
Qed.
Lemma only_point n d v : ipoint n v -> sat d v -> (forall p, rpoint n p -> sat d p -> p = map (fun y => hd 0 p * y) v) -> lists n (sat d) [v].
Proof.
  intros I S U. split; [constructor; [intros []|constructor]|]. intros w. split; [intros [<-|[]]; auto|]. intros (IW & SW). left. pose proof (U w (ipoint_rpoint n w IW) SW) as E. rewrite (proj2 IW), map_one in E. symmetry. exact E.
Qed.

Section Loop.
Variables (tab snap : Type) (tab_from : bmap -> res tab) (reduce : nat -> tab -> res (tab * list (list Z))) (tab_min : tab -> list Z -> lp * tab).
Variables (take_snap : tab -> snap * tab) (rollback : tab -> snap -> res tab) (add_eq : tab -> list Z -> res tab) (sample : tab -> res (list Z)).
Variable Rep : nat -> tab -> list (snap * sys) -> sys -> Prop.
Hypothesis TAB : tableau tab snap tab_from reduce tab_min take_snap rollback add_eq sample Rep.
Variable St : Type.
Variable add : St -> list Z -> bool * St.
Variable range : option (St -> Z -> Z -> bool * St).
Variable good : St -> Prop.
Hypothesis GOOD : forall s v s', good s -> add s v = (true, s') -> good s'.
Hypothesis RANGE : forall g, range = Some g -> forall s l lo hi, good s -> lo <= hi -> Z.of_nat (length l) = hi - lo + 1 -> g s lo hi = visit add l s.
Notation frame := (frame snap).
Variable n : nat.
Variable B : list (list Z).
Hypothesis BB : basis n B.
Notation loop := (loop tab snap tab_min take_snap rollback add_eq sample St add range).
Notation step := (step tab snap rollback add_eq sample St add range).
Definition reliably : Prop := reliable tab snap tab_from reduce tab_min rollback add_eq sample Rep.

Lemma visit_good l : forall s s', good s -> visit add l s = (true, s') -> good s'.
Proof.
  induction l as [|v l IH]; intros s s' G E; cbn [visit] in E; [injection E as <-; exact G|]. destruct (add s v) as (ok & s1) eqn:EA. destruct ok; [|discriminate E]. exact (IH s1 s' (GOOD s v s1 G EA) E).
Qed.

(** the snapshot of the innermost of the remaining levels *)
Definition top (l : list frame) (st : list (snap * sys)) : Prop :=
  match l with [] => True | f :: _ => exists d st', st = (f_snap f, d) :: st' end.
Definition at_top (l : list frame) (st : list (snap * sys)) (t : tab) : Prop :=
  match l, st with [], _ => True | f :: _, (_, d) :: _ => Rep n t st d | _, _ => False end.
(** what happens until the loop is back at the level of [l] *)
Definition outcome (m : nat) (l : list frame) (st : list (snap * sys)) (d : sys) (Q : list Z -> Prop) (s : St) (r : ended St) : Prop :=
  r = OutOfFuel \/
  (exists s', r = Fail s' /\ ~ (reliably /\ bounded n d)) \/
  (exists L s', picks n Q L /\ visit add L s = (false, s') /\ r = Stop s') \/
  exists L s' m' t', lists n Q L /\ visit add L s = (true, s') /\ (m' < m)%nat /\ at_top l st t' /\ r = loop m' n B false l t' s'.
Lemma outcome_weak m m' l st d d' Q Q' s r : (m <= m')%nat -> (forall v, ipoint n v -> (Q v <-> Q' v)) -> (reliably /\ bounded n d' -> bounded n d) ->
  outcome m l st d Q s r -> outcome m' l st d' Q' s r.
Proof.
  intros M E D [H|[(s' & H & N)|[(L & s' & P & H)|(L & s' & k & t' & LL & V & K & H)]]]; [left; exact H|right; left; exists s'; tauto| |].
  - right. right. left. exists L, s'. split; [|exact H]. split; [apply P|]. intros v IV. destruct (proj2 P v IV) as (X & Y). split; [exact X|]. apply (E v X), Y.
  - right. right. right. exists L, s', k, t'. split; [exact (lists_ext n Q Q' L E LL)|]. split; [exact V|]. split; [lia|exact H].
Qed.
(** one list of points after the other *)
Lemma outcome_app m l st d Q1 Q2 Q L1 s s1 r : lists n Q1 L1 -> (forall v, ipoint n v -> ~ (Q1 v /\ Q2 v)) -> (forall v, ipoint n v -> (Q v <-> Q1 v \/ Q2 v)) ->
  visit add L1 s = (true, s1) -> outcome m l st d Q2 s1 r -> outcome m l st d Q s r.
Proof.
  intros LL D U V [H|[H|[(L & s' & P & H)|(L & s' & k & t' & LL2 & V2 & K & H)]]]; [left; exact H|right; left; exact H| |].
  - right. right. left. exists (L1 ++ L), s'. split; [|rewrite visit_app, V; exact H]. destruct LL as (N1 & I1). destruct P as (N2 & I2). split.
    + apply nodup_app; auto. intros x A C. apply I1 in A. apply I2 in C. exact (D x (proj1 A) (conj (proj2 A) (proj2 C))).
    + intros v IV. apply in_app_iff in IV. destruct IV as [A|A]; [apply I1 in A|apply I2 in A]; split; try tauto; apply U; tauto.
  - right. right. right. exists (L1 ++ L), s', k, t'. split; [exact (lists_app n Q1 Q2 Q L1 L LL LL2 D U)|]. split; [rewrite visit_app, V; exact V2|]. split; [exact K|exact H].
Qed.

Lemma level_up_ok m l st l0 d d0 Q t s : top l st -> Rep n t (l0 ++ st) d -> lists n Q [] ->
  outcome (S m) l st d0 Q s (level_up tab snap rollback St (loop m n B) l t s).
Proof.
  intros T R LL. unfold level_up. destruct l as [|f l].
  - right. right. right. exists [], s, m, t. split; [exact LL|]. split; [reflexivity|]. split; [lia|]. split; [exact I|reflexivity].
  - destruct T as (d' & st' & ->). destruct (rollback t (f_snap f)) as [t'| | |] eqn:E.
    + right. right. right. exists [], s, m, t'. split; [exact LL|]. split; [reflexivity|]. split; [lia|]. split; [exact (t_rollback _ _ _ _ _ _ _ _ _ _ TAB n t l0 _ d' st' d t' R E)|reflexivity].
    + right. left. exists s. split; [reflexivity|]. intros (RE & _). destruct (n_rollback _ _ _ _ _ _ _ _ _ RE n t l0 _ d' st' d R) as (t' & X). congruence.
    + right. left. exists s. split; [reflexivity|]. intros (RE & _). destruct (n_rollback _ _ _ _ _ _ _ _ _ RE n t l0 _ d' st' d R) as (t' & X). congruence.
    + right. left. exists s. split; [reflexivity|]. intros (RE & _). destruct (n_rollback _ _ _ _ _ _ _ _ _ RE n t l0 _ d' st' d R) as (t' & X). congruence.
Qed.

(** the values from [lo] up to [hi] of coordinate [k] are possible, larger ones are not *)
Definition span (k : nat) (d : sys) (lo hi : Z) : Prop :=
  (forall c, lo <= c <= hi -> exists p, rpoint n p /\ sat d p /\ dot (nth k B []) p = c * hd 0 p) /\
  forall p, rpoint n p -> sat d p -> dot (nth k B []) p < (hi + 1) * hd 0 p.
Lemma span_up k d lo hi : span k d lo hi -> span k d (lo + 1) hi.
Proof. intros (A & C). split; [|exact C]. intros c H. apply A. lia. Qed.
Definition fix_row (k : nat) (c : Z) : list Z := - c :: tl (nth k B []).
Lemma fix_row_len k c : (k < n)%nat -> length (fix_row k c) = (1 + n)%nat.
Proof. intros H. destruct (basis_row n B k BB H) as (L & _). unfold fix_row. destruct (nth k B []); cbn in *; lia. Qed.
Lemma sat_fix k c d p : (k < n)%nat -> length p = (1 + n)%nat -> (sat (and_eq (fix_row k c) d) p <-> sat d p /\ dot (nth k B []) p = c * hd 0 p).
Proof. intros H L. destruct (basis_row n B k BB H) as (LR & HR). rewrite sat_and_eq. unfold fix_row. rewrite (dot_fixed c _ p n LR HR L). split; intros (A & C); split; auto; lia. Qed.
Lemma fixed_fix k c d : (k < n)%nat -> fixed_to n B k d -> fixed_to n B (S k) (and_eq (fix_row k c) d).
Proof.
  intros H F i HI. destruct (Nat.eq_dec i k) as [->|N].
  - exists c. intros p R S. apply (sat_fix k c d p H (proj1 R)) in S. apply S.
  - destruct (F i ltac:(lia)) as (x & X). exists x. intros p R S. apply (sat_fix k c d p H (proj1 R)) in S. apply X; tauto.
Qed.
Lemma bounded_fix r d : bounded n d -> bounded n (and_eq r d).
Proof. intros (k & K). exists k. intros p R S. apply sat_and_eq in S. apply K; tauto. Qed.
Lemma dot_bound r : exists w, 0 <= w /\ forall k p, (forall i, Z.abs (nth i p 0) <= k) -> Z.abs (dot r p) <= w * k.
Proof.
  induction r as [|x r (w & W & IH)]; [exists 0; split; [lia|]; intros k p _; cbn; lia|]. exists (Z.abs x + w). split; [lia|]. intros k p H. destruct p as [|y p].
  - cbn [dot]. pose proof (H O) as X. cbn in X. nia.
  - cbn [dot]. pose proof (H O) as X. cbn [nth] in X. pose proof (IH k p (fun i => H (S i))) as Y. pose proof (Z.abs_triangle (x * y) (dot r p)). rewrite Z.abs_mul in *. nia.
Qed.
Lemma unbounded_no row d : (forall k, exists p, rpoint n p /\ sat d p /\ dot row p < k * hd 0 p) -> ~ bounded n d.
Proof.
  intros U (k & K). destruct (dot_bound row) as (w & W & D). destruct (U (- (w * k))) as (p & R & S & X). pose proof (D _ p (K p R S)) as Y. pose proof (proj2 R). nia.
Qed.
(** the last coordinate: one point per value *)
Lemma last_points k d lo : S k = n -> fixed_to n B k d -> forall w hi, hi = lo + Z.of_nat w - 1 -> span k d lo hi ->
  exists L, length L = w /\ lists n (fun v => sat d v /\ lo <= dot (nth k B []) v) L.
Proof.
  intros K F w. revert lo. induction w as [|w IH]; intros lo hi HI (SP & UP).
  - exists []. split; [reflexivity|]. apply lists_nil. intros v I (S & D). pose proof (UP v (ipoint_rpoint n v I) S) as X. rewrite (proj2 I) in X. lia.
  - destruct (IH (lo + 1) hi ltac:(lia) (span_up k d lo hi (conj SP UP))) as (L & LL & LI).
    destruct (one_point n B (and_eq (fix_row k lo) d) BB) as (v & I & S & U).
    { pose proof (fixed_fix k lo d ltac:(lia) F) as X. rewrite K in X. exact X. }
    { destruct (SP lo ltac:(lia)) as (p & R & S & E). exists p. split; [exact R|]. apply sat_fix; [lia|apply R|]. auto. }
    pose proof (only_point n _ v I S U) as ON. exists (v :: L). split; [cbn; lia|]. change (v :: L) with ([v] ++ L). apply (lists_app n _ _ _ [v] L ON LI).
    + intros w0 IW (A & _ & C). apply sat_fix in A; [|lia|apply IW]. rewrite (proj2 IW) in A. lia.
    + intros w0 IW. rewrite sat_fix by (try lia; apply IW). rewrite (proj2 IW). split; [intros (A & C); destruct (Z.eq_dec lo (dot (nth k B []) w0)); [left|right]; split; auto; lia|intros [(A & C)|(A & C)]; split; auto; lia].
Qed.

(** ** the search *)
Definition sub_ok (m : nat) : Prop := forall l t st d s, (length l < n)%nat -> top l st -> Rep n t st d -> fixed_to n B (length l) d -> good s ->
  outcome m l st d (sat d) s (loop m n B true l t s).
Definition rest_ok (m : nat) : Prop := forall f l t st d s, (length l < n)%nat -> top l st -> Rep n t ((f_snap f, d) :: st) d -> fixed_to n B (length l) d -> span (length l) d (f_min f + 1) (f_max f) -> good s ->
  outcome m l st d (fun v => sat d v /\ f_min f + 1 <= dot (nth (length l) B []) v) s (loop m n B false (f :: l) t s).
Lemma step_ok m : (forall m', (m' <= m)%nat -> sub_ok m' /\ rest_ok m') -> forall f l t st d s, (length l < n)%nat -> top l st -> Rep n t ((f_snap f, d) :: st) d -> fixed_to n B (length l) d -> span (length l) d (f_min f) (f_max f) -> good s ->
  outcome (S m) l st d (fun v => sat d v /\ f_min f <= dot (nth (length l) B []) v) s (step (loop m n B) n B false f l t s).
Proof.
  intros IH f l t st d s LN T R F (SP & UP) G. set (k := length l) in *. unfold ScanModel.step. fold k. cbn [orb]. fold (fix_row k (f_min f)). destruct (Z.ltb_spec (f_max f) (f_min f)) as [C|C].
  - apply (level_up_ok m l st [(f_snap f, d)] d d _ t s T R). apply lists_nil. intros v I (S & D). pose proof (UP v (ipoint_rpoint n v I) S) as X. rewrite (proj2 I) in X. lia.
  - destruct (if (k =? n - 1)%nat then range else None) as [g|] eqn:ER.
    + destruct (Nat.eqb_spec k (n - 1)) as [K|]; [|discriminate ER].
      destruct (last_points k d (f_min f) ltac:(lia) F (Z.to_nat (f_max f - f_min f + 1)) (f_max f) ltac:(lia) (conj SP UP)) as (L & LL & LI).
      rewrite (RANGE g ER s L (f_min f) (f_max f) G C ltac:(lia)). destruct (visit add L s) as (ok & s1) eqn:EV. destruct ok.
      * apply (outcome_app (S m) l st d _ (fun _ => False) _ L s s1 _ LI); [tauto|tauto|exact EV|]. apply (level_up_ok m l st [(f_snap f, d)] d d _ t s1 T R). apply lists_nil. auto.
      * right. right. left. exists L, s1. split; [|auto]. split; [apply LI|]. intros v IV. apply LI, IV.
    + destruct (add_eq t (fix_row k (f_min f))) as [t1| | |] eqn:EA; try (right; left; exists s; split; [reflexivity|]; intros (RE & _); destruct (n_add_eq _ _ _ _ _ _ _ _ _ RE n t _ d _ R (fix_row_len k (f_min f) LN)) as (x & X); congruence).
      assert (NE : exists p, rpoint n p /\ sat (and_eq (fix_row k (f_min f)) d) p).
      { destruct (SP (f_min f) ltac:(lia)) as (p & RP & SPP & EP). exists p. split; [exact RP|]. apply sat_fix; [exact LN|apply RP|]. auto. }
      assert (R1 : Rep n t1 ((f_snap f, d) :: st) (and_eq (fix_row k (f_min f)) d)).
      { apply (t_add_eq _ _ _ _ _ _ _ _ _ _ TAB n t _ d _ t1 R (fix_row_len k (f_min f) LN)); [|exact EA]. destruct NE as (p & RP & SPP). exists p. apply sat_and_eq in SPP. tauto. }
      pose proof (fixed_fix k (f_min f) d LN F) as F1.
      assert (SPLIT : forall v, ipoint n v -> (sat d v /\ f_min f <= dot (nth k B []) v <-> sat (and_eq (fix_row k (f_min f)) d) v \/ (sat d v /\ f_min f + 1 <= dot (nth k B []) v))).
      { intros v I. rewrite sat_fix by (try exact LN; apply I). rewrite (proj2 I). split; [intros (A & D); destruct (Z.eq_dec (f_min f) (dot (nth k B []) v)); [left|right]; split; auto; lia|intros [(A & D)|(A & D)]; split; auto; lia]. }
      assert (DISJ : forall v, ipoint n v -> ~ (sat (and_eq (fix_row k (f_min f)) d) v /\ (sat d v /\ f_min f + 1 <= dot (nth k B []) v))).
      { intros v I (A & _ & D). apply sat_fix in A; [|exact LN|apply I]. rewrite (proj2 I) in A. lia. }
      destruct (Nat.ltb_spec k (n - 1)) as [K|K].
      * (* the next level *)
        assert (TT : top (f :: l) ((f_snap f, d) :: st)) by (exists d, st; reflexivity).
        destruct (proj1 (IH m ltac:(lia)) (f :: l) t1 _ _ s ltac:(cbn [length]; fold k; lia) TT R1 F1 G) as [H|[(s' & H & N)|[(L & s' & P & H)|(L & s' & m' & t' & LL & V & M & A & H)]]].
        { left. exact H. }
        { right. left. exists s'. split; [exact H|]. intros (RE & BO). apply N. split; [exact RE|]. apply bounded_fix, BO. }
        { right. right. left. exists L, s'. split; [|exact H]. split; [apply P|]. intros v IV. destruct (proj2 P v IV) as (X & Y). split; [exact X|]. apply SPLIT; auto. }
        rewrite H. cbn [at_top] in A. apply (outcome_app (S m) l st d _ _ _ L s s' _ LL DISJ SPLIT V).
        apply (outcome_weak m' (S m) l st d d _ _ s' _ ltac:(lia) (fun v _ => iff_refl _) (fun X => proj2 X)). apply (proj2 (IH m' ltac:(lia)) f l t' st d s' LN T A F); [exact (span_up k d _ _ (conj SP UP))|exact (visit_good L s s' G V)].
      * destruct (one_point n B _ BB (eq_rect (S k) (fun z => fixed_to n B z _) F1 n ltac:(lia)) NE) as (v & I & SV & U). pose proof (only_point n _ v I SV U) as ON.
        unfold add_solution. destruct (sample t1) as [w| | |] eqn:ES; cbn [LocalModel.bind]; try (right; left; exists s; split; [reflexivity|]; intros (RE & _); destruct (n_sample _ _ _ _ _ _ _ _ _ RE n t1 _ _ R1 NE) as (x & X); congruence).
        destruct (t_sample _ _ _ _ _ _ _ _ _ _ TAB n t1 _ _ w R1 NE ES) as (RW & SW & CW). assert (w = v).
        { pose proof (U w RW SW) as E. assert (hd 0 w = 1). { pose proof (proj2 RW) as HW. assert (D : (hd 0 w | 1)). { apply CW. intros i. exists (nth i v 0). set (q := hd 0 w) in *. rewrite E. rewrite Z.mul_comm. rewrite <- (map_nth (fun y => q * y) v 0 i), Z.mul_0_r. reflexivity. } apply Z.divide_1_r_nonneg in D; lia. } rewrite H, map_one in E. exact E. }
        subst w. destruct (add s v) as (ok & s1) eqn:EV. destruct ok.
        { assert (V1 : visit add [v] s = (true, s1)) by (cbn [visit]; rewrite EV; reflexivity).
          destruct (rollback t1 (f_snap f)) as [t2| | |] eqn:ERB; try (right; left; exists s1; split; [reflexivity|]; intros (RE & _); destruct (n_rollback _ _ _ _ _ _ _ _ _ RE n t1 [] _ d st _ R1) as (x & X); congruence).
          pose proof (t_rollback _ _ _ _ _ _ _ _ _ _ TAB n t1 [] _ d st _ t2 R1 ERB) as R2. apply (outcome_app (S m) l st d _ _ _ [v] s s1 _ ON DISJ SPLIT V1).
          apply (outcome_weak m (S m) l st d d _ _ s1 _ ltac:(lia) (fun v _ => iff_refl _) (fun X => proj2 X)). apply (proj2 (IH m ltac:(lia)) f l t2 st d s1 LN T R2 F); [exact (span_up k d _ _ (conj SP UP))|exact (GOOD s v s1 G EV)]. }
        { right. right. left. exists [v], s1. split; [|cbn [visit]; rewrite EV; auto]. split; [apply ON|]. intros x IX. apply ON in IX. split; [apply IX|]. apply SPLIT; [apply IX|]. left. apply IX. }
Qed.
Lemma both_ok m : sub_ok m /\ rest_ok m.
Proof.
  induction m as [m IH] using (well_founded_induction lt_wf). destruct m as [|m]; [split; intros ? **; left; reflexivity|].
  assert (IH' : forall m', (m' <= m)%nat -> sub_ok m' /\ rest_ok m') by (intros m' H; apply IH; lia). clear IH. split.
  - intros l t st d s LN T R F G. cbn [ScanModel.loop]. destruct (basis_row n B (length l) BB LN) as (LR & HR).
    unfold bounds. set (row := nth (length l) B []) in *. destruct (tab_min t row) as (r1 & t1) eqn:E1. destruct (t_min _ _ _ _ _ _ _ _ _ _ TAB n t st d row r1 t1 R LR HR E1) as (R1 & M1).
    set (row' := hd 0 row :: map Z.opp (tl row)). assert (LR' : length row' = (1 + n)%nat) by (subst row'; destruct row; cbn [length hd tl] in *; [discriminate|rewrite map_length; lia]).
    destruct r1 as [|v1| |].
    + right. left. exists s. split; [reflexivity|]. intros (RE & _). apply (n_min _ _ _ _ _ _ _ _ _ RE n t st d row R LR). rewrite E1. reflexivity.
    + destruct (tab_min t1 row') as (r2 & t2) eqn:E2. destruct (t_min _ _ _ _ _ _ _ _ _ _ TAB n t1 st d row' r2 t2 R1 LR' HR E2) as (R2 & M2).
      destruct r2 as [|v2| |].
      * right. left. exists s. split; [reflexivity|]. intros (RE & _). apply (n_min _ _ _ _ _ _ _ _ _ RE n t1 st d row' R1 LR'). rewrite E2. reflexivity.
      * destruct (take_snap t2) as (sn & t3) eqn:E3. pose proof (t_snap _ _ _ _ _ _ _ _ _ _ TAB n t2 st d sn t3 R2 E3) as R3.
        assert (SP : span (length l) d v1 (- v2)).
        { destruct M1 as (A1 & p1 & RP1 & SP1 & D1). destruct M2 as (A2 & p2 & RP2 & SP2 & D2). split.
          - intros c H. apply (between d n row c p1 p2 LR RP1 RP2 SP1 SP2); [pose proof (proj2 RP1); nia|]. subst row'. rewrite dot_neg_row in D2 by exact HR. pose proof (proj2 RP2). nia.
          - intros p RP SPP. pose proof (A2 p RP SPP) as X. subst row'. rewrite dot_neg_row in X by exact HR. fold row. lia. }
        apply (outcome_weak (S m) (S m) l st d d (fun v => sat d v /\ v1 <= dot row v) (sat d) s _ ltac:(lia)); [|tauto|exact (step_ok m IH' (mkf v1 (- v2) sn) l t3 st d s LN T R3 F SP G)].
        intros v I. split; [tauto|]. intros S. split; [exact S|]. pose proof (proj1 M1 v (ipoint_rpoint n v I) S) as X. rewrite (proj2 I) in X. lia.
      * right. left. exists s. split; [reflexivity|]. intros (RE & BO). exact (unbounded_no row' d M2 BO).
      * destruct (take_snap t2) as (sn & t3) eqn:E3. pose proof (t_snap _ _ _ _ _ _ _ _ _ _ TAB n t2 st d sn t3 R2 E3) as R3. unfold ScanModel.step. cbn [orb]. apply (level_up_ok m l st [(sn, d)] d d _ t3 s T R3). apply lists_nil. intros v I. apply M2, ipoint_rpoint, I.
    + right. left. exists s. split; [reflexivity|]. intros (RE & BO). exact (unbounded_no row d M1 BO).
    + destruct (tab_min t1 row') as (r2 & t2) eqn:E2. destruct (t_min _ _ _ _ _ _ _ _ _ _ TAB n t1 st d row' r2 t2 R1 LR' HR E2) as (R2 & M2).
      destruct (take_snap t2) as (sn & t3) eqn:E3. pose proof (t_snap _ _ _ _ _ _ _ _ _ _ TAB n t2 st d sn t3 R2 E3) as R3.
      assert (LU : outcome (S m) l st d (sat d) s (level_up tab snap rollback St (loop m n B) l t3 s)) by (apply (level_up_ok m l st [(sn, d)] d d _ t3 s T R3); apply lists_nil; intros v I; apply M1, ipoint_rpoint, I).
      destruct r2 as [|v2| |].
      * right. left. exists s. split; [reflexivity|]. intros (RE & _). apply (n_min _ _ _ _ _ _ _ _ _ RE n t1 st d row' R1 LR'). rewrite E2. reflexivity.
      * rewrite E3. exact LU.
      * right. left. exists s. split; [reflexivity|]. intros (RE & BO). exact (unbounded_no row' d M2 BO).
      * rewrite E3. exact LU.
  - intros f l t st d s LN T R F SP G. cbn [ScanModel.loop]. exact (step_ok m IH' (mkf (f_min f + 1) (f_max f) (f_snap f)) l t st d s LN T R F SP G).
Qed.
End Loop.
