(** Enumeration of integer points: basic sets, sets and their cardinality. *)
From Coq Require Import ZArith List Bool Arith Lia.
From Verif Require Import SeqModel SeqSpec SeqProofs MatModel BMapModel BMapSpec BMapSem LocalModel ScanModel ScanSpec ScanBase ScanLoop.
Import ListNotations.
Open Scope Z_scope.

Section Proofs.
Variables (tab snap : Type) (tab_from : bmap -> res tab) (reduce : nat -> tab -> res (tab * list (list Z))) (tab_min : tab -> list Z -> lp * tab).
Variables (take_snap : tab -> snap * tab) (rollback : tab -> snap -> res tab) (add_eq : tab -> list Z -> res tab) (sample : tab -> res (list Z)).
Variable Rep : nat -> tab -> list (snap * sys) -> sys -> Prop.
Hypothesis TAB : tableau tab snap tab_from reduce tab_min take_snap rollback add_eq sample Rep.
Notation reliably := (reliable tab snap tab_from reduce tab_min rollback add_eq sample Rep).

Section Callback.
Variable St : Type.
Variable add : St -> list Z -> bool * St.
Variable range : option (St -> Z -> Z -> bool * St).
Variable good : St -> Prop.
Hypothesis GOOD : forall s v s', good s -> add s v = (true, s') -> good s'.
Hypothesis RANGE : forall g, range = Some g -> forall s l lo hi, good s -> lo <= hi -> Z.of_nat (length l) = hi - lo + 1 -> g s lo hi = visit add l s.
Notation scan := (scan tab snap tab_from reduce tab_min take_snap rollback add_eq sample St add range).
Notation scan_all := (scan_all tab snap tab_from reduce tab_min take_snap rollback add_eq sample St add range).

Definition scanned (n : nat) (Q : list Z -> Prop) (fine : Prop) (fn : St -> list Z -> bool * St) (s : St) (r : ended St) : Prop :=
  match r with
  | OutOfFuel => True
  | Fail _ => ~ fine
  | Stop s' => exists L, picks n Q L /\ visit fn L s = (false, s')
  | Done s' => exists L, lists n Q L /\ visit fn L s = (true, s')
  end.
Lemma scan_ok fuel b s : wf b -> (total b = 0%nat -> sat (of_bset b) [1]) -> good s ->
  scanned (total b) (sat (of_bset b)) (reliably /\ bounded (total b) (of_bset b)) add s (scan fuel b s).
Proof.
  intros W Z0 G. unfold ScanModel.scan. destruct (Nat.eqb_spec (total b) 0) as [E|E].
  - unfold scan_0D. destruct (add s [1]) as (ok & s') eqn:EA.
    assert (LI : lists (total b) (sat (of_bset b)) [[1]]).
    { split; [constructor; [intros []|constructor]|]. intros v. split.
      - intros [<-|[]]. split; [split; [cbn; lia|reflexivity]|apply Z0, E].
      - intros ((L & H) & _). rewrite E in L. destruct v as [|x [|y v]]; try discriminate L. cbn in H. subst. left. reflexivity. }
    destruct ok; exists [[1]]; (split; [first [exact LI|split; [apply LI|intros v; apply LI]]|]); cbn [visit]; rewrite EA; reflexivity.
  - destruct (tab_from b) as [t| | |] eqn:ET; try (intros (RE & _); destruct (n_from _ _ _ _ _ _ _ _ _ RE b W) as (x & X); congruence).
    pose proof (t_from _ _ _ _ _ _ _ _ _ _ TAB b t W ET) as R. destruct (reduce (total b) t) as [(t' & B)| | |] eqn:ER; try (intros (RE & BO); destruct (n_reduce _ _ _ _ _ _ _ _ _ RE (total b) t [] _ R BO) as (x & X); congruence).
    destruct (t_reduce _ _ _ _ _ _ _ _ _ _ TAB _ t _ _ t' B R ER) as (R' & BB).
    destruct (proj1 (both_ok tab snap tab_from reduce tab_min take_snap rollback add_eq sample Rep TAB St add range good GOOD RANGE (total b) B BB fuel) [] t' [] _ s ltac:(cbn; lia) I R' ltac:(intros i H; cbn in H; lia) G) as [H|[(s' & H & N)|[(L & s' & P & V & H)|(L & s' & m & t2 & LL & V & M & _ & H)]]]; rewrite H.
    + exact I.
    + exact N.
    + exists L. auto.
    + destruct m; [exact I|]. cbn [loop]. exists L. auto.
Qed.

(** points without the values of the integer divisions *)
Variable n : nat.
Variable fn : St -> list Z -> bool * St.
Hypothesis ADD : forall s v, add s v = fn s (firstn (1 + n) v).
Lemma visit_map L : forall s, visit add L s = visit fn (map (firstn (1 + n)) L) s.
Proof. induction L as [|v L IH]; intros s; [reflexivity|]. cbn [visit map]. rewrite ADD. destruct (fn s (firstn (1 + n) v)) as (ok & s'). destruct ok; [apply IH|reflexivity]. Qed.
Lemma cut_len b (v : list Z) : nvar b = n -> length v = (1 + total b)%nat -> length (firstn (1 + n) v) = (1 + n)%nat /\ length (skipn (1 + n) v) = BMapModel.ndiv b.
Proof. intros N L. unfold total in L. rewrite firstn_length, skipn_length. lia. Qed.
Lemma hd_cut (v : list Z) : hd 0 (firstn (1 + n) v) = hd 0 v.
Proof. destruct v; reflexivity. Qed.
Lemma nodup_map {A C} (f : A -> C) (l : list A) : NoDup l -> (forall x y, List.In x l -> List.In y l -> f x = f y -> x = y) -> NoDup (map f l).
Proof.
  induction l as [|a l IH]; intros N I; [constructor|]. inversion N; subst. cbn [map]. constructor.
  - rewrite in_map_iff. intros (x & E & H). assert (x = a) by (apply I; [right; exact H|left; reflexivity|exact E]). subst. contradiction.
  - apply IH; [assumption|]. intros x y X Y. apply I; right; assumption.
Qed.
Lemma cut_picks b L : nvar b = n -> (forall v e e', ipoint n v -> length e = BMapModel.ndiv b -> length e' = BMapModel.ndiv b -> sat (of_bset b) (v ++ e) -> sat (of_bset b) (v ++ e') -> e = e') ->
  picks (total b) (sat (of_bset b)) L -> picks n (in_bset b) (map (firstn (1 + n)) L).
Proof.
  intros N U (ND & I).
  assert (CUT : forall v, List.In v L -> ipoint n (firstn (1 + n) v) /\ length (skipn (1 + n) v) = BMapModel.ndiv b /\ sat (of_bset b) (firstn (1 + n) v ++ skipn (1 + n) v)).
  { intros v H. destruct (I v H) as ((LV & HV) & SV). destruct (cut_len b v N LV) as (A & C). split; [split; [exact A|rewrite hd_cut; exact HV]|]. split; [exact C|rewrite firstn_skipn; exact SV]. }
  split.
  - apply nodup_map; [exact ND|]. intros x y X Y E. destruct (CUT x X) as (A1 & A2 & A3). destruct (CUT y Y) as (B1 & B2 & B3). rewrite <- (firstn_skipn (1 + n) x), <- (firstn_skipn (1 + n) y). rewrite E. f_equal. apply (U (firstn (1 + n) y)); auto. rewrite <- E. exact A3.
  - intros v H. apply in_map_iff in H. destruct H as (w & <- & H). destruct (CUT w H) as (A1 & A2 & A3). split; [exact A1|]. exists (skipn (1 + n) w). auto.
Qed.
Lemma cut_lists b L : nvar b = n -> (forall v e e', ipoint n v -> length e = BMapModel.ndiv b -> length e' = BMapModel.ndiv b -> sat (of_bset b) (v ++ e) -> sat (of_bset b) (v ++ e') -> e = e') ->
  lists (total b) (sat (of_bset b)) L -> lists n (in_bset b) (map (firstn (1 + n)) L).
Proof.
  intros N U (ND & I). destruct (cut_picks b L N U (conj ND (fun v H => proj1 (I v) H))) as (A & C). split; [exact A|]. intros v. split; [apply C|]. intros ((LV & HV) & e & LE & SE). apply in_map_iff. exists (v ++ e). split.
  - rewrite <- LV. rewrite firstn_app, Nat.sub_diag, firstn_O, app_nil_r. apply firstn_all.
  - apply I. split; [|exact SE]. split; [rewrite app_length; unfold total; lia|]. destruct v; [discriminate LV|exact HV].
Qed.
Definition pieces_bounded (l : list bmap) : Prop := Forall (fun b => bounded (total b) (of_bset b)) l.
Lemma scan_all_ok fuel l : separate n l -> forall s, good s -> scanned n (in_set l) (reliably /\ pieces_bounded l) fn s (scan_all fuel l s).
Proof.
  intros (F & D). induction l as [|b l IH]; intros s G; cbn [ScanModel.scan_all].
  - exists []. split; [|reflexivity]. apply lists_nil. intros v _ (b & [] & _).
  - inversion D as [|? ? D1 D']; subst. pose proof (Forall_inv F) as (W & N & Z0 & U). pose proof (Forall_inv_tail F) as F'.
    pose proof (scan_ok fuel b s W Z0 G) as H. unfold scanned in H.
    assert (IN : forall v, in_set (b :: l) v <-> in_bset b v \/ in_set l v).
    { intros v. split; [intros (c & [<-|I] & X); [left; exact X|right; exists c; auto]|intros [X|(c & I & X)]; [exists b; split; [left; reflexivity|exact X]|exists c; split; [right; exact I|exact X]]]. }
    destruct (scan fuel b s) as [s1|s1|s1|] eqn:ES.
    + destruct H as (L & LL & V). rewrite visit_map in V. pose proof (cut_lists b L N U LL) as CL.
      assert (G1 : good s1). { rewrite <- visit_map in V. exact (visit_good St add good GOOD L s s1 G V). }
      specialize (IH F' D' s1 G1). unfold scanned in IH |- *. destruct (scan_all fuel l s1) as [s2|s2|s2|]; auto.
      * destruct IH as (L2 & LL2 & V2). exists (map (firstn (1 + n)) L ++ L2). split; [|rewrite visit_app, V; exact V2]. apply (lists_app n (in_bset b) (in_set l) _ _ _ CL LL2); [|intros v _; apply IN].
        intros v I (X & c & IC & Y). rewrite Forall_forall in D1. exact (D1 c IC v I (conj X Y)).
      * destruct IH as (L2 & P2 & V2). exists (map (firstn (1 + n)) L ++ L2). split; [|rewrite visit_app, V; exact V2]. split.
        -- apply nodup_app; [apply CL|apply P2|]. intros x X Y. apply CL in X. apply P2 in Y. destruct Y as (IY & c & IC & Y). rewrite Forall_forall in D1. exact (D1 c IC x IY (conj (proj2 X) Y)).
        -- intros v I. apply in_app_iff in I. rewrite IN. destruct I as [I|I]; [apply CL in I|apply P2 in I]; tauto.
      * intros (RE & PB). apply IH. split; [exact RE|exact (Forall_inv_tail PB)].
    + destruct H as (L & P & V). rewrite visit_map in V. destruct (cut_picks b L N U P) as (A & C). exists (map (firstn (1 + n)) L). split; [|exact V]. split; [exact A|]. intros v I. rewrite IN. pose proof (C v I). tauto.
    + intros (RE & PB). apply H. split; [exact RE|exact (Forall_inv PB)].
    + exact I.
Qed.
Variable prepare : list bmap -> res (list bmap).
Hypothesis PREP : makes_separate n prepare.
Lemma set_scan_ok fuel l s : Forall (fun b => wf b /\ nvar b = n) l -> good s ->
  scanned n (in_set l) (reliably /\ exists l', prepare l = Ok l' /\ pieces_bounded l') fn s (set_scan tab snap tab_from reduce tab_min take_snap rollback add_eq sample St add range prepare fuel l s).
Proof.
  intros F G. unfold set_scan. destruct (prepare l) as [l'| | |] eqn:EP; try (intros (_ & x & X & _); congruence).
  destruct (PREP l l' F EP) as (S & Q). pose proof (scan_all_ok fuel l' S s G) as H. unfold scanned in *. destruct (scan_all fuel l' s); auto.
  - destruct H as (L & LL & V). exists L. split; [|exact V]. exact (lists_ext n _ _ L Q LL).
  - destruct H as (L & P & V). exists L. split; [|exact V]. split; [apply P|]. intros v I. destruct (proj2 P v I) as (A & C). split; [exact A|]. apply (Q v A), C.
  - intros (RE & x & X & PB). apply H. injection X as <-. auto.
Qed.
End Callback.

(** ** counting *)
Definition counting (max c : Z) : Prop := max = 0 \/ 0 < max /\ c < max.
Lemma count_visit max l : 0 <= max -> forall c, counting max c -> visit (increment_counter max) l c = if (max =? 0) || (c + Z.of_nat (length l) <? max) then (true, c + Z.of_nat (length l)) else (false, max).
Proof.
  intros M. induction l as [|v l IH]; intros c C; cbn [visit length].
  - replace (c + Z.of_nat 0) with c by lia. unfold counting in C. destruct (Z.eqb_spec max 0), (Z.ltb_spec c max); cbn [orb]; try reflexivity. lia.
  - unfold increment_counter at 1. destruct ((max =? 0) || (c + 1 <? max)) eqn:E.
    + rewrite IH. { replace (c + 1 + Z.of_nat (length l)) with (c + Z.of_nat (S (length l))) by lia. reflexivity. } unfold counting in *. apply orb_true_iff in E. rewrite Z.eqb_eq, Z.ltb_lt in E. lia.
    + apply orb_false_iff in E. rewrite Z.eqb_neq, Z.ltb_ge in E. unfold counting in C. replace ((max =? 0) || (c + Z.of_nat (S (length l)) <? max)) with false. { f_equal. lia. } symmetry. apply orb_false_iff. rewrite Z.eqb_neq, Z.ltb_ge. lia.
Qed.
Lemma counter_range max g : 0 <= max -> Some (increment_range max) = Some g -> forall c l lo hi, counting max c -> lo <= hi -> Z.of_nat (length l) = hi - lo + 1 -> g c lo hi = visit (increment_counter max) l c.
Proof.
  intros M [= <-] c l lo hi C LH L. rewrite (count_visit max l M c C). unfold increment_range. replace (c + hi - lo + 1) with (c + Z.of_nat (length l)) by lia. reflexivity.
Qed.
Lemma counter_good max c v c' : counting max c -> increment_counter max c v = (true, c') -> counting max c'.
Proof. unfold counting, increment_counter. intros C [= E <-]. apply orb_true_iff in E. rewrite Z.eqb_eq, Z.ltb_lt in E. lia. Qed.
Lemma counter_start max : 0 <= max -> counting max 0.
Proof. unfold counting. lia. Qed.
(** the cardinality, or the maximum if there are at least as many points *)
Definition counted (n : nat) (Q : list Z -> Prop) (max c : Z) : Prop :=
  (max = 0 \/ c < max -> exists L, lists n Q L /\ c = Z.of_nat (length L)) /\ (0 < max -> max <= c -> c = max /\ exists L, picks n Q L /\ max <= Z.of_nat (length L)).
Lemma count_scanned n Q fine max r x : 0 <= max -> scanned Z n Q fine (increment_counter max) 0 r -> count_result max r = Some x ->
  match x with Some c => fine -> counted n Q max c | None => ~ fine end.
Proof.
  intros M S E. destruct r as [c|c|c|]; cbn [scanned count_result] in *; try discriminate E.
  - injection E as <-. destruct S as (L & LL & V). rewrite (count_visit max L M 0 (counter_start max M)) in V. destruct ((max =? 0) || _) eqn:C; [|discriminate V]. injection V as <-. apply orb_true_iff in C. rewrite Z.eqb_eq, Z.ltb_lt in C. intros _. split; [intros _; exists L; split; [exact LL|lia]|]. intros. lia.
  - destruct S as (L & P & V). rewrite (count_visit max L M 0 (counter_start max M)) in V. destruct ((max =? 0) || _) eqn:C; [discriminate V|]. injection V as <-. apply orb_false_iff in C. rewrite Z.eqb_neq, Z.ltb_ge in C. rewrite Z.ltb_irrefl in E. injection E as <-. intros _. split; [intros; lia|]. intros _ _. split; [reflexivity|]. exists L. split; [exact P|lia].
  - injection E as <-. destruct (c <? max); [exact S|]. intros X. destruct (S X).
Qed.
End Proofs.
