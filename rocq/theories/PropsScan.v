(** C34: enumeration visits every integer point exactly once. *)
From Coq Require Import ZArith List Bool Arith Lia.
From Verif Require Import SeqModel SeqSpec SeqProofs MatModel BMapModel BMapSpec BMapSem LocalModel ScanModel ScanSpec ScanBase ScanLoop ScanProofs ScanToy.
Import ListNotations.
Open Scope Z_scope.

Section Scan.
Variables (tab snap : Type) (tab_from : bmap -> res tab) (reduce : nat -> tab -> res (tab * list (list Z))) (tab_min : tab -> list Z -> lp * tab).
Variables (take_snap : tab -> snap * tab) (rollback : tab -> snap -> res tab) (add_eq : tab -> list Z -> res tab) (sample : tab -> res (list Z)).
Variable Rep : nat -> tab -> list (snap * sys) -> sys -> Prop.
Hypothesis TAB : tableau tab snap tab_from reduce tab_min take_snap rollback add_eq sample Rep.
Notation reliably := (reliable tab snap tab_from reduce tab_min rollback add_eq sample Rep).
Notation scan := (scan tab snap tab_from reduce tab_min take_snap rollback add_eq sample).

(** C34: isl_basic_set_scan calls the callback once for each integer point (with
    the values of the integer divisions) until it fails; the search itself does
    not fail on bounded sets *)
Theorem C34_basic_set_scan (St : Type) (add : St -> list Z -> bool * St) fuel b s : wf b -> (total b = 0%nat -> sat (of_bset b) [1]) ->
  match scan St add None fuel b s with
  | Done s' => exists L, lists (total b) (sat (of_bset b)) L /\ visit add L s = (true, s')
  | Stop s' => exists L, picks (total b) (sat (of_bset b)) L /\ visit add L s = (false, s')
  | Fail _ => ~ (reliably /\ bounded (total b) (of_bset b))
  | OutOfFuel => True
  end.
Proof. intros W Z0. exact (scan_ok tab snap tab_from reduce tab_min take_snap rollback add_eq sample Rep TAB St add None (fun _ => True) (fun _ _ _ _ _ => I) (fun g E => match E with eq_refl => I end) fuel b s W Z0 I). Qed.
(** C34: isl_set_foreach_point calls the function once for each integer point *)
Theorem C34_foreach_point n prepare (St : Type) (fn : St -> list Z -> bool * St) fuel l s : makes_separate n prepare -> Forall (fun b => wf b /\ nvar b = n) l ->
  match foreach_point tab snap tab_from reduce tab_min take_snap rollback add_eq sample prepare St fn fuel n l s with
  | Done s' => exists L, lists n (in_set l) L /\ visit fn L s = (true, s')
  | Stop s' => exists L, picks n (in_set l) L /\ visit fn L s = (false, s')
  | Fail _ => ~ (reliably /\ exists l', prepare l = Ok l' /\ pieces_bounded l')
  | OutOfFuel => True
  end.
Proof. intros P F. exact (set_scan_ok tab snap tab_from reduce tab_min take_snap rollback add_eq sample Rep TAB St (fun s v => fn s (point_alloc n v)) None (fun _ => True) (fun _ _ _ _ _ => I) (fun g E => match E with eq_refl => I end) n fn (fun _ _ => eq_refl) prepare P fuel l s F I). Qed.
(** C34: isl_set_count_val returns the number of integer points of a bounded set *)
Theorem C34_count_val n prepare fuel l l' x : makes_separate n prepare -> Forall (fun b => wf b /\ nvar b = n) l ->
  reliably -> prepare l = Ok l' -> pieces_bounded l' ->
  count_val tab snap tab_from reduce tab_min take_snap rollback add_eq sample prepare fuel l = Some x ->
  exists L, lists n (in_set l) L /\ x = Some (Z.of_nat (length L)).
Proof.
  intros P F R E PB H. pose proof (set_scan_ok tab snap tab_from reduce tab_min take_snap rollback add_eq sample Rep TAB Z (increment_counter 0) (Some (increment_range 0)) (counting 0) (counter_good 0) (fun g EG => counter_range 0 g ltac:(lia) EG) n (increment_counter 0) (fun _ _ => eq_refl) prepare P fuel l 0 F (counter_start 0 ltac:(lia))) as S.
  pose proof (count_scanned n _ _ 0 _ x ltac:(lia) S H) as C. destruct x as [c|]; [|destruct C; split; [exact R|exists l'; auto]]. destruct (C (conj R (ex_intro _ l' (conj E PB)))) as (A & _). destruct (A (or_introl eq_refl)) as (L & LL & ->). exists L. auto.
Qed.
(** C34: isl_set_count_upto and isl_basic_set_count_upto stop at the maximum *)
Theorem C34_count_upto n prepare fuel l l' max x : makes_separate n prepare -> Forall (fun b => wf b /\ nvar b = n) l ->
  reliably -> prepare l = Ok l' -> pieces_bounded l' -> 0 < max ->
  count_upto tab snap tab_from reduce tab_min take_snap rollback add_eq sample prepare fuel l max = Some x ->
  exists c L, x = Some c /\ picks n (in_set l) L /\ c <= Z.of_nat (length L) /\ c <= max /\ (c < max -> lists n (in_set l) L /\ c = Z.of_nat (length L)).
Proof.
  intros P F R E PB M H. pose proof (set_scan_ok tab snap tab_from reduce tab_min take_snap rollback add_eq sample Rep TAB Z (increment_counter max) (Some (increment_range max)) (counting max) (counter_good max) (fun g EG => counter_range max g ltac:(lia) EG) n (increment_counter max) (fun _ _ => eq_refl) prepare P fuel l 0 F (counter_start max ltac:(lia))) as S.
  pose proof (count_scanned n _ _ max _ x ltac:(lia) S H) as C. destruct x as [c|]; [|destruct C; split; [exact R|exists l'; auto]]. destruct (C (conj R (ex_intro _ l' (conj E PB)))) as (A & B). exists c. destruct (Z.lt_ge_cases c max) as [X|X].
  - destruct (A (or_intror X)) as (L & LL & EL). exists L. split; [reflexivity|]. split; [split; [apply LL|intros v; apply LL]|]. split; [lia|]. split; [lia|auto].
  - destruct (B M X) as (EC & L & PL & LE). exists L. split; [reflexivity|]. split; [exact PL|]. split; [lia|]. split; [lia|]. intros. lia.
Qed.
Theorem C34_basic_count_upto fuel b max x : wf b -> (total b = 0%nat -> sat (of_bset b) [1]) -> reliably -> bounded (total b) (of_bset b) -> 0 < max ->
  basic_count_upto tab snap tab_from reduce tab_min take_snap rollback add_eq sample fuel b max = Some x ->
  exists c L, x = Some c /\ picks (total b) (sat (of_bset b)) L /\ c <= Z.of_nat (length L) /\ c <= max /\ (c < max -> lists (total b) (sat (of_bset b)) L /\ c = Z.of_nat (length L)).
Proof.
  intros W Z0 R BO M H. pose proof (scan_ok tab snap tab_from reduce tab_min take_snap rollback add_eq sample Rep TAB Z (increment_counter max) (Some (increment_range max)) (counting max) (counter_good max) (fun g EG => counter_range max g ltac:(lia) EG) fuel b 0 W Z0 (counter_start max ltac:(lia))) as S.
  pose proof (count_scanned (total b) _ _ max _ x ltac:(lia) S H) as C. destruct x as [c|]; [|destruct C; split; assumption]. destruct (C (conj R BO)) as (A & B). exists c. destruct (Z.lt_ge_cases c max) as [X|X].
  - destruct (A (or_intror X)) as (L & LL & EL). exists L. split; [reflexivity|]. split; [split; [apply LL|intros v; apply LL]|]. split; [lia|]. split; [lia|auto].
  - destruct (B M X) as (EC & L & PL & LE). exists L. split; [reflexivity|]. split; [exact PL|]. split; [lia|]. split; [lia|]. intros. lia.
Qed.

(** C34: isl_basic_set_scan does not look at the constraints if there are no dimensions: the
    empty set is found to have a point *)
Theorem C34_scan_0D_refuted fuel : exists b, wf b /\ (forall v, ~ sat (of_bset b) v) /\ basic_count_upto tab snap tab_from reduce tab_min take_snap rollback add_eq sample fuel b 7 = Some (Some 1).
Proof.
  exists (mkb 0 0 0 [] [] [] false true false). split; [repeat split; constructor|]. split; [intros v (E & _); discriminate E|reflexivity].
Qed.
(** C34: isl_set_count_val returns 0 instead of an error for the natural numbers,
    since the failure of the search is only reported if fewer points than
    the maximum were found, and a zero maximum stands for no maximum *)
Definition naturals : bmap := mkb 0 0 1 [] [[0; 1]] [] false false false.
Lemma natural_points p : rpoint 1 p -> (sat (of_bset naturals) p <-> 0 <= nth 1 p 0).
Proof.
  intros R. destruct (two_points p R) as (k & x & -> & K). unfold sat, of_bset, system. cbn [s_empty s_eq s_ineq naturals b_empty b_eq b_ineq nth]. rewrite Forall_cons_iff. unfold nonneg_on. cbn [dot]. split; [intros (_ & _ & A & _); lia|]. intros A. split; [reflexivity|]. split; [constructor|]. split; [lia|constructor].
Qed.
Theorem C34_count_unbounded_refuted : exists b, wf b /\ (forall k, 0 <= k -> sat (of_bset b) [1; k]) /\
  ((exists t, tab_from b = Ok t /\ exists r, reduce 1 t = Ok r) -> forall fuel prepare, prepare [b] = Ok [b] -> count_val tab snap tab_from reduce tab_min take_snap rollback add_eq sample prepare (S fuel) [b] = Some (Some 0)).
Proof.
  exists naturals. assert (W : wf naturals) by (repeat split; repeat constructor). split; [exact W|]. split; [intros k K; apply natural_points; [split; [reflexivity|cbn; lia]|exact K]|].
  intros (t & ET & (t' & B) & ER) fuel prepare EP. unfold count_val, count_upto, set_scan. rewrite EP. cbn [scan_all]. unfold ScanModel.scan. change (total naturals) with 1%nat. cbn [Nat.eqb]. rewrite ET, ER.
  pose proof (t_from _ _ _ _ _ _ _ _ _ _ TAB naturals t W ET) as R. change (total naturals) with 1%nat in R. destruct (t_reduce _ _ _ _ _ _ _ _ _ _ TAB _ t _ _ t' B R ER) as (R' & BB).
  enough (X : bounds tab tab_min t' (nth 0 B []) = None) by (cbn [loop length]; rewrite X; reflexivity).
  destruct (basis_row 1 B 0 BB ltac:(lia)) as (LR & HR). destruct (nth 0 B []) as [|z [|a [|? ?]]] eqn:EB; try discriminate LR. cbn in HR. subst z.
  assert (A : a <> 0). { intros ->. destruct BB as (LB & _ & SU & _). destruct B as [|r [|? ?]]; try discriminate LB. cbn in EB. subst r. destruct (SU [1] eq_refl) as (x & LX & E). destruct x as [|x [|? ?]]; try discriminate LX. cbn [map tl dot] in E. apply (f_equal (hd 0)) in E. cbn [hd] in E. lia. }
  unfold bounds. destruct (tab_min t' [0; a]) as (r1 & t1) eqn:E1. destruct (t_min _ _ _ _ _ _ _ _ _ _ TAB 1%nat t' [] _ [0; a] r1 t1 R' eq_refl eq_refl E1) as (R1 & M1). cbn [hd tl map]. destruct (tab_min t1 [0; - a]) as (r2 & t2) eqn:E2. destruct (t_min _ _ _ _ _ _ _ _ _ _ TAB 1%nat t1 [] _ [0; - a] r2 t2 R1 eq_refl eq_refl E2) as (R2 & M2).
  assert (PT : forall k, 0 <= k -> rpoint 1 [1; k] /\ sat (of_bset naturals) [1; k]) by (intros k K; assert (rpoint 1 [1; k]) by (split; [reflexivity|cbn; lia]); split; [assumption|apply natural_points; [assumption|exact K]]).
  assert (NE : forall P : Prop, (forall p, rpoint 1 p -> ~ sat (of_bset naturals) p) -> P) by (intros P H; destruct (PT 0 ltac:(lia)) as (X & Y); destruct (H _ X Y)).
  destruct r1 as [|v1| |]; try reflexivity; [|exact (NE _ M1)]. destruct r2 as [|v2| |]; try reflexivity; [|exact (NE _ M2)].
  exfalso. destruct M1 as (M1 & _). destruct M2 as (M2 & _). set (k := Z.abs v1 + Z.abs v2 + 1). destruct (PT k ltac:(lia)) as (X & Y). pose proof (M1 _ X Y) as U. pose proof (M2 _ X Y) as V. cbn [dot hd] in U, V. nia.
Qed.
End Scan.

(** ** examples *)
(** the numbers from 3 up to 7 *)
Definition ex_b : bmap := mkb 0 0 1 [] [[-3; 1]; [9; -1]; [7; -1]] [] false false false.
Example ex_wf : wf ex_b /\ total ex_b = 1%nat. Proof. split; [repeat split; repeat constructor|reflexivity]. Qed.
Example ex_bounded : bounded (total ex_b) (of_bset ex_b).
Proof.
  exists 9. intros p R. change (total ex_b) with 1%nat in R. destruct (two_points p R) as (k & x & -> & K). unfold sat, of_bset, system. cbn [s_empty s_eq s_ineq ex_b b_empty b_eq b_ineq]. rewrite !Forall_cons_iff. unfold nonneg_on. cbn [dot hd]. intros (_ & _ & A & C & D & _) i. destruct i as [|[|[|i]]]; cbn [nth]; lia.
Qed.
Definition collect (s : list (list Z)) (v : list Z) : bool * list (list Z) := (true, s ++ [v]).
Definition ikeep (l : list bmap) : res (list bmap) := Ok l.
Example ex_scan : scan itab itab ifrom ireduce imin isnap iback iadd isample _ collect None 20 ex_b [] = Done [[1; 3]; [1; 4]; [1; 5]; [1; 6]; [1; 7]] /\
  count_val itab itab ifrom ireduce imin isnap iback iadd isample ikeep 20 [ex_b] = Some (Some 5) /\
  count_upto itab itab ifrom ireduce imin isnap iback iadd isample ikeep 20 [ex_b] 3 = Some (Some 3) /\
  foreach_point itab itab ifrom ireduce imin isnap iback iadd isample ikeep _ (fun s v => (Z.of_nat (length s) <? 2, s ++ [v])) 20 1 [ex_b] [] = Stop [[1; 3]; [1; 4]; [1; 5]].
Proof. vm_compute. repeat split. Qed.
Example ex_tableaus : tableau itab itab ifrom ireduce imin isnap iback iadd isample iRep /\
  tableau (nat * sys) (nat * sys) cfrom creduce cmin csnap cback cadd csample cRep /\ reliable (nat * sys) (nat * sys) cfrom creduce cmin cback cadd csample cRep.
Proof. split; [exact interval_tableau|]. split; [exact system_tableau|exact system_reliable]. Qed.
(** for sets that consist of one basic set without integer divisions nothing is left to be prepared *)
Definition keep_one (l : list bmap) : res (list bmap) :=
  match l with [b] => if (ndiv b =? 0)%nat && negb (total b =? 0)%nat then Ok l else Null | _ => Null end.
Example ex_separate n : makes_separate n keep_one /\ keep_one [ex_b] = Ok [ex_b].
Proof.
  split; [|reflexivity]. intros l l' F E. unfold keep_one in E. destruct l as [|b [|? ?]]; try discriminate E. destruct (Nat.eqb_spec (ndiv b) 0) as [N|]; cbn [andb] in E; [|discriminate E]. destruct (Nat.eqb_spec (total b) 0) as [T|T]; cbn [negb] in E; [discriminate E|]. injection E as <-. split; [|reflexivity]. pose proof (Forall_inv F) as (W & V). split; [|repeat constructor].
  constructor; [|constructor]. split; [exact W|]. split; [exact V|]. split; [intros; contradiction|]. intros v e e' _ L L' _ _. rewrite N in L, L'. destruct e; [|discriminate L]. destruct e'; [reflexivity|discriminate L'].
Qed.

Print Assumptions C34_basic_set_scan.
Print Assumptions C34_foreach_point.
Print Assumptions C34_count_val.
Print Assumptions C34_count_upto.
Print Assumptions C34_basic_count_upto.
Print Assumptions C34_scan_0D_refuted.
Print Assumptions C34_count_unbounded_refuted.
