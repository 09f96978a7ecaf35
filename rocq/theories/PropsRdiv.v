(** Properties of the removal of redundant integer divisions (C46). *)
From Coq Require Import ZArith List Bool Lia Arith.
From Verif Require Import SeqModel SeqSpec MatModel BMapModel BMapSpec BMapSem BMapOrder BDupModel BElimModel BElimSpec TabModel TabMap SimpModel SimpSpec SimpFinal RdivModel RdivSpec RdivTab RdivProofs.
Import ListNotations.
Open Scope Z_scope.

(** C46: isl_basic_map_drop_redundant_divs does not change the points of a basic
    map and leaves it consistent, with the integer divisions ordered, for every
    correct tableau.  The statement does not cover the termination of the
    recursion, nor basic maps marked rational or empty that still have integer
    divisions *)
Theorem C46_drop_redundant_divs hash no_redundant tab sfuel tab_empty tab_min fuel b b' : sound_tab tab -> sound_empty tab_empty -> sound_min tab_min ->
  good b -> ordered b -> drop_redundant_divs hash no_redundant tab sfuel tab_empty tab_min fuel b = Ok b' ->
  (same_space b b' /\ good b' /\ forall q, length q = (1 + nvar b)%nat -> admissible (b_rat b) q -> (points b q <-> points b' q)) /\ ordered b'.
Proof. intros T E M. exact (drop_redundant_pres hash no_redundant tab sfuel tab_empty tab_min T E M fuel b b'). Qed.
(** C46: the same for the tableau of isl_tab.c *)
Theorem C46_drop_redundant_divs_tab hash no_redundant tfuel sfuel fuel b b' :
  good b -> ordered b -> drop_redundant_divs hash no_redundant (tab_of tfuel) sfuel (empty_of tfuel) (min_of tfuel) fuel b = Ok b' ->
  (same_space b b' /\ good b' /\ forall q, length q = (1 + nvar b)%nat -> admissible (b_rat b) q -> (points b q <-> points b' q)) /\ ordered b'.
Proof. exact (drop_redundant_pres hash no_redundant (tab_of tfuel) sfuel (empty_of tfuel) (min_of tfuel) (tab_of_sound tfuel) (empty_of_sound tfuel) (min_of_sound tfuel) fuel b b'). Qed.

Definition drd : bmap -> res bmap := drop_redundant_divs (fun _ => O) (fun _ => false) (tab_of 40) 10 (empty_of 40) (min_of 40) 20.
Ltac unknown_good :=
  split; [split; [repeat split; repeat constructor|]; split; [exists (fun k => k); intros [|[|k]] [|[|j]]; cbn; intros; lia|]; split; [repeat (apply Forall_cons; [cbn; lia|]); apply Forall_nil|];
          split; [intros v _ _ _ [|[|k]] Hk; [left; reflexivity|left; reflexivity|cbn in Hk; lia]|split; [discriminate|discriminate]]
         |intros [|[|i]] k Hi Hk; cbn in Hi; try lia; destruct k as [|[|k]]; cbn in *; try lia; reflexivity].
Ltac unknown_good1 :=
  split; [split; [repeat split; repeat constructor|]; split; [exists (fun k => k); intros [|k] [|j]; cbn; intros; lia|]; split; [repeat (apply Forall_cons; [cbn; lia|]); apply Forall_nil|];
          split; [intros v _ _ _ [|k] Hk; [left; reflexivity|cbn in Hk; lia]|split; [discriminate|discriminate]]
         |intros [|i] k Hi Hk; cbn in Hi; try lia; destruct k as [|k]; cbn in *; try lia; reflexivity].
(** 6 x + 4 y = 10 a + 15 b + 1 is the same as x - y = 1 modulo 5 *)
Definition ex_two : bmap := mkb 0 0 2 [[-1; 6; 4; -10; -15]] [] [[0; 0; 0; 0; 0; 0]; [0; 0; 0; 0; 0; 0]] false false false.
Example ex_two_good : good ex_two /\ ordered ex_two.
Proof. unknown_good. Qed.
Example ex_two_result : drd ex_two = Ok (mkb 0 0 2 [[-1; 1; -1; 5]] [] [[5; 1; -1; 1; 0]] false false true).
Proof. vm_compute. reflexivity. Qed.
(** x <= 2 e, 3 e <= y and 3 x + 2 <= 2 y: there is always such an e *)
Definition ex_more : bmap := mkb 0 0 2 [] [[0; -1; 0; 2]; [0; 0; 1; -3]; [-2; -3; 2; 0]] [[0; 0; 0; 0; 0]] false false false.
Example ex_more_good : good ex_more /\ ordered ex_more.
Proof. unknown_good1. Qed.
Example ex_more_result : drd ex_more = Ok (mkb 0 0 2 [] [[-2; -3; 2]] [] false false false).
Proof. vm_compute. reflexivity. Qed.
(** without the 2 there need not be one: x = 3, y = 5 *)
Definition ex_keep : bmap := mkb 0 0 2 [] [[0; -1; 0; 2]; [0; 0; 1; -3]; [0; -3; 2; 0]] [[0; 0; 0; 0; 0]] false false false.
Example ex_keep_good : good ex_keep /\ ordered ex_keep.
Proof. unknown_good1. Qed.
Example ex_keep_result : drd ex_keep = Ok ex_keep.
Proof. vm_compute. reflexivity. Qed.
(** x <= 3 e <= x + 1 determines e *)
Definition ex_set : bmap := mkb 0 0 1 [] [[0; -1; 3]; [1; 1; -3]; [9; -1; 0]] [[0; 0; 0; 0]] false false false.
Example ex_set_good : good ex_set /\ ordered ex_set.
Proof. unknown_good1. Qed.
Example ex_set_result : drd ex_set = Ok (mkb 0 0 1 [] [[3; -1; 3]; [-2; 1; -3]; [9; -1; 0]] [[3; -1; 1; 0]] false false false).
Proof. vm_compute. reflexivity. Qed.
(** x <= 3 e <= x + 2 holds for some e *)
Definition ex_pair : bmap := mkb 0 0 1 [] [[0; -1; 3]; [2; 1; -3]; [9; -1; 0]] [[0; 0; 0; 0]] false false false.
Example ex_pair_good : good ex_pair /\ ordered ex_pair.
Proof. unknown_good1. Qed.
Example ex_pair_result : drd ex_pair = Ok (mkb 0 0 1 [] [[9; -1]] [] false false false).
Proof. vm_compute. reflexivity. Qed.
(** a + 4 b, with 0 <= a <= 3, is any integer *)
Definition ex_coal : bmap := mkb 0 0 2 [] [[0; 0; 0; 1; 0]; [3; 0; 0; -1; 0]; [0; -1; 0; 1; 4]; [0; 0; 1; -1; -4]; [0; 0; 1; -2; -8]] [[0; 0; 0; 0; 0; 0]; [0; 0; 0; 0; 0; 0]] false false false.
Example ex_coal_good : good ex_coal /\ ordered ex_coal.
Proof. unknown_good. Qed.
Example ex_coal_result : drd ex_coal = Ok (mkb 0 0 2 [] [[0; -1; 1]; [0; -2; 1]] [] false false false).
Proof. vm_compute. reflexivity. Qed.
(** x <= 2 e, 3 e <= y, 3 x <= 2 y - 1 and 2 y <= 3 x has no rational points *)
Definition ex_none : bmap := mkb 0 0 2 [] [[0; -1; 0; 2]; [0; 0; 1; -3]; [-1; -3; 2; 0]; [0; 3; -2; 0]] [[0; 0; 0; 0; 0]] false false false.
Example ex_none_good : good ex_none /\ ordered ex_none.
Proof. unknown_good1. Qed.
Example ex_none_result : drd ex_none = Ok (mkb 0 0 2 [[1; 0; 0]] [] [] false true false).
Proof. vm_compute. reflexivity. Qed.

Print Assumptions C46_drop_redundant_divs.
Print Assumptions C46_drop_redundant_divs_tab.
