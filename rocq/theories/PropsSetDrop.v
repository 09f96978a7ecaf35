(** Composition and projection of maps with the modelled removal of redundant
    integer divisions and the modelled tableau (C27). *)
From Coq Require Import ZArith List Bool Lia Arith.
From Verif Require Import SeqModel SeqSpec MatModel BMapModel BMapSpec BMapSem BDupModel BElimModel BElimSpec TabModel TabMap SimpModel SimpSpec SetModel SetSpec SetBase SetLift SetOps SetProject SetMaps RdivModel RdivTab RdivSet PropsSet.
Import ListNotations.
Open Scope Z_scope.

(** isl_basic_map_drop_redundant_divs with the tableau of isl_tab.c *)
Definition drop (hash : list Z -> nat) (no_redundant : bmap -> bool) (tfuel sfuel rfuel : nat) (b : bmap) : res bmap :=
  drop_redundant_divs hash no_redundant (tab_of tfuel) sfuel (empty_of tfuel) (min_of tfuel) rfuel b.

(** C27: the composition of basic maps *)
Theorem C27_basic_apply_range_drop hash no_redundant tfuel sfuel rfuel fuel b1 b2 b np n k m : okb np n k b1 -> okb np k m b2 ->
  apply_range hash no_redundant (tab_of tfuel) fuel (drop hash no_redundant tfuel sfuel rfuel) b1 b2 = Ok b ->
  okb np n m b /\ forall P I O, length P = np -> length I = n -> length O = m -> (relates b P I O <-> exists M, length M = k /\ relates b1 P I M /\ relates b2 P M O).
Proof. exact (apply_range_rdiv hash no_redundant (tab_of tfuel) sfuel (empty_of tfuel) (min_of tfuel) rfuel (tab_of_sound tfuel) (empty_of_sound tfuel) (min_of_sound tfuel) fuel b1 b2 b np n k m). Qed.
(** C27: the projection of a basic map *)
Theorem C27_basic_project_out_drop hash no_redundant tfuel sfuel rfuel fuel b t first n b' : proper b ->
  project_out hash no_redundant (tab_of tfuel) fuel (drop hash no_redundant tfuel sfuel rfuel) b t first n = Ok b' ->
  (first + n <= dim_count b t \/ n = 0)%nat /\ okb (less t DParam n (b_param b)) (less t DIn n (b_in b)) (less t DOut n (b_out b)) b' /\
  forall A C, length A = (dim_offset b t + first)%nat -> (length A + n + length C)%nat = nvar b ->
    (points b' (1 :: A ++ C) <-> exists X, length X = n /\ points b (1 :: A ++ X ++ C)).
Proof. exact (project_out_rdiv hash no_redundant (tab_of tfuel) sfuel (empty_of tfuel) (min_of tfuel) rfuel (tab_of_sound tfuel) (empty_of_sound tfuel) (min_of_sound tfuel) fuel b t first n b'). Qed.
(** C27: the composition of maps *)
Theorem C27_map_apply_range_drop hash no_redundant tfuel sfuel rfuel fuel l1 l2 l np n k m : okm np n k l1 -> okm np k m l2 ->
  map_apply_range hash no_redundant (tab_of tfuel) fuel (drop hash no_redundant tfuel sfuel rfuel) l1 l2 = Ok l ->
  okm np n m l /\ forall P I O, length P = np -> length I = n -> length O = m -> (relates_any l P I O <-> exists M, length M = k /\ relates_any l1 P I M /\ relates_any l2 P M O).
Proof. exact (map_apply_range_rdiv hash no_redundant (tab_of tfuel) sfuel (empty_of tfuel) (min_of tfuel) rfuel (tab_of_sound tfuel) (empty_of_sound tfuel) (min_of_sound tfuel) fuel np n k m l1 l2 l). Qed.

Theorem C27_map_apply_domain_drop sid hash no_redundant tfuel sfuel rfuel fuel l1 l2 l np n k m : okm np k m l1 -> okm np k n l2 ->
  map_apply_domain sid hash no_redundant (tab_of tfuel) fuel (drop hash no_redundant tfuel sfuel rfuel) l1 l2 = Ok l ->
  okm np n m l /\ forall P I O, length P = np -> length I = n -> length O = m -> (relates_any l P I O <-> exists M, length M = k /\ relates_any l2 P M I /\ relates_any l1 P M O).
Proof. exact (map_apply_domain_rdiv hash no_redundant (tab_of tfuel) sfuel (empty_of tfuel) (min_of tfuel) rfuel (tab_of_sound tfuel) (empty_of_sound tfuel) (min_of_sound tfuel) fuel sid np n k m l1 l2 l). Qed.
(** C27: projections, the domain and the range of maps *)
Theorem C27_map_project_out_drop hash no_redundant tfuel sfuel rfuel fuel l t first n l' np ni no : okm np ni no l ->
  map_project_out hash no_redundant (tab_of tfuel) fuel (drop hash no_redundant tfuel sfuel rfuel) l t first n = Ok l' ->
  okm (less t DParam n np) (less t DIn n ni) (less t DOut n no) l' /\
  forall A C, length A = (match t with DParam => 0 | DIn => np | DOut => np + ni end + first)%nat -> (length A + n + length C)%nat = (np + ni + no)%nat ->
    ((exists b, List.In b l' /\ points b (1 :: A ++ C)) <-> exists X, length X = n /\ exists b, List.In b l /\ points b (1 :: A ++ X ++ C)).
Proof. exact (map_project_out_rdiv hash no_redundant (tab_of tfuel) sfuel (empty_of tfuel) (min_of tfuel) rfuel (tab_of_sound tfuel) (empty_of_sound tfuel) (min_of_sound tfuel) fuel np ni no l t first n l'). Qed.

Theorem C27_map_domain_drop sid hash no_redundant tfuel sfuel rfuel fuel l d np ni no : okm np ni no l ->
  map_domain sid hash no_redundant (tab_of tfuel) fuel (drop hash no_redundant tfuel sfuel rfuel) np ni no l = Ok d ->
  okm np 0 ni d /\ forall P I, length P = np -> length I = ni -> (relates_any d P [] I <-> exists O, length O = no /\ relates_any l P I O).
Proof. exact (map_domain_rdiv hash no_redundant (tab_of tfuel) sfuel (empty_of tfuel) (min_of tfuel) rfuel (tab_of_sound tfuel) (empty_of_sound tfuel) (min_of_sound tfuel) fuel sid np ni no l d). Qed.

Theorem C27_map_range_drop sid hash no_redundant tfuel sfuel rfuel fuel l d np ni no : okm np ni no l ->
  map_range sid hash no_redundant (tab_of tfuel) fuel (drop hash no_redundant tfuel sfuel rfuel) np ni no l = Ok d ->
  okm np 0 no d /\ forall P O, length P = np -> length O = no -> (relates_any d P [] O <-> exists I, length I = ni /\ relates_any l P I O).
Proof. exact (map_range_rdiv hash no_redundant (tab_of tfuel) sfuel (empty_of tfuel) (min_of tfuel) rfuel (tab_of_sound tfuel) (empty_of_sound tfuel) (min_of_sound tfuel) fuel sid np ni no l d). Qed.

(** y = 2 x, and x = 3 y *)
Definition ex_double : bmap := mkb 0 1 1 [[0; 2; -1]] [] [] false false false.
Definition ex_third : bmap := mkb 0 1 1 [[0; 1; -3]] [] [] false false false.
Definition ex_drop := drop (fun _ => O) (fun _ => false) 40 10 20.
Example ex_double_ok : okm 0 1 1 [ex_double].
Proof. constructor; [|constructor]. plain. Qed.
Example ex_third_ok : okm 0 1 1 [ex_third].
Proof. constructor; [|constructor]. plain. Qed.
Example ex_apply_range : map_apply_range (fun _ => O) (fun _ => false) (tab_of 40) 10 ex_drop [ex_double] [ex_third] = Ok [mkb 0 1 1 [[0; -2; 3]] [] [] false false false].
Proof. vm_compute. reflexivity. Qed.
Example ex_apply_domain : map_apply_domain (fun _ => false) (fun _ => O) (fun _ => false) (tab_of 40) 10 ex_drop [ex_double] [ex_third] = Ok [mkb 0 1 1 [[0; -6; 1]] [] [] false false false].
Proof. vm_compute. reflexivity. Qed.
Example ex_domain : map_domain (fun _ => false) (fun _ => O) (fun _ => false) (tab_of 40) 10 ex_drop 0 1 1 [ex_third] = Ok [mkb 0 0 1 [[0; -1; 3]] [] [[3; 0; 1; 0]] false false true].
Proof. vm_compute. reflexivity. Qed.
Example ex_range : map_range (fun _ => false) (fun _ => O) (fun _ => false) (tab_of 40) 10 ex_drop 0 1 1 [ex_double] = Ok [mkb 0 0 1 [[0; -1; 2]] [] [[2; 0; 1; 0]] false false true].
Proof. vm_compute. reflexivity. Qed.
(** also for a basic map that is marked empty *)
Definition ex_void : bmap := mkb 0 1 1 [[1; 0; 0]] [] [] false true false.
Example ex_void_ok : okm 0 1 1 [ex_void].
Proof.
  constructor; [|constructor]. split; [|repeat split]. split; [repeat split; repeat constructor|]. split; [exists (fun k => k); intros [|k] [|j]; cbn; intros; lia|]. split; [constructor|]. split; [intros v _ _ _ k Hk; cbn in Hk; lia|]. split; [reflexivity|].
  intros _ v L H [S1 _]. inversion S1 as [|r l Z0 _]. destruct v as [|x [|y [|z [|]]]]; try discriminate L. cbn [hd] in H. subst x. unfold zero_on in Z0. cbn [dot] in Z0. lia.
Qed.
Example ex_project : map_project_out (fun _ => O) (fun _ => false) (tab_of 40) 10 ex_drop [ex_void; ex_third] DOut 0 1 =
  Ok [mkb 0 1 0 [[1; 0]] [] [] false true false; mkb 0 1 0 [[0; -1; 3]] [] [[3; 0; 1; 0]] false false true].
Proof. vm_compute. reflexivity. Qed.

Print Assumptions C27_basic_apply_range_drop.
Print Assumptions C27_basic_project_out_drop.
Print Assumptions C27_map_apply_range_drop.
Print Assumptions C27_map_apply_domain_drop.
Print Assumptions C27_map_project_out_drop.
Print Assumptions C27_map_domain_drop.
Print Assumptions C27_map_range_drop.
