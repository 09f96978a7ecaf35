(** Properties of the operations on basic maps and maps (C27). *)
From Coq Require Import ZArith List Bool Lia Arith Permutation.
From Verif Require Import SeqModel SeqSpec MatModel BMapModel BMapSpec BMapSem ReorderModel LocalModel BElimModel BElimSpec TabModel TabMap SimpModel SimpSpec SetModel SetBase SetSpec SetLift SetOps SetOps2 SetOps3 SetProject SetMaps PropsBElim.
Import ListNotations.
Open Scope Z_scope.

(** what is asked of isl_basic_map_drop_redundant_divs, of
    isl_basic_map_is_empty and of qsort, which are not modelled *)
Definition keeps_points (drd : bmap -> res bmap) : Prop := forall b b', proper b -> drd b = Ok b' -> same b b'.
Definition finds_empty (is_empty : bmap -> bool) : Prop :=
  forall b q, proper b -> is_empty b = true -> length q = (1 + nvar b)%nat -> hd 0 q = 1 -> ~ points b q.
Definition permutes (qsort : list bmap -> list bmap) : Prop := forall l, Permutation l (qsort l).

(** C27: the intersection of basic maps *)
Theorem C27_basic_intersect hash no_redundant tab fuel b1 b2 b np ni no : sound_tab tab -> okb np ni no b1 -> okb np ni no b2 -> intersect hash no_redundant tab fuel b1 b2 = Ok b ->
  okb np ni no b /\ forall P I O, length P = np -> length I = ni -> length O = no -> (relates b P I O <-> relates b1 P I O /\ relates b2 P I O).
Proof. intros T. exact (intersect_ok (fun _ => true) hash no_redundant tab fuel T b1 b2 b np ni no). Qed.

(** C27: ... with conditions on the parameters, unless these are marked empty;
    see C27_basic_intersect_params_refuted for the case that is missing *)
Theorem C27_basic_intersect_params_partial hash no_redundant tab fuel b1 b2 b np ni no : sound_tab tab -> okb np ni no b1 -> okb np 0 0 b2 -> b_empty b2 = false -> intersect hash no_redundant tab fuel b1 b2 = Ok b ->
  okb np ni no b /\ forall P I O, length P = np -> length I = ni -> length O = no -> (relates b P I O <-> relates b1 P I O /\ relates b2 P [] []).
Proof. intros T. exact (intersect_params_ok (fun _ => true) hash no_redundant tab fuel T b1 b2 b np ni no). Qed.

(** C27: the restriction of the domain and of the range of a basic map *)
Theorem C27_basic_intersect_domain sid hash no_redundant tab fuel b s b' np ni no : sound_tab tab -> okb np ni no b -> okb np 0 ni s -> intersect_domain sid hash no_redundant tab fuel b s = Ok b' ->
  okb np ni no b' /\ forall P I O, length P = np -> length I = ni -> length O = no -> (relates b' P I O <-> relates b P I O /\ relates s P [] I).
Proof. intros T. exact (intersect_domain_ok sid hash no_redundant tab fuel T b s b' np ni no). Qed.

Theorem C27_basic_intersect_range hash no_redundant tab fuel b s b' np ni no : sound_tab tab -> okb np ni no b -> okb np 0 no s -> intersect_range hash no_redundant tab fuel b s = Ok b' ->
  okb np ni no b' /\ forall P I O, length P = np -> length I = ni -> length O = no -> (relates b' P I O <-> relates b P I O /\ relates s P [] O).
Proof. intros T. exact (intersect_range_ok (fun _ => true) hash no_redundant tab fuel T b s b' np ni no). Qed.

(** C27: the inverse of a basic map *)
Theorem C27_basic_reverse sid b b' np ni no : okb np ni no b -> reverse sid b = Ok b' ->
  okb np no ni b' /\ forall P I O, length P = np -> length I = ni -> length O = no -> (relates b' P O I <-> relates b P I O).
Proof. exact (reverse_ok sid b b' np ni no). Qed.

(** C27: the opposite of the output *)
Theorem C27_basic_neg b b' np ni no : okb np ni no b -> neg b = Ok b' ->
  okb np ni no b' /\ forall P I O, length P = np -> length I = ni -> length O = no -> (relates b' P I O <-> relates b P I (map Z.opp O)).
Proof. exact (neg_ok b b' np ni no). Qed.

(** C27: the composition of basic maps *)
Theorem C27_basic_apply_range hash no_redundant tab fuel drd b1 b2 b np n k m : sound_tab tab -> keeps_points drd -> okb np n k b1 -> okb np k m b2 -> apply_range hash no_redundant tab fuel drd b1 b2 = Ok b ->
  okb np n m b /\ forall P I O, length P = np -> length I = n -> length O = m -> (relates b P I O <-> exists M, length M = k /\ relates b1 P I M /\ relates b2 P M O).
Proof. intros T D. exact (apply_range_ok hash no_redundant tab fuel drd T D b1 b2 b np n k m). Qed.

Theorem C27_basic_apply_domain sid hash no_redundant tab fuel drd b1 b2 b np n k m : sound_tab tab -> keeps_points drd -> okb np k m b1 -> okb np k n b2 -> apply_domain sid hash no_redundant tab fuel drd b1 b2 = Ok b ->
  okb np n m b /\ forall P I O, length P = np -> length I = n -> length O = m -> (relates b P I O <-> exists M, length M = k /\ relates b2 P M I /\ relates b1 P M O).
Proof. intros T D. exact (apply_domain_ok sid hash no_redundant tab fuel drd T D b1 b2 b np n k m). Qed.

(** C27: products of basic maps *)
Theorem C27_basic_product hash no_redundant tab fuel b1 b2 b np n1 m1 n2 m2 : sound_tab tab -> okb np n1 m1 b1 -> okb np n2 m2 b2 -> product hash no_redundant tab fuel b1 b2 = Ok b ->
  okb np (n1 + n2) (m1 + m2) b /\ forall P I1 I2 O1 O2, length P = np -> length I1 = n1 -> length I2 = n2 -> length O1 = m1 -> length O2 = m2 ->
    (relates b P (I1 ++ I2) (O1 ++ O2) <-> relates b1 P I1 O1 /\ relates b2 P I2 O2).
Proof. intros T. exact (product_ok hash no_redundant tab fuel T b1 b2 b np n1 m1 n2 m2). Qed.

Theorem C27_basic_domain_product hash no_redundant tab fuel b1 b2 b np n1 n2 m : sound_tab tab -> okb np n1 m b1 -> okb np n2 m b2 -> domain_product hash no_redundant tab fuel b1 b2 = Ok b ->
  okb np (n1 + n2) m b /\ forall P I1 I2 O, length P = np -> length I1 = n1 -> length I2 = n2 -> length O = m -> (relates b P (I1 ++ I2) O <-> relates b1 P I1 O /\ relates b2 P I2 O).
Proof. intros T. exact (domain_product_ok hash no_redundant tab fuel T b1 b2 b np n1 n2 m). Qed.

Theorem C27_basic_range_product hash no_redundant tab fuel b1 b2 b np n m1 m2 : sound_tab tab -> okb np n m1 b1 -> okb np n m2 b2 -> range_product hash no_redundant tab fuel b1 b2 = Ok b ->
  okb np n (m1 + m2) b /\ forall P I O1 O2, length P = np -> length I = n -> length O1 = m1 -> length O2 = m2 -> (relates b P I (O1 ++ O2) <-> relates b1 P I O1 /\ relates b2 P I O2).
Proof. intros T. exact (range_product_ok hash no_redundant tab fuel T b1 b2 b np n m1 m2). Qed.

(** C27: the sum of the outputs *)
Theorem C27_basic_sum hash no_redundant tab fuel b1 b2 b np n m : sound_tab tab -> okb np n m b1 -> okb np n m b2 -> sum hash no_redundant tab fuel b1 b2 = Ok b ->
  okb np n m b /\ forall P I O, length P = np -> length I = n -> length O = m ->
    (relates b P I O <-> exists O1 O2, length O1 = m /\ length O2 = m /\ relates b1 P I O1 /\ relates b2 P I O2 /\ forall i, nth i O 0 = nth i O1 0 + nth i O2 0).
Proof. intros T. exact (sum_ok hash no_redundant tab fuel T b1 b2 b np n m). Qed.

(** C27: the projection of a basic map, for any range of dimensions of one kind *)
Theorem C27_basic_project_out hash no_redundant tab fuel drd b t first n b' : sound_tab tab -> keeps_points drd -> proper b -> project_out hash no_redundant tab fuel drd b t first n = Ok b' ->
  (first + n <= dim_count b t \/ n = 0)%nat /\ okb (less t DParam n (b_param b)) (less t DIn n (b_in b)) (less t DOut n (b_out b)) b' /\
  forall A C, length A = (dim_offset b t + first)%nat -> (length A + n + length C)%nat = nvar b ->
    (points b' (1 :: A ++ C) <-> exists X, length X = n /\ points b (1 :: A ++ X ++ C)).
Proof. intros T D. exact (project_out_ok (fun _ => true) hash no_redundant tab fuel drd T D b t first n b'). Qed.

(** C27: the domain and the range of a basic map *)
Theorem C27_basic_domain sid hash no_redundant tab fuel drd b d np ni no : sound_tab tab -> keeps_points drd -> okb np ni no b -> domain sid hash no_redundant tab fuel drd b = Ok d ->
  okb np 0 ni d /\ forall P I, length P = np -> length I = ni -> (relates d P [] I <-> exists O, length O = no /\ relates b P I O).
Proof. intros T D. exact (domain_ok sid hash no_redundant tab fuel drd T D b d np ni no). Qed.

Theorem C27_basic_range sid hash no_redundant tab fuel drd b d np ni no : sound_tab tab -> keeps_points drd -> okb np ni no b -> range sid hash no_redundant tab fuel drd b = Ok d ->
  okb np 0 no d /\ forall P O, length P = np -> length O = no -> (relates d P [] O <-> exists I, length I = ni /\ relates b P I O).
Proof. intros T D. exact (range_ok sid hash no_redundant tab fuel drd T D b d np ni no). Qed.

(** C27: the union of maps *)
Theorem C27_map_union no_redundant tab qsort l1 l2 l np ni no : sound_tab tab -> permutes qsort -> okm np ni no l1 -> okm np ni no l2 -> map_union no_redundant tab qsort l1 l2 = Ok l ->
  okm np ni no l /\ forall P I O, length P = np -> length I = ni -> length O = no -> (relates_any l P I O <-> relates_any l1 P I O \/ relates_any l2 P I O).
Proof. intros T Q. exact (map_union_ok (fun _ => true) (fun _ => O) no_redundant tab qsort T Q np ni no l1 l2 l). Qed.

(** C27: the intersection of maps *)
Theorem C27_map_intersect hash no_redundant tab fuel is_empty qsort l1 l2 l np ni no : sound_tab tab -> finds_empty is_empty -> permutes qsort -> okm np ni no l1 -> okm np ni no l2 -> map_intersect hash no_redundant tab fuel is_empty qsort l1 l2 = Ok l ->
  okm np ni no l /\ forall P I O, length P = np -> length I = ni -> length O = no -> (relates_any l P I O <-> relates_any l1 P I O /\ relates_any l2 P I O).
Proof. intros T E Q. exact (map_intersect_ok (fun _ => true) hash no_redundant tab fuel is_empty qsort T E Q np ni no l1 l2 l). Qed.

(** C27: restrictions of the domain and the range of maps *)
Theorem C27_map_intersect_domain sid hash no_redundant tab fuel l s l' np ni no : sound_tab tab -> okm np ni no l -> okm np 0 ni s -> map_intersect_domain sid hash no_redundant tab fuel l s = Ok l' ->
  okm np ni no l' /\ forall P I O, length P = np -> length I = ni -> length O = no -> (relates_any l' P I O <-> relates_any l P I O /\ relates_any s P [] I).
Proof. intros T. exact (map_intersect_domain_ok sid hash no_redundant tab fuel T np ni no l s l'). Qed.

Theorem C27_map_intersect_range hash no_redundant tab fuel l s l' np ni no : sound_tab tab -> okm np ni no l -> okm np 0 no s -> map_intersect_range hash no_redundant tab fuel l s = Ok l' ->
  okm np ni no l' /\ forall P I O, length P = np -> length I = ni -> length O = no -> (relates_any l' P I O <-> relates_any l P I O /\ relates_any s P [] O).
Proof. intros T. exact (map_intersect_range_ok (fun _ => true) hash no_redundant tab fuel T np ni no l s l'). Qed.

(** C27: the inverse and the opposite of a map *)
Theorem C27_map_reverse sid l l' np ni no : okm np ni no l -> map_reverse sid l = Ok l' ->
  okm np no ni l' /\ forall P I O, length P = np -> length I = ni -> length O = no -> (relates_any l' P O I <-> relates_any l P I O).
Proof. exact (map_reverse_ok sid np ni no l l'). Qed.

Theorem C27_map_neg l l' np ni no : okm np ni no l -> map_neg l = Ok l' ->
  okm np ni no l' /\ forall P I O, length P = np -> length I = ni -> length O = no -> (relates_any l' P I O <-> relates_any l P I (map Z.opp O)).
Proof. exact (map_neg_ok np ni no l l'). Qed.

(** C27: the composition of maps *)
Theorem C27_map_apply_range hash no_redundant tab fuel drd l1 l2 l np n k m : sound_tab tab -> keeps_points drd -> okm np n k l1 -> okm np k m l2 -> map_apply_range hash no_redundant tab fuel drd l1 l2 = Ok l ->
  okm np n m l /\ forall P I O, length P = np -> length I = n -> length O = m -> (relates_any l P I O <-> exists M, length M = k /\ relates_any l1 P I M /\ relates_any l2 P M O).
Proof. intros T D. exact (map_apply_range_ok hash no_redundant tab fuel drd T D np n k m l1 l2 l). Qed.

Theorem C27_map_apply_domain sid hash no_redundant tab fuel drd l1 l2 l np n k m : sound_tab tab -> keeps_points drd -> okm np k m l1 -> okm np k n l2 -> map_apply_domain sid hash no_redundant tab fuel drd l1 l2 = Ok l ->
  okm np n m l /\ forall P I O, length P = np -> length I = n -> length O = m -> (relates_any l P I O <-> exists M, length M = k /\ relates_any l2 P M I /\ relates_any l1 P M O).
Proof. intros T D. exact (map_apply_domain_ok sid hash no_redundant tab fuel drd T D np n k m l1 l2 l). Qed.

(** C27: products of maps *)
Theorem C27_map_product hash no_redundant tab fuel is_empty l1 l2 l np n1 m1 n2 m2 : sound_tab tab -> finds_empty is_empty -> okm np n1 m1 l1 -> okm np n2 m2 l2 -> map_full_product hash no_redundant tab fuel is_empty l1 l2 = Ok l ->
  okm np (n1 + n2) (m1 + m2) l /\ forall P I1 I2 O1 O2, length P = np -> length I1 = n1 -> length I2 = n2 -> length O1 = m1 -> length O2 = m2 ->
    (relates_any l P (I1 ++ I2) (O1 ++ O2) <-> relates_any l1 P I1 O1 /\ relates_any l2 P I2 O2).
Proof. intros T E. exact (map_full_product_ok (fun _ => true) hash no_redundant tab fuel is_empty T E np n1 m1 n2 m2 l1 l2 l). Qed.

Theorem C27_map_domain_product hash no_redundant tab fuel is_empty qsort l1 l2 l np n1 n2 m : sound_tab tab -> finds_empty is_empty -> permutes qsort -> okm np n1 m l1 -> okm np n2 m l2 -> map_domain_product hash no_redundant tab fuel is_empty qsort l1 l2 = Ok l ->
  okm np (n1 + n2) m l /\ forall P I1 I2 O, length P = np -> length I1 = n1 -> length I2 = n2 -> length O = m -> (relates_any l P (I1 ++ I2) O <-> relates_any l1 P I1 O /\ relates_any l2 P I2 O).
Proof. intros T E Q. exact (map_domain_product_ok (fun _ => true) hash no_redundant tab fuel is_empty qsort T E Q np n1 n2 m l1 l2 l). Qed.

Theorem C27_map_range_product hash no_redundant tab fuel is_empty qsort l1 l2 l np n m1 m2 : sound_tab tab -> finds_empty is_empty -> permutes qsort -> okm np n m1 l1 -> okm np n m2 l2 -> map_range_product hash no_redundant tab fuel is_empty qsort l1 l2 = Ok l ->
  okm np n (m1 + m2) l /\ forall P I O1 O2, length P = np -> length I = n -> length O1 = m1 -> length O2 = m2 -> (relates_any l P I (O1 ++ O2) <-> relates_any l1 P I O1 /\ relates_any l2 P I O2).
Proof. intros T E Q. exact (map_range_product_ok (fun _ => true) hash no_redundant tab fuel is_empty qsort T E Q np n m1 m2 l1 l2 l). Qed.

Theorem C27_map_sum hash no_redundant tab fuel is_empty l1 l2 l np n m : sound_tab tab -> finds_empty is_empty -> okm np n m l1 -> okm np n m l2 -> map_sum hash no_redundant tab fuel is_empty l1 l2 = Ok l ->
  okm np n m l /\ forall P I O, length P = np -> length I = n -> length O = m ->
    (relates_any l P I O <-> exists O1 O2, length O1 = m /\ length O2 = m /\ relates_any l1 P I O1 /\ relates_any l2 P I O2 /\ forall i, nth i O 0 = nth i O1 0 + nth i O2 0).
Proof. intros T E. exact (map_sum_ok (fun _ => true) hash no_redundant tab fuel is_empty T E np n m l1 l2 l). Qed.

(** C27: projections, the domain and the range of maps *)
Theorem C27_map_project_out hash no_redundant tab fuel drd l t first n l' np ni no : sound_tab tab -> keeps_points drd -> okm np ni no l -> map_project_out hash no_redundant tab fuel drd l t first n = Ok l' ->
  okm (less t DParam n np) (less t DIn n ni) (less t DOut n no) l' /\
  forall A C, length A = (match t with DParam => 0 | DIn => np | DOut => np + ni end + first)%nat -> (length A + n + length C)%nat = (np + ni + no)%nat ->
    ((exists b, List.In b l' /\ points b (1 :: A ++ C)) <-> exists X, length X = n /\ exists b, List.In b l /\ points b (1 :: A ++ X ++ C)).
Proof. intros T D. exact (map_project_out_ok (fun _ => true) hash no_redundant tab fuel drd T D np ni no l t first n l'). Qed.

Theorem C27_map_domain sid hash no_redundant tab fuel drd l d np ni no : sound_tab tab -> keeps_points drd -> okm np ni no l -> map_domain sid hash no_redundant tab fuel drd np ni no l = Ok d ->
  okm np 0 ni d /\ forall P I, length P = np -> length I = ni -> (relates_any d P [] I <-> exists O, length O = no /\ relates_any l P I O).
Proof. intros T D. exact (map_domain_ok sid hash no_redundant tab fuel drd T D np ni no l d). Qed.

Theorem C27_map_range sid hash no_redundant tab fuel drd l d np ni no : sound_tab tab -> keeps_points drd -> okm np ni no l -> map_range sid hash no_redundant tab fuel drd np ni no l = Ok d ->
  okm np 0 no d /\ forall P O, length P = np -> length O = no -> (relates_any d P [] O <-> exists I, length I = ni /\ relates_any l P I O).
Proof. intros T D. exact (map_range_ok sid hash no_redundant tab fuel drd T D np ni no l d). Qed.

(** C27: maps that isl_map_plain_is_equal calls equal have the same points *)
Theorem C27_map_plain_equal no_redundant tab qsort l1 l2 np ni no : sound_tab tab -> permutes qsort -> okm np ni no l1 -> okm np ni no l2 -> map_plain_equal no_redundant tab qsort l1 l2 = Ok true ->
  forall P I O, length P = np -> length I = ni -> length O = no -> (relates_any l1 P I O <-> relates_any l2 P I O).
Proof. intros T Q. exact (map_plain_equal_ok (fun _ => true) (fun _ => O) no_redundant tab qsort T Q np ni no l1 l2). Qed.

Theorem C27_map_remove_obvious_duplicates qsort l l' np ni no : permutes qsort -> okm np ni no l -> remove_obvious_duplicates qsort l = Ok l' ->
  okm np ni no l' /\ forall P I O, length P = np -> length I = ni -> length O = no -> (relates_any l' P I O <-> relates_any l P I O).
Proof. intros Q. exact (remove_obvious_duplicates_ok (fun _ => true) (fun _ => O) (fun _ => true) qsort Q np ni no l l'). Qed.

(** ** examples *)
Definition id_hash (r : row) : nat := O.
Definition yes (b : bmap) : bool := true.
Definition no (b : bmap) : bool := false.
Example drd_keeps_points : keeps_points (fun b => Ok b).
Proof. intros b b' P [= <-]. apply same_refl. exact P. Qed.
Example no_finds_empty : finds_empty no.
Proof. intros b q _ H. discriminate H. Qed.
Example id_permutes : permutes (fun l => l).
Proof. intros l. apply Permutation_refl. Qed.
Ltac rows := repeat (apply Forall_cons; [cbn; try reflexivity; lia|]); apply Forall_nil.
Ltac plain := split; [split; [split; [rows|split; rows]|]; split; [exists (fun k => k); intros [|k] [|j]; cbn; intros; lia|]; split; [rows|]; split; [intros v _ _ _ k Hk; cbn in Hk; try lia; left; destruct k; solve [reflexivity | lia]|split; [reflexivity|intros X; discriminate X]]|repeat split].
(** { [x] -> [y] : y = x + 1, 0 <= x <= 10 }, { [x] -> [y] : exists e: x = 2 e, y >= x },
    { [x] : x >= 3 }, [p] -> { : p >= 1 }, { [x] -> [y] : x >= 7 } *)
Definition ex_b1 : bmap := mkb 0 1 1 [[1; 1; -1]] [[0; 1; 0]; [10; -1; 0]] [] false false false.
Definition ex_b2 : bmap := mkb 0 1 1 [[0; 1; 0; -2]] [[0; -1; 1; 0]] [[0; 0; 0; 0; 0]] false false false.
Definition ex_b3 : bmap := mkb 0 0 1 [] [[-3; 1]] [] false false false.
Definition ex_b4 : bmap := mkb 0 1 1 [] [[-7; 1; 0]] [] false false false.
Example ex_b1_ok : okb 0 1 1 ex_b1. Proof. plain. Qed.
Example ex_b2_ok : okb 0 1 1 ex_b2. Proof. plain. Qed.
Example ex_b3_ok : okb 0 0 1 ex_b3. Proof. plain. Qed.
Example ex_b4_ok : okb 0 1 1 ex_b4. Proof. plain. Qed.
Example ex_intersect : intersect id_hash no no_tab 20 ex_b1 ex_b2 = Ok (mkb 0 1 1 [[0; -1; 0; 2]; [-1; -1; 1; 0]] [[0; 1; 0; 0]; [10; -1; 0; 0]] [[2; 0; 1; 0; 0]] false false true).
Proof. vm_compute. reflexivity. Qed.
Example ex_intersect_domain : intersect_domain yes id_hash no no_tab 20 ex_b1 ex_b3 = Ok (mkb 0 1 1 [[-1; -1; 1]] [[-3; 1; 0]; [10; -1; 0]] [] false false false).
Proof. vm_compute. reflexivity. Qed.
Example ex_intersect_range : intersect_range id_hash no no_tab 20 ex_b1 ex_b3 = Ok (mkb 0 1 1 [[-1; -1; 1]] [[-2; 1; 0]; [10; -1; 0]] [] false false false).
Proof. vm_compute. reflexivity. Qed.
Example ex_reverse : reverse yes ex_b2 = Ok (mkb 0 1 1 [[0; 0; -1; 2]] [[0; 1; -1; 0]] [[2; 0; 0; 1; 0]] false false false).
Proof. vm_compute. reflexivity. Qed.
Example ex_neg : neg ex_b2 = Ok (mkb 0 1 1 [[0; -1; 0; 2]] [[0; -1; -1; 0]] [[2; 0; 1; 0; 0]] false false false).
Proof. vm_compute. reflexivity. Qed.
Example ex_apply_range : apply_range id_hash no no_tab 20 (fun b => Ok b) ex_b1 ex_b2 = Ok (mkb 0 1 1 [[-1; -1; 0; 2]] [[0; 1; 0; 0]; [10; -1; 0; 0]; [-1; -1; 1; 0]] [[2; 1; 1; 0; 0]] false false true).
Proof. vm_compute. reflexivity. Qed.
Example ex_apply_domain : apply_domain yes id_hash no no_tab 20 (fun b => Ok b) ex_b1 ex_b2 = Ok (mkb 0 1 1 [[-1; 0; -1; 2]] [[-1; 0; 1; 0]; [11; 0; -1; 0]; [1; 1; -1; 0]] [[2; 1; 0; 1; 0]] false false true).
Proof. vm_compute. reflexivity. Qed.
Example ex_product : product id_hash no no_tab 20 ex_b1 ex_b2 = Ok (mkb 0 2 2 [[0; 0; -1; 0; 0; 2]; [-1; -1; 0; 1; 0; 0]] [[0; 1; 0; 0; 0; 0]; [10; -1; 0; 0; 0; 0]; [0; 0; -1; 0; 1; 0]] [[2; 0; 0; 1; 0; 0; 0]] false false true).
Proof. vm_compute. reflexivity. Qed.
Example ex_domain_product : domain_product id_hash no no_tab 20 ex_b1 ex_b2 = Ok (mkb 0 2 1 [[0; 0; -1; 0; 2]; [-1; -1; 0; 1; 0]] [[0; 1; 0; 0; 0]; [10; -1; 0; 0; 0]; [1; 1; -1; 0; 0]] [[2; 0; 0; 1; 0; 0]] false false true).
Proof. vm_compute. reflexivity. Qed.
Example ex_range_product : range_product id_hash no no_tab 20 ex_b1 ex_b2 = Ok (mkb 0 1 2 [[0; -1; 0; 0; 2]; [-1; -1; 1; 0; 0]] [[0; 1; 0; 0; 0]; [10; -1; 0; 0; 0]; [0; -1; 0; 1; 0]] [[2; 0; 1; 0; 0; 0]] false false true).
Proof. vm_compute. reflexivity. Qed.
Example ex_sum : sum id_hash no no_tab 20 ex_b1 ex_b2 = Ok (mkb 0 1 1 [[0; -1; 0; 2]] [[0; 1; 0; 0]; [10; -1; 0; 0]; [-1; -2; 1; 0]] [[2; 0; 1; 0; 0]] false false true).
Proof. vm_compute. reflexivity. Qed.
Example ex_project_out : project_out id_hash no no_tab 20 (fun b => Ok b) ex_b2 DIn 0 1 = Ok (mkb 0 0 1 [] [[0; 1; -2]] [[0; 0; 0; 0]] false false false).
Proof. vm_compute. reflexivity. Qed.
Example ex_domain : domain yes id_hash no no_tab 20 (fun b => Ok b) ex_b1 = Ok (mkb 0 0 1 [] [[0; 1]; [10; -1]] [] false false false).
Proof. vm_compute. reflexivity. Qed.
Example ex_range : range yes id_hash no no_tab 20 (fun b => Ok b) ex_b1 = Ok (mkb 0 0 1 [] [[-1; 1]; [11; -1]] [] false false false).
Proof. vm_compute. reflexivity. Qed.
Example ex_map_union : map_union no no_tab (fun l => l) [ex_b1; ex_b2] [ex_b4] = Ok [(mkb 0 1 1 [[1; 1; -1]] [[0; 1; 0]; [10; -1; 0]] [] false false false); (mkb 0 1 1 [[0; 1; 0; -2]] [[0; -1; 1; 0]] [[0; 0; 0; 0; 0]] false false false); (mkb 0 1 1 [] [[-7; 1; 0]] [] false false false)].
Proof. vm_compute. reflexivity. Qed.
Example ex_map_intersect : map_intersect id_hash no no_tab 20 no (fun l=> l) [ex_b1; ex_b2] [ex_b4] = Ok [(mkb 0 1 1 [[-1; -1; 1]] [[-7; 1; 0]; [10; -1; 0]] [] false false false); (mkb 0 1 1 [[0; -1; 0; 2]] [[0; -1; 1; 0]; [-7; 1; 0; 0]] [[2; 0; 1; 0; 0]] false false true)].
Proof. vm_compute. reflexivity. Qed.
Example ex_map_intersect_one : map_intersect id_hash no no_tab 20 no (fun l=> l) [ex_b1] [ex_b4] = Ok [(mkb 0 1 1 [[-1; -1; 1]] [[-7; 1; 0]; [10; -1; 0]] [] false false false)].
Proof. vm_compute. reflexivity. Qed.
Example ex_map_intersect_domain : map_intersect_domain yes id_hash no no_tab 20 [ex_b1; ex_b2] [ex_b3] = Ok [(mkb 0 1 1 [[-1; -1; 1]] [[-3; 1; 0]; [10; -1; 0]] [] false false false); (mkb 0 1 1 [[0; -1; 0; 2]] [[0; -1; 1; 0]; [-3; 1; 0; 0]] [[2; 0; 1; 0; 0]] false false true)].
Proof. vm_compute. reflexivity. Qed.
Example ex_map_intersect_range : map_intersect_range id_hash no no_tab 20 [ex_b1; ex_b2] [ex_b3] = Ok [(mkb 0 1 1 [[-1; -1; 1]] [[-2; 1; 0]; [10; -1; 0]] [] false false false); (mkb 0 1 1 [[0; -1; 0; 2]] [[0; -1; 1; 0]; [-3; 0; 1; 0]] [[2; 0; 1; 0; 0]] false false true)].
Proof. vm_compute. reflexivity. Qed.
Example ex_map_apply_range : map_apply_range id_hash no no_tab 20 (fun b => Ok b) [ex_b1;ex_b2] [ex_b2] = Ok [(mkb 0 1 1 [[-1; -1; 0; 2]] [[0; 1; 0; 0]; [10; -1; 0; 0]; [-1; -1; 1; 0]] [[2; 1; 1; 0; 0]] false false true); (mkb 0 1 1 [[0; -1; 0; 0; 2]] [[0; -1; 0; 2; 0]; [0; 0; 1; -2; 0]] [[0; 0; 0; 0; 0; 0]; [2; 0; 1; 0; 0; 0]] false false true)].
Proof. vm_compute. reflexivity. Qed.
Example ex_map_apply_domain : map_apply_domain yes id_hash no no_tab 20 (fun b => Ok b) [ex_b1;ex_b4] [ex_b4] = Ok [(mkb 0 1 1 [] [[-8; 0; 1]; [11; 0; -1]] [] false false false); (mkb 0 1 1 [] [] [] false false false)].
Proof. vm_compute. reflexivity. Qed.
Example ex_map_full_product : map_full_product id_hash no no_tab 20 no [ex_b1] [ex_b4;ex_b1] = Ok [(mkb 0 2 2 [[-1; -1; 0; 1; 0]] [[0; 1; 0; 0; 0]; [10; -1; 0; 0; 0]; [-7; 0; 1; 0; 0]] [] false false false); (mkb 0 2 2 [[-1; 0; -1; 0; 1]; [-1; -1; 0; 1; 0]] [[0; 1; 0; 0; 0]; [10; -1; 0; 0; 0]; [ 0; 0; 1; 0; 0]; [10; 0; -1; 0; 0]] [] false false false)].
Proof. vm_compute. reflexivity. Qed.
Example ex_map_domain_product : map_domain_product id_hash no no_tab 20 no (fun l=> l) [ex_b1] [ex_b4;ex_b4] = Ok [(mkb 0 2 1 [[-1; -1; 0; 1]] [[0; 1; 0; 0]; [10; -1; 0; 0]; [-7; 0; 1; 0]] [] false false false)].
Proof. vm_compute. reflexivity. Qed.
Example ex_map_range_product : map_range_product id_hash no no_tab 20 no (fun l=> l) [ex_b1] [ex_b4;ex_b4] = Ok [(mkb 0 1 2 [[-1; -1; 1; 0]] [[-7; 1; 0; 0]; [10; -1; 0; 0]] [] false false false)].
Proof. vm_compute. reflexivity. Qed.
Example ex_map_sum : map_sum id_hash no no_tab 20 no [ex_b1] [ex_b4;ex_b1] = Ok [(mkb 0 1 1 [] [[-7; 1; 0]; [10; -1; 0]] [] false false false); (mkb 0 1 1 [[-2; -2; 1]] [[0; 1; 0]; [10; -1; 0]] [] false false false)].
Proof. vm_compute. reflexivity. Qed.
Example ex_map_project_out : map_project_out id_hash no no_tab 20 (fun b => Ok b) [ex_b1; ex_b2] DIn 0 1 = Ok [(mkb 0 0 1 [] [[-1; 1]; [11; -1]] [] false false false); (mkb 0 0 1 [] [[0; 1; -2]] [[0; 0; 0; 0]] false false false)].
Proof. vm_compute. reflexivity. Qed.
Example ex_map_domain : map_domain yes id_hash no no_tab 20 (fun b => Ok b) 0 1 1 [ex_b1; ex_b2] = Ok [(mkb 0 0 1 [] [[0; 1]; [10; -1]] [] false false false); (mkb 0 0 1 [[0; -1; 2]] [] [[2; 0; 1; 0]] false false true)].
Proof. vm_compute. reflexivity. Qed.
Example ex_map_range : map_range yes id_hash no no_tab 20 (fun b => Ok b) 0 1 1 [ex_b1; ex_b2] = Ok [(mkb 0 0 1 [] [[-1; 1]; [11; -1]] [] false false false); (mkb 0 0 1 [] [[0; 1; -2]] [[0; 0; 0; 0]] false false false)].
Proof. vm_compute. reflexivity. Qed.
Example ex_map_plain_equal : map_plain_equal no no_tab (fun l => l) [ex_b1; ex_b1; ex_b2] [ex_b1;ex_b2] = Ok true.
Proof. vm_compute. reflexivity. Qed.
Example ex_remove_obvious_duplicates : remove_obvious_duplicates (fun l => l) [ex_b1; ex_b1; ex_b2] = Ok [(mkb 0 1 1 [[1; 1; -1]] [[0; 1; 0]; [10; -1; 0]] [] false false false); (mkb 0 1 1 [[0; 1; 0; -2]] [[0; -1; 1; 0]] [[0; 0; 0; 0; 0]] false false false)].
Proof. vm_compute. reflexivity. Qed.
(** { [] : p >= 1 } with a parameter p, marked empty or not *)
Definition ex_b5 : bmap := mkb 1 0 1 [] [[0; 1; 0]] [] false false false.
Definition ex_b6 : bmap := mkb 1 0 0 [] [[-1; 1]] [] false false false.
Definition ex_b7 : bmap := mkb 1 0 0 [[1; 0]] [] [] false true false.
Example ex_b5_ok : okb 1 0 1 ex_b5. Proof. plain. Qed.
Example ex_b6_ok : okb 1 0 0 ex_b6. Proof. plain. Qed.
Example ex_intersect_params : intersect id_hash no no_tab 20 ex_b5 ex_b6 = Ok (mkb 1 0 1 [] [[-1; 1; 0]] [] false false false).
Proof. vm_compute. reflexivity. Qed.
(** the conditions on the parameters are returned themselves, with the wrong
    space, when they are marked empty *)
Theorem C27_basic_intersect_params_refuted : exists hash no_redundant tab fuel b1 b2 b, sound_tab tab /\ okb 1 0 1 b1 /\ okb 1 0 0 b2 /\
  intersect hash no_redundant tab fuel b1 b2 = Ok b /\ ~ sized 1 0 1 b.
Proof.
  exists id_hash, no, no_tab, 20%nat, ex_b5, ex_b7, ex_b7. split; [exact no_tab_sound|]. split; [exact ex_b5_ok|]. split; [|split; [vm_compute; reflexivity|intros (_ & _ & H); discriminate H]].
  split; [|repeat split]. split; [split; [rows|split; rows]|]. split; [exists (fun k => k); intros k j; cbn; intros; lia|]. split; [rows|]. split; [intros v _ _ _ k Hk; cbn in Hk; lia|]. split; [reflexivity|]. intros _ v Lv Hv [S1 _]. inversion S1 as [|r t E]. subst. unfold zero_on in E. destruct v as [|x [|y [|]]]; try discriminate Lv. cbn [dot] in E. cbn in Hv. lia.
Qed.

Print Assumptions C27_basic_intersect.
Print Assumptions C27_basic_intersect_params_partial.
Print Assumptions C27_basic_intersect_domain.
Print Assumptions C27_basic_intersect_range.
Print Assumptions C27_basic_reverse.
Print Assumptions C27_basic_neg.
Print Assumptions C27_basic_apply_range.
Print Assumptions C27_basic_apply_domain.
Print Assumptions C27_basic_product.
Print Assumptions C27_basic_domain_product.
Print Assumptions C27_basic_range_product.
Print Assumptions C27_basic_sum.
Print Assumptions C27_basic_project_out.
Print Assumptions C27_basic_domain.
Print Assumptions C27_basic_range.
Print Assumptions C27_map_union.
Print Assumptions C27_map_intersect.
Print Assumptions C27_map_intersect_domain.
Print Assumptions C27_map_intersect_range.
Print Assumptions C27_map_reverse.
Print Assumptions C27_map_neg.
Print Assumptions C27_map_apply_range.
Print Assumptions C27_map_apply_domain.
Print Assumptions C27_map_product.
Print Assumptions C27_map_domain_product.
Print Assumptions C27_map_range_product.
Print Assumptions C27_map_sum.
Print Assumptions C27_map_project_out.
Print Assumptions C27_map_domain.
Print Assumptions C27_map_range.
Print Assumptions C27_map_plain_equal.
Print Assumptions C27_map_remove_obvious_duplicates.
Print Assumptions C27_basic_intersect_params_refuted.
