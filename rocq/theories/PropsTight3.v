(** Theorems about the insertion and addition of dimensions in spaces, the
    comparison of identifiers and the ranges of dimension maps (C38, C39). *)
From Coq Require Import ZArith List Bool Arith Lia.
From Verif Require Import BMapModel SpaceModel SpaceSpec SpaceBase SpaceOps SpaceAlign ReorderModel SpaceDims.
Import ListNotations.
Open Scope nat_scope.

(** isl_space_insert_dims on a tuple inserts unnamed dimensions at the given
    position and forgets the name and the structure of that tuple only *)
Theorem C39_insert_dims s t pos k : t <> Param -> wf s -> pos <= dim s t ->
  exists s', insert_dims s t pos k = Some s' /\ wf s' /\ dl s' Param = dl s Param /\
    tup s' t = T None (firstn pos (dl s t) ++ repeat None k ++ skipn pos (dl s t)) None /\
    (forall t', t' <> t -> tup s' t' = tup s t').
Proof. exact (insert_tuple_ok s t pos k). Qed.
(** on the parameters it keeps both tuples, with their wrapped relations *)
Theorem C39_insert_params s pos k : wf s -> pos <= nparam s ->
  exists s', insert_dims s Param pos k = Some s' /\ wf s' /\
    dl s' Param = firstn pos (dl s Param) ++ repeat None k ++ skipn pos (dl s Param) /\
    tup_in s' = tup_in s /\ tup_out s' = tup_out s.
Proof. exact (insert_params_ok pos k s). Qed.
Theorem C39_insert_range s t pos k : k <> 0 -> dim s t < pos -> insert_dims s t pos k = None.
Proof. exact (insert_range s t pos k). Qed.
(** isl_space_add_dims on a tuple *)
Theorem C39_add_dims s t k : t <> Param -> wf s ->
  exists s', add_dims s t k = Some s' /\ wf s' /\ dl s' Param = dl s Param /\
    tup s' t = T None (dl s t ++ repeat None k) None /\ (forall t', t' <> t -> tup s' t' = tup s t').
Proof. exact (add_tuple_ok s t k). Qed.
Theorem C39_has_equal_ids s1 s2 : has_equal_ids s1 s2 = true <->
  same (tup_in s1) (tup_in s2) /\ same (tup_out s1) (tup_out s2) /\ dl s1 In = dl s2 In /\ dl s1 Out = dl s2 Out.
Proof. exact (equal_ids_ok s1 s2). Qed.
(** isl_dim_map_range sets exactly the positions of the range *)
Theorem C38_dim_map_range m dp ds sp ss n sg : ds <> 0 -> (n <> 0 -> dp + ds * (n - 1) < length m - 1) ->
  (forall j, j < n -> nth (1 + dp + ds * j) (dm_range m dp ds sp ss n 0 sg) (0, 0%Z) = (1 + sp + ss * j, sg)) /\
  (forall q, (forall j, j < n -> q <> 1 + dp + ds * j) -> nth q (dm_range m dp ds sp ss n 0 sg) (0, 0%Z) = nth q m (0, 0%Z)).
Proof. exact (dm_range_from0 m dp ds sp ss n sg). Qed.

(** a map space with a wrapped domain *)
Example C39_dims_ex :
  let n := mksp 1 1 1 None (Some 7%Z) None None (Some [Some 3%Z]) in
  let s := mksp 1 2 1 (Some 5%Z) (Some 6%Z) (Some n) None (Some [Some 3%Z; Some 4%Z]) in
  wf s /\ (exists s', insert_dims s In 1 2 = Some s' /\ dl s' In = [Some 4%Z; None; None; None] /\ tup_out s' = tup_out s) /\
  (exists s', insert_dims s Param 0 1 = Some s' /\ dl s' Param = [None; Some 3%Z] /\ tup_in s' = tup_in s) /\
  insert_dims s Out 2 1 = None /\ (exists s', add_dims s Out 2 = Some s' /\ n_out s' = 3) /\ has_equal_ids s s = true /\
  dm_range (dm_alloc 4) 1 2 0 1 2 0 (-1)%Z = [(0, 1%Z); (0, 0%Z); (1, (-1)%Z); (0, 0%Z); (2, (-1)%Z)].
Proof. cbv zeta. split; [cbn; repeat split; auto; lia|]. repeat split; try (eexists; repeat split; reflexivity); reflexivity. Qed.

Print Assumptions C39_insert_dims.
Print Assumptions C39_insert_params.
Print Assumptions C39_insert_range.
Print Assumptions C39_add_dims.
Print Assumptions C39_has_equal_ids.
Print Assumptions C38_dim_map_range.
