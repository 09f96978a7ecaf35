(** C38: aligning parameters. *)
From Coq Require Import ZArith List Bool Arith Lia.
From Verif Require Import SeqSpec MatModel BMapModel BMapSpec BMapSem SpaceModel SpaceSpec SpaceBase ReorderModel ReorderSpec ReorderBase ReorderProofs.
Import ListNotations.
Open Scope nat_scope.

(** the parameters of the aligned space are those of the model, followed by the
    other parameters of the original space; the tuples do not change *)
Theorem C38_align_params s1 s2 : wf s1 -> wf s2 -> named (dl s1 Param) -> named (dl s2 Param) ->
  exists s', align_params s1 s2 = Some s' /\ spc s' (V (aligned (dl s1 Param) (dl s2 Param)) (tup_in s1) (tup_out s1)).
Proof. exact (align_params_ok s1 s2). Qed.
Theorem C38_unnamed s1 s2 : wf s1 -> wf s2 -> ~ (named (dl s1 Param) /\ named (dl s2 Param)) -> align_params s1 s2 = None.
Proof. exact (align_params_unnamed s1 s2). Qed.
Theorem C38_has_named s : wf s -> has_named_params s = true <-> named (dl s Param).
Proof. exact (has_named_iff s). Qed.
(** the reordering maps each parameter to a parameter with the same name and
    shifts the other dimensions; the positions are those of the target space *)
Theorem C38_alignment s a : wf s -> named (dl s Param) ->
  exists r, alignment s a = Some r /\ spc (r_space r) (V (aligned (dl s Param) (dl a Param)) (tup_in s) (tup_out s)) /\
    r_dst r = dim_all (r_space r) /\ length (r_pos r) = dim_all s /\
    (forall i, i < nparam s -> nth i (r_pos r) 0 < nparam (r_space r) /\ nth (nth i (r_pos r) 0) (aligned (dl s Param) (dl a Param)) None = nth i (dl s Param) None) /\
    (forall i, i < n_in s + n_out s -> nth (nparam s + i) (r_pos r) 0 = nparam (r_space r) + i).
Proof. exact (alignment_ok s a). Qed.
(** no two dimensions are mapped to the same position *)
Theorem C38_alignment_injective s a r : wf s -> named (dl s Param) -> NoDup (dl s Param) -> alignment s a = Some r ->
  NoDup (r_pos r) /\ Forall (fun p => p < dim_all (r_space r)) (r_pos r).
Proof.
  intros W N D E. destruct (alignment_of_ok s a W N) as (r' & E' & H). rewrite E in E'. injection E' as <-. exact (ao_good s a r H D).
Qed.
Theorem C38_alignment_unnamed s a : wf s -> ~ named (dl s Param) -> alignment s a = None.
Proof. exact (alignment_unnamed s a). Qed.
Theorem C38_extend r k : r_src (extend r k) = r_src r + k /\ r_dst (extend r k) = r_dst r + k /\ r_space (extend r k) = r_space r /\
  (forall i, i < r_src r -> nth i (r_pos (extend r k)) 0 = nth i (r_pos r) 0) /\ (forall i, i < k -> nth (r_src r + i) (r_pos (extend r k)) 0 = r_dst r + i).
Proof. exact (extend_nth r k). Qed.
Theorem C38_extend_space r sp : wf sp -> r_src r <= dim_all sp ->
  exists r', extend_space r sp = Some r' /\ spc (r_space r') (V (dl (r_space r) Param) (tup_in sp) (tup_out sp)) /\ r_src r' = dim_all sp /\ r_dst r' = r_dst r + (dim_all sp - r_src r) /\
  (forall i, i < r_src r -> nth i (r_pos r') 0 = nth i (r_pos r) 0) /\ (forall i, i < dim_all sp - r_src r -> nth (r_src r + i) (r_pos r') 0 = r_dst r + i).
Proof. exact (extend_space_ok r sp). Qed.
(** the aligned basic map contains the same points, for values of the parameters
    that agree on the names *)
Theorem C38_bmap s b m : wf s -> wf m -> bm_ok s b -> named (dl s Param) -> named (dl m Param) -> NoDup (dl s Param) ->
  exists s' b', bmap_align_params (s, b) m = Ok (s', b') /\ spc s' (V (aligned (dl s Param) (dl m Param)) (tup_in s) (tup_out s)) /\ bm_ok s' b' /\ b_rat b' = b_rat b /\
    forall d p q x, (0 < d)%Z -> length p = nparam s -> length q = nparam s' -> length x = n_in s + n_out s -> agree (dl s Param) p (dl s' Param) q ->
      (points b' (d :: q ++ x) <-> points b (d :: p ++ x)).
Proof. exact (bmap_align_ok s b m). Qed.
Theorem C38_bmap_env s b m : wf s -> wf m -> bm_ok s b -> named (dl s Param) -> named (dl m Param) -> NoDup (dl s Param) ->
  exists s' b', bmap_align_params (s, b) m = Ok (s', b') /\
    forall env x, length x = n_in s + n_out s -> (points b' (1%Z :: vals env (dl s' Param) ++ x) <-> points b (1%Z :: vals env (dl s Param) ++ x)).
Proof. exact (bmap_align_env s b m). Qed.
Theorem C38_bmap_unnamed s b m : wf s -> wf m -> ~ (named (dl s Param) /\ named (dl m Param)) -> bmap_align_params (s, b) m = Null.
Proof. exact (bmap_align_unnamed s b m). Qed.
Theorem C38_map s l m : wf s -> wf m -> Forall (bm_ok s) l -> named (dl s Param) -> named (dl m Param) -> NoDup (dl s Param) ->
  exists s' l', map_align_params (s, l) m = Ok (s', l') /\ spc s' (V (aligned (dl s Param) (dl m Param)) (tup_in s) (tup_out s)) /\ Forall (bm_ok s') l' /\
    forall d p q x, (0 < d)%Z -> length p = nparam s -> length q = nparam s' -> length x = n_in s + n_out s -> agree (dl s Param) p (dl s' Param) q ->
      (Exists (fun b => points b (d :: q ++ x)) l' <-> Exists (fun b => points b (d :: p ++ x)) l).
Proof. exact (map_align_ok s l m). Qed.
Theorem C38_map_unnamed s l m : wf s -> wf m -> ~ (named (dl s Param) /\ named (dl m Param)) -> map_align_params (s, l) m = Null.
Proof. exact (map_align_unnamed s l m). Qed.
(** the aligned affine expression has the same value: same denominator, same
    numerator, and the local variables have the same definitions *)
Theorem C38_aff a m : af_ok a -> named (dl (a_space a) Param) -> NoDup (dl (a_space a) Param) ->
  exists a', aff_align_params a m = Some a' /\ af_ok a' /\ view_of (a_space a') = V (aligned (dl (a_space a) Param) (dl m Param)) (tup_in (a_space a)) (tup_out (a_space a)) /\
    length (a_div a') = length (a_div a) /\ hd 0%Z (a_v a') = hd 0%Z (a_v a) /\
    forall d p q x e, length p = nparam (a_space a) -> length q = nparam (a_space a') -> length x = n_in (a_space a) + n_out (a_space a) -> length e = length (a_div a) ->
      agree (dl (a_space a) Param) p (dl (a_space a') Param) q ->
      dot (tl (a_v a')) (d :: q ++ x ++ e) = dot (tl (a_v a)) (d :: p ++ x ++ e) /\
      (divisions (a_div a') (1 + dim_all (a_space a')) (d :: q ++ x ++ e) <-> divisions (a_div a) (1 + dim_all (a_space a)) (d :: p ++ x ++ e)).
Proof. exact (aff_align_ok a m). Qed.
Theorem C38_aff_unnamed a m : wf (a_space a) -> ~ named (dl (a_space a) Param) -> dl (a_space a) Param <> dl m Param -> aff_align_params a m = None.
Proof. exact (aff_align_unnamed a m). Qed.

(** ** Examples *)
(** [n, m, k] -> { A[i] } aligned to the parameters [k, l, m] *)
Definition ex_s : space := mksp 3 0 1 (Some id_none) (Some 10%Z) None None (Some [Some 1%Z; Some 2%Z; Some 3%Z; Some 7%Z]).
Definition ex_m : space := mksp 3 0 0 (Some id_none) (Some id_none) None None (Some [Some 3%Z; Some 4%Z; Some 2%Z]).
Ltac nodup := repeat constructor; cbn; intuition discriminate.
Example C38_ex_hyps : wf ex_s /\ wf ex_m /\ named (dl ex_s Param) /\ named (dl ex_m Param) /\ NoDup (dl ex_s Param).
Proof. repeat split; cbn; try lia; try (unfold named; cbn; intuition discriminate). nodup. Qed.
Example C38_ex_names : aligned (dl ex_s Param) (dl ex_m Param) = [Some 3%Z; Some 4%Z; Some 2%Z; Some 1%Z].
Proof. reflexivity. Qed.
Example C38_ex_alignment : exists r, alignment ex_s ex_m = Some r /\ r_pos r = [3; 2; 0; 4] /\ r_dst r = 5.
Proof. eexists. split; [vm_compute; reflexivity|]. split; reflexivity. Qed.
(** { A[i] : n <= i <= 2 m + floor(k / 2) } *)
Definition ex_b : bmap := mkb 3 0 1 [] [[0; -1; 0; 0; 1; 0]; [0; 0; 2; 0; -1; 1]]%Z [[2; 0; 0; 0; 1; 0; 0]]%Z false false false.
Example C38_ex_bmap_hyps : bm_ok ex_s ex_b.
Proof.
  unfold bm_ok. repeat split; cbn; try (repeat constructor; fail). exists (fun k => k). intros [|k] [|j] H1 H2; cbn in *; lia.
Qed.
Example C38_ex_bmap : exists s', bmap_align_params (ex_s, ex_b) ex_m =
  Ok (s', mkb 4 0 1 [] [[0; 0; 0; 0; -1; 1; 0]; [0; 0; 0; 2; 0; -1; 1]]%Z [[2; 0; 1; 0; 0; 0; 0; 0]]%Z false false false).
Proof. eexists. vm_compute. reflexivity. Qed.
Example C38_ex_map : exists s' b', map_align_params (ex_s, [ex_b; ex_b]) ex_m = Ok (s', [b'; b']) /\ dl s' Param = [Some 3%Z; Some 4%Z; Some 2%Z; Some 1%Z].
Proof. eexists. eexists. split; [vm_compute; reflexivity|]. reflexivity. Qed.
Example C38_ex_aff : exists a', aff_align_params (mka ex_s [[2; 0; 0; 0; 1; 0; 0]]%Z [3; 5; 7; 11; 13; 17; 19]%Z) ex_m = Some a' /\
  a_v a' = [3; 5; 13; 0; 11; 7; 17; 19]%Z /\ a_div a' = [[2; 0; 1; 0; 0; 0; 0; 0]]%Z.
Proof. eexists. split; [vm_compute; reflexivity|]. split; reflexivity. Qed.
Definition ex_u : space := mksp 2 0 0 (Some id_none) (Some id_none) None None (Some [Some 3%Z]).
Example C38_ex_unnamed : wf ex_u /\ ~ named (dl ex_u Param) /\ align_params ex_u ex_m = None /\ align_params ex_m ex_u = None.
Proof. repeat split; cbn; try lia. intros H. apply H. cbn. auto. Qed.
Example C38_ex_aff_unnamed_model : exists a', aff_align_params (mka ex_s [] [1; 0; 1; 1; 1; 1]%Z) ex_u = Some a' /\ dl (a_space a') Param = [Some 3%Z; None; Some 1%Z; Some 2%Z].
Proof. eexists. split; [vm_compute; reflexivity|]. reflexivity. Qed.

(** The names of the parameters need to be different, which nothing in
    isl_space_set_dim_id enforces: [n, n] -> { [] : n >= 0 and n <= -1 }, where
    the constraints refer to the first and the second parameter, is empty but
    aligning it to [n] gives the set where n <= -1 because the coefficient of
    the first parameter is lost. *)
Definition ex_d : space := mksp 2 0 0 (Some id_none) None None None (Some [Some 1%Z; Some 1%Z]).
Definition ex_db : bmap := mkb 2 0 0 [] [[0; 1; 0]; [-1; 0; -1]]%Z [] false false false.
Definition ex_n : space := mksp 1 0 0 (Some id_none) None None None (Some [Some 1%Z]).
Theorem C38_bmap_duplicate_refuted : exists s b m s' b' env,
  wf s /\ wf m /\ bm_ok s b /\ named (dl s Param) /\ named (dl m Param) /\ bmap_align_params (s, b) m = Ok (s', b') /\
  points b' (1%Z :: vals env (dl s' Param)) /\ ~ points b (1%Z :: vals env (dl s Param)).
Proof.
  exists ex_d, ex_db, ex_n, ex_n, (mkb 1 0 0 [] [[0; 0]; [-1; -1]]%Z [] false false false), (fun _ => (-1)%Z).
  split; [cbn; lia|]. split; [cbn; lia|]. split; [|split; [|split; [|split; [vm_compute; reflexivity|split]]]].
  - unfold bm_ok. repeat split; cbn; try (repeat constructor; fail). exists (fun k => k). intros k j H; cbn in H; lia.
  - unfold named; cbn; intuition discriminate.
  - unfold named; cbn; intuition discriminate.
  - split; [reflexivity|]. exists []. split; [reflexivity|]. unfold system. cbn [b_eq b_ineq]. split; repeat constructor; cbv; discriminate.
  - intros (_ & e & Le & _ & F). destruct e; [|discriminate]. inversion F as [|? ? H _]; subst. cbv in H. now apply H.
Qed.

Print Assumptions C38_align_params.
Print Assumptions C38_unnamed.
Print Assumptions C38_has_named.
Print Assumptions C38_alignment.
Print Assumptions C38_alignment_injective.
Print Assumptions C38_alignment_unnamed.
Print Assumptions C38_extend.
Print Assumptions C38_extend_space.
Print Assumptions C38_bmap.
Print Assumptions C38_bmap_env.
Print Assumptions C38_bmap_unnamed.
Print Assumptions C38_map.
Print Assumptions C38_map_unnamed.
Print Assumptions C38_aff.
Print Assumptions C38_aff_unnamed.
Print Assumptions C38_bmap_duplicate_refuted.
