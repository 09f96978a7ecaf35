(** C33: linear and integer linear optimization.

    [pts b]: the rational points of a basic map, in homogeneous coordinates;
    [lp_spec], [opt_spec], [ilp_spec] (LpSpec.v, IlpSpec.v): what the result should
    be.  [wp r Q]: [r] is a result that satisfies [Q], or the fuel ran out. *)
From Coq Require Import ZArith List Bool Arith Lia.
From Verif Require Import SeqModel SeqSpec MatModel MatSpec BMapModel BMapSpec BMapSem TabModel TabSpec TabBase LpModel LpSpec LpMin LpSolve LpMap IlpModel IlpSpec IlpProofs.
Import ListNotations.
Open Scope Z_scope.

(** C33: isl_tab_min computes the minimum of an affine expression over the points
    of a tableau, or finds a direction along which it falls without end; it leaves
    a tableau for the same constraints behind, whose sample value is a point where
    the minimum is attained *)
Theorem C33_tab_min L fuel t f denom exact : represents false L t -> sample_ok None t -> t_empty t = false -> t_inundo t = false -> length f = (1 + t_nvar t)%nat -> 0 < denom ->
  wp (tab_min fuel t f denom exact) (fun '(t', o) =>
    represents false L t' /\ sample_ok None t' /\ (forall p, 0 < hd 0 p -> (feas L t' p <-> feas L t p)) /\
    (t_nvar t' = t_nvar t /\ t_ncon t' = t_ncon t /\ t_empty t' = false /\ t_rat t' = t_rat t /\ t_inundo t' = false) /\
    let S := fun p => 0 < hd 0 p /\ feas L t p in
    match o with
    | Lp_empty => False
    | Lp_unbounded => exists r, length r = (1 + t_nvar t)%nat /\ hd 0 r = 0 /\ dot f r < 0 /\ forall p m, S p -> 0 <= m -> S (plus_times p m r)
    | Lp_ok n d => exists n0 d0, minimum S f denom n0 d0 /\ (forall p, at_sample L t' p -> n0 * (denom * hd 0 p) = d0 * dot f p) /\
        if exact then n = n0 /\ d = d0 else d = 1 /\ rounded_up n0 d0 n
    end).
Proof. exact (tab_min_ok L fuel t f denom exact). Qed.
(** C33: isl_tab_get_sample_value computes a point of the tableau: the one where
    all columns are zero *)
Theorem C33_sample_value L t : represents false L t -> sample_ok None t -> exists s, sample_value t = Ok s /\ 0 < hd 0 s /\ at_sample L t s /\ feas L t s.
Proof. exact (sample_value_ok L t). Qed.
(** C33: isl_basic_map_solve_lp, for objectives that do not involve the local
    variables (the coefficients of the divs are 0) *)
Theorem C33_basic_map_solve_lp fuel b max f denom exact : wf b -> acyclic b -> length f = (1 + nvar b)%nat -> 0 < denom ->
  wp (solve_lp fuel b max (f ++ repeat 0 (ndiv b)) denom exact) (fun '(o, sol) => lp_spec (pts b) (nvar b) (ndiv b) f denom max exact o sol).
Proof. exact (solve_lp_ok fuel b max f denom exact). Qed.
(** C33: the direction of an unbounded program really gives arbitrary values *)
Theorem C33_unbounded (S : list Z -> Prop) f n : (forall q : list Z, S q -> length q = (1 + n)%nat /\ 0 < hd 0 q) -> (exists q, S q) ->
  (falls S f n -> unbounded_below S f) /\ (falls S (map Z.opp f) n -> unbounded_above S f).
Proof. intros HS Ex. split; [exact (falls_below S f n HS Ex)|exact (falls_above S f n HS Ex)]. Qed.
(** C33: isl_map_solve_lp, the value of the optimum *)
Theorem C33_map_solve_lp fuel n l max f denom exact : (forall b, List.In b l -> wf b /\ acyclic b /\ nvar b = n) -> length f = (1 + n)%nat -> 0 < denom ->
  wp (map_solve_lp fuel l max f denom exact) (fun '(o, _) => opt_spec (in_some l) f denom max exact o).
Proof. exact (map_solve_lp_ok fuel n l max f denom exact). Qed.
(** C33: isl_basic_set_solve_ilp computes the optimum over the integer points *)
Theorem C33_basic_set_solve_ilp sample remove_eq fuel b max f o s : sampler sample -> remover remove_eq -> plain b -> length f = (1 + nvar b)%nat ->
  bset_solve_ilp sample remove_eq fuel b max f = Ok (o, s) -> ilp_spec (ipts b) f max o s.
Proof. intros Hs Hr. exact (bset_solve_ilp_ok sample Hs remove_eq Hr fuel b max f o s). Qed.

(** ** what does not hold *)
(** the divs of [ex_order] are not in the order of their definitions *)
Definition ex_order : bmap := mkb 0 0 1 [] [[-5; 0; 1; 0]; [-1; 0; 0; 1]] [[2; 0; 0; 0; 1]; [2; 0; 1; 0; 0]] false false false.
(** C33, full statement: the optimum over the solutions of the constraints of any
    affine expression in the variables and the divs.  Not so: isl_tab_solve_lp,
    isl_lp.c:35, calls isl_basic_map_gauss, which may reorder the divs, while the
    objective refers to the divs in their original order *)
Theorem C33_solve_lp_divs_refuted : exists b f o sol, wf b /\ acyclic b /\ length f = (1 + total b)%nat /\ solve_lp 100 b false f 1 true = Ok (Lp_ok o 1, sol) /\
  (forall v, length v = (1 + total b)%nat -> 0 < hd 0 v -> system (b_eq b) (b_ineq b) v -> o * hd 0 v < dot f v).
Proof.
  exists ex_order, [0; 0; 1; 0], 1, [1; 0; 1; 5]. split; [repeat split; repeat constructor|]. split.
  - exists (fun k => if Nat.eqb k 0 then 1%nat else 0%nat). intros k j Hk Hj. change (ndiv ex_order) with 2%nat in *. destruct k as [|[|k]], j as [|[|j]]; cbn; lia.
  - split; [reflexivity|]. split; [vm_compute; reflexivity|]. intros v Lv Hv (_ & Hi). apply Forall_cons_iff in Hi. destruct Hi as (H1 & _). unfold nonneg_on in H1. destruct v as [|h [|x [|y [|z v]]]]; try discriminate Lv. unfold dot in *. cbn [map combine fold_right dot hd] in *. cbn -[Z.mul Z.add Z.lt Z.le] in *. lia.
Qed.
(** C33, full statement: isl_map_solve_lp also returns a solution.  Not so: *sol is
    set to NULL after the first basic map, isl_lp.c:138-139 *)
Theorem C33_map_solution_refuted : exists l f o d, (forall b, List.In b l -> wf b /\ acyclic b /\ nvar b = 1%nat) /\ map_solve_lp 100 l false f 1 true = Ok (Lp_ok o d, None).
Proof.
  exists [mkb 0 0 1 [] [[-1; 1]] [] false false false], [0; 1], 1, 1. split; [|vm_compute; reflexivity]. intros b [<-|[]]. split; [repeat split; repeat constructor|]. split; [|reflexivity]. exists (fun _ => O). intros k j Hk. cbn in Hk. lia.
Qed.

(** ** examples *)
(** 2 y >= 1, 3 x + y >= 4, x, y <= 10 *)
Definition ex_l : bmap := mkb 0 0 2 [] [[-1; 0; 2]; [-4; 3; 1]; [10; -1; 0]; [10; 0; -1]] [] false false false.
Example ex_l_plain : plain ex_l. Proof. split; [repeat split; repeat constructor|reflexivity]. Qed.
Example ex_l_acyclic : acyclic ex_l. Proof. apply plain_acyclic, ex_l_plain. Qed.
Example ex_l_tab : exists t, from_basic_map 100 ex_l = Ok t /\ represents false (b_ineq ex_l) t /\ sample_ok None t /\ t_empty t = false /\ t_inundo t = false.
Proof.
  pose proof (TabMap.from_basic_map_keeps 100 ex_l (proj1 ex_l_plain) eq_refl) as H. pose proof (from_inundo 100 ex_l) as Hu.
  assert (E : match from_basic_map 100 ex_l with Ok t => t_empty t = false | _ => False end) by (vm_compute; reflexivity).
  destruct (from_basic_map 100 ex_l) as [t| | |]; try contradiction. exists t. rewrite E in H. destruct H as (R & D & _). split; [reflexivity|]. split; [exact R|]. split; [exact D|]. split; [exact E|]. apply Hu; reflexivity.
Qed.
(** the minimum of x + y, the maximum of 3 x + y, and an unbounded one *)
Example ex_l_min : solve_lp 100 ex_l false [0; 1; 1] 1 true = Ok (Lp_ok 5 3, [6; 7; 3]).
Proof. vm_compute. reflexivity. Qed.
Example ex_l_round : solve_lp 100 ex_l false [0; 1; 1] 1 false = Ok (Lp_ok 2 1, [6; 7; 3]).
Proof. vm_compute. reflexivity. Qed.
Example ex_l_max : solve_lp 100 ex_l true [0; 3; 1] 2 true = Ok (Lp_ok 40 2, [1; 10; 10]).
Proof. vm_compute. reflexivity. Qed.
Definition ex_u : bmap := mkb 0 0 2 [] [[-1; 0; 2]; [-4; 3; 1]] [] false false false.
Example ex_u_unbounded : solve_lp 100 ex_u false [0; 1; 0] 1 true = Ok (Lp_unbounded, []).
Proof. vm_compute. reflexivity. Qed.
Example ex_e_empty : solve_lp 100 (mkb 0 0 1 [] [[-1; 2]; [0; -1]] [] false false false) false [0; 1] 1 true = Ok (Lp_empty, []).
Proof. vm_compute. reflexivity. Qed.
Example ex_map : map_solve_lp 100 [ex_u; ex_l] false [0; 0; 1] 1 true = Ok (Lp_ok 1 2, None).
Proof. vm_compute. reflexivity. Qed.

(** a sampler: it looks for a point in a box and, failing that, tries to show that
    there is not even a rational point *)
Fixpoint boxes (n : nat) : list (list Z) :=
  match n with O => [[]] | S n => flat_map (fun x => map (cons x) (boxes n)) [0; 1; -1; 2; -2; 3; 4; 5; 6; 7; 8; 9; 10] end.
Definition holds (b : bmap) (p : list Z) : bool :=
  negb (b_empty b) && forallb (fun e => dot e p =? 0) (b_eq b) && forallb (fun e => 0 <=? dot e p) (b_ineq b).
Definition box_sample (b : bmap) : res (list Z) :=
  match find (holds b) (map (cons 1) (boxes (nvar b))) with
  | Some p => Ok p
  | None => match solve_lp 100 b false (repeat 0 (1 + nvar b)) 1 false with Ok (Lp_empty, _) => Ok [] | _ => Null end
  end.
Lemma boxes_len n : forall p, List.In p (boxes n) -> length p = n.
Proof. induction n as [|n IH]; intros p H; [destruct H as [<-|[]]; reflexivity|]. apply in_flat_map in H. destruct H as (x & _ & H). apply in_map_iff in H. destruct H as (q & <- & Hq). cbn. rewrite (IH q Hq). reflexivity. Qed.
Example box_sampler : sampler box_sample.
Proof.
  intros b P. unfold box_sample. destruct (find (holds b) (map (cons 1) (boxes (nvar b)))) as [p|] eqn:E.
  - apply find_some in E. destruct E as (Hi & Hh). apply in_map_iff in Hi. destruct Hi as (q & <- & Hq). split; [cbn; rewrite (boxes_len _ _ Hq); reflexivity|]. split; [reflexivity|]. apply (plain_points b _ P). unfold holds in Hh. apply andb_prop in Hh. destruct Hh as (Hh & H3). apply andb_prop in Hh. destruct Hh as (H1 & H2).
    split; [destruct (b_empty b); [discriminate|reflexivity]|]. split; apply Forall_forall; intros e He; [apply Z.eqb_eq|apply Z.leb_le]; [apply (proj1 (forallb_forall _ _) H2 e He)|apply (proj1 (forallb_forall _ _) H3 e He)].
  - destruct (solve_lp 100 b false (repeat 0 (1 + nvar b)) 1 false) as [[[| |v d] s]| | |] eqn:E2; try exact I. apply plain_lp in E2; [|exact P|apply repeat_length|lia]. intros q Iq. apply (E2 q), ipts_pts. exact Iq.
Qed.
(** removing the equality of x = 2 y, 0 <= x <= 7: y is the only variable left *)
Definition ex_q : bmap := mkb 0 0 2 [[0; 1; -2]] [[0; 1; 0]; [7; -1; 0]] [] false false false.
Definition ex_c : bmap := mkb 0 0 1 [] [[0; 1]; [3; -1]] [] false false false.
Definition ex_remove (b : bmap) : res (bmap * list (list Z)) :=
  match b with
  | mkb O O (S (S O)) [[0; 1; -2]] [[0; 1; 0]; [7; -1; 0]] [] false false false => Ok (ex_c, [[1; 0]; [0; 2]; [0; 1]])
  | _ => Null
  end.
Lemma ex_remove_inv b c T : ex_remove b = Ok (c, T) -> b = ex_q /\ c = ex_c /\ T = [[1; 0]; [0; 2]; [0; 1]].
Proof.
  unfold ex_remove. intros H. repeat match type of H with match ?x with _ => _ end = _ => destruct x; try discriminate H end. injection H as <- <-. repeat split; reflexivity.
Qed.
Example ex_q_plain : plain ex_q. Proof. split; [repeat split; repeat constructor|reflexivity]. Qed.
Example ex_remover : remover ex_remove.
Proof.
  intros b c T _ E. apply ex_remove_inv in E. destruct E as (-> & -> & ->). assert (Pc : plain ex_c) by (split; [repeat split; repeat constructor|reflexivity]). split; [exact Pc|]. split.
  { split; [reflexivity|]. intros r Hr. change (1 + nvar ex_q)%nat with 3%nat in Hr. destruct r as [|[|[|r]]]; try reflexivity. lia. }
  unfold ipts. split.
  - intros q (Lq & Hq & Pq). apply (plain_points _ _ Pc) in Pq. destruct Pq as (_ & _ & Hi). destruct q as [|h [|y [|z q]]]; try discriminate Lq. cbn in Hq. subst h. apply Forall_cons_iff in Hi. destruct Hi as (H1 & Hi). apply Forall_cons_iff in Hi. destruct Hi as (H2 & _). unfold nonneg_on in *. cbn -[Z.mul Z.add Z.lt Z.le] in H1, H2.
    split; [reflexivity|]. split; [reflexivity|]. apply (plain_points _ _ ex_q_plain). split; [reflexivity|]. split; repeat constructor; unfold zero_on, nonneg_on; cbn -[Z.mul Z.add Z.lt Z.le]; lia.
  - intros p (Lp & Hp & Pp). apply (plain_points _ _ ex_q_plain) in Pp. destruct Pp as (_ & He & Hi). destruct p as [|h [|x [|y [|z p]]]]; try discriminate Lp. cbn in Hp. subst h. apply Forall_cons_iff in He. destruct He as (H0 & _). apply Forall_cons_iff in Hi. destruct Hi as (H1 & Hi). apply Forall_cons_iff in Hi. destruct Hi as (H2 & _). unfold zero_on, nonneg_on in *. cbn -[Z.mul Z.add Z.lt Z.le] in H0, H1, H2.
    exists [1; y]. split; [|cbn -[Z.mul Z.add]; repeat f_equal; lia]. split; [reflexivity|]. split; [reflexivity|]. apply (plain_points _ _ Pc). split; [reflexivity|]. split; [constructor|]. repeat constructor; unfold nonneg_on; cbn -[Z.mul Z.add Z.lt Z.le]; lia.
Qed.
(** the integer minimum of x + y over [ex_l] (the rational one is 5/3), the maximum
    over a set with an equality, and an unbounded one *)
Example ex_l_ilp : bset_solve_ilp box_sample ex_remove 100 ex_l false [0; 1; 1] = Ok (Lp_ok 2 1, [1; 1; 1]).
Proof. vm_compute. reflexivity. Qed.
Example ex_q_ilp : bset_solve_ilp box_sample ex_remove 100 ex_q true [0; 1; 1] = Ok (Lp_ok 9 1, [1; 6; 3]).
Proof. vm_compute. reflexivity. Qed.
Example ex_u_ilp : bset_solve_ilp box_sample ex_remove 100 ex_u false [0; 1; 0] = Ok (Lp_unbounded, []).
Proof. vm_compute. reflexivity. Qed.

Print Assumptions C33_tab_min.
Print Assumptions C33_sample_value.
Print Assumptions C33_basic_map_solve_lp.
Print Assumptions C33_unbounded.
Print Assumptions C33_map_solve_lp.
Print Assumptions C33_basic_set_solve_ilp.
Print Assumptions C33_solve_lp_divs_refuted.
Print Assumptions C33_map_solution_refuted.
