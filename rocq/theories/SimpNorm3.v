(** normalize_divs keeps the integer points: the combination. *)
From Coq Require Import ZArith List Bool Lia Arith Permutation.
From Verif Require Import SeqModel SeqSpec SeqProofs MatModel MatSpec MatTheory MatProofs HermiteProofs HermiteProofs2 EqModel EqSpec EqProofs EqProofs2 EqProofs4 BMapModel BMapSpec BMapSem BMapLists BMapNorm BMapGauss BMapGauss2 BMapOrder BDupModel BDupProofs BElimModel BElimSpec BElimSort BElimCols BElimProofs BElimFM BElimVars SimpModel SimpSpec SimpBase SimpDrop SimpDivs SimpShift SimpDups SimpIneq SimpGauss SimpNorm SimpNew SimpNorm2.
Import ListNotations.
Open Scope Z_scope.

Lemma sub_apply b f m q i : wf b -> length q = (1 + nvar b)%nat -> (f + m <= length (b_eq b))%nat -> (i < m)%nat ->
  apply (1 + nvar b) (elt (mat_sub (b_eq b) f m 0 (1 + nvar b))) (fun k => nth k q 0) i = vpart b (f + i) q.
Proof.
  intros (We & _) Lq HF Hi. unfold vpart, apply. change MatSpec.total with sumn. change (elt ?x) with (get x).
  assert (LR : length (nth (f + i) (b_eq b) []) = (1 + BMapModel.total b)%nat) by (rewrite (rows_nth _ _ _ We) by lia; reflexivity). unfold BMapModel.total in LR.
  rewrite dot_sumn by (rewrite firstn_length; lia). rewrite firstn_length, LR, Nat.min_l by lia. apply sumn_ext. intros k Hk. destruct (mat_sub_ok (b_eq b) f m 0 (1 + nvar b)) as [_ E]. rewrite E by assumption. f_equal.
  unfold get, mrow. symmetry. apply (nth_firstn_eq _ _ 0 k (1 + nvar b)); [|exact Hk]. rewrite firstn_firstn, Nat.min_id. reflexivity.
Qed.
Lemma xval_some V C2 n q i : is_mat n (1 + V) C2 -> length q = (1 + V)%nat -> (i < n)%nat -> xval V (Some C2) i q = apply (1 + V) (elt C2) (fun k => nth k q 0) i.
Proof.
  intros [W1 W2] Lq Hi. unfold xval, xrow, apply. change MatSpec.total with sumn. assert (LR : length (mrow C2 i) = (1 + V)%nat) by (unfold mrow; apply W2; exact Hi).
  rewrite firstn_all2 by lia. rewrite dot_sumn by lia. rewrite LR. apply sumn_ext. intros k Hk. reflexivity.
Qed.
Lemma xval_none V q i : length q = (1 + V)%nat -> (i < 1 + V)%nat -> xval V None i q = nth i q 0.
Proof.
  intros Lq Hi. unfold xval, xrow. rewrite firstn_all2 by lia. rewrite dot_zupd by (rewrite ?repeat_length; lia). rewrite nth_repeat. rewrite dot_repeat0. ring.
Qed.
Theorem normalize_divs_pres b p b' p' : good b -> ordered b -> (b_empty b = false -> exists ps, reduced b ps) -> normalize_divs b p = Ok (b', p') -> pres b b' /\ ordered b'.
Proof.
  intros G OR RD. pose proof G as (W & A & D & I & R & BB). unfold normalize_divs.
  destruct (Nat.eqb_spec (ndiv b) 0) as [E0|Hd]; [intros [= <- <-]; split; [apply pres_refl; exact G|exact OR]|].
  destruct (Nat.eqb_spec (length (b_eq b)) 0) as [E0|HE]; [intros [= <- <-]; split; [apply pres_refl; exact G|exact OR]|].
  destruct (b_nd b); [intros [= <- <-]; split; [apply pres_refl; exact G|exact OR]|].
  destruct (Nat.eqb_spec (n_pure_div_eq b) 0) as [E0|Hm]; [intros [= <- <-]; split; [apply pres_refl; exact G|exact OR]|].
  destruct (good_int b 0 G ltac:(lia)) as [RF EF]. destruct (RD EF) as [ps RP]. destruct (pure_droppable b ps W RP ltac:(lia)) as (DR & ML & LD & DP & MC & ZR). set (m := n_pure_div_eq b) in *. set (V := nvar b) in *.
  destruct (Nat.ltb_spec m (length (b_eq b))) as [HL|HL].
  - set (k := (length (b_eq b) - m)%nat). set (C0 := mat_sub (b_eq b) m k 0 (1 + V)). pose proof (final_variable_compression_ok k 0 V C0 (proj1 (mat_sub_ok _ _ _ _ _))) as FC. unfold variable_compression.
    assert (SAT : forall q, length q = (1 + V)%nat -> pure_zero b q -> satisfies k (1 + 0 + V) (elt C0) (fun i => nth i q 0)).
    { intros q Lq PZ i Hi. etransitivity; [exact (sub_apply b m k q i W Lq ltac:(unfold k; lia) Hi)|]. apply PZ; [unfold k in Hi; lia|]. intros j Hj. apply ZR. unfold k in Hi. lia. }
    destruct (final_variable_compression k 0 V C0) as [[[C C2]|]| | |]; try discriminate.
    + destruct FC as (WC & WC2 & C00 & CP). specialize (C00 eq_refl). destruct CP as (_ & _ & CP & _). intros H. 
      destruct (product_ok m (1 + V) (1 + (V - k)) (mat_sub (b_eq b) 0 m 0 (1 + V)) C (proj1 (mat_sub_ok _ _ _ _ _))) as [WP EP].
      refine (normalize_divs_with_pres b ps (V - k) _ (Some C2) p b' p' G OR _ RP _ _ _ _ _ H); [lia|fold m; lia|exact WP| | |].
      * intros i Hi. cbn [xrow]. unfold mrow. apply (proj2 WC2). lia.
      * fold V. lia.
      * intros q Lq Hq PZ. fold V in Lq |- *. specialize (CP (fun i => nth i q 0)). destruct CP as [CA CB]; [unfold homogeneous; destruct q; [discriminate|exact Hq]|apply SAT; assumption|].
        assert (XV : forall i, (i < 1 + (V - k))%nat -> xval V (Some C2) i q = apply (1 + V) (elt C2) (fun i => nth i q 0) i). { intros i Hi. apply (xval_some V C2 (1 + (V - k)) q i WC2 Lq Hi). }
        split; [rewrite XV by lia; exact CA|]. intros i Hi.
        transitivity (mvec (1 + (V - k)) (mmul (1 + V) (elt (mat_sub (b_eq b) 0 m 0 (1 + V))) (elt C)) (fun k0 => xval V (Some C2) k0 q) i).
        { apply mvec_ext; [intros c Hc; apply EP; assumption|reflexivity]. }
        rewrite mvec_mmul. etransitivity; [|exact (sub_apply b 0 m q i W Lq ltac:(lia) Hi)]. apply mvec_ext; [reflexivity|]. intros c Hc. specialize (CB c Hc). change (elt C 0 0) with (get C 0 0) in CB. rewrite C00, Z.mul_1_l in CB. rewrite <- CB. apply mvec_ext; [reflexivity|]. intros j Hj. apply XV. exact Hj.
    + intros [= <- <-]. split; [|apply set_empty_ordered; exact G]. apply pres_set_empty; [exact G|]. intros q Lq Hq (_ & e & Le & Se). pose proof (proj2 Hq RF) as H1. apply (FC (fun i => nth i q 0)); [unfold homogeneous; destruct q; [discriminate|exact H1]|]. apply SAT; [exact Lq|]. apply (system_pure b q e W Lq Le Se).
  - assert (ME : m = length (b_eq b)) by lia. intros H. refine (normalize_divs_with_pres b ps V _ None p b' p' G OR _ RP _ _ _ _ _ H); [lia|fold m; lia|apply mat_sub_ok| |reflexivity|].
    + intros i Hi. unfold xrow. rewrite zupd_length, repeat_length. reflexivity.
    + intros q Lq Hq PZ. fold V in Lq |- *. rewrite xval_none by lia. split; [destruct q; [discriminate|exact Hq]|]. intros i Hi. fold m in Hi. etransitivity; [|exact (sub_apply b 0 m q i W Lq ltac:(lia) Hi)]. apply mvec_ext; [reflexivity|]. intros c Hc. apply xval_none; [exact Lq|exact Hc].
Qed.
