(** Quasi-polynomials: witnesses. *)
From Coq Require Import ZArith List Bool QArith Arith Lia ZifyBool Permutation Sorted.
From Verif Require Import SeqModel SeqSpec SeqProofs MatModel ValModel ValSpec LocalModel LocalSpec LocalProofs SpaceModel PolyModel PolySpec PolyBase PolyOps QpModel QpSpec QpProofs.
Import ListNotations.
Open Scope Z_scope.

(** insertion sort *)
Fixpoint ins (c : nat -> nat -> Z) (a : nat) (l : list nat) : list nat :=
  match l with [] => [a] | b :: t => if c a b <=? 0 then a :: l else b :: ins c a t end.
Definition isort (c : nat -> nat -> Z) (l : list nat) : list nat := fold_right (ins c) [] l.
Lemma ins_perm c a : forall l, Permutation (a :: l) (ins c a l).
Proof. induction l as [|b t IH]; cbn; [reflexivity|]. destruct (_ <=? 0); [reflexivity|]. rewrite perm_swap. constructor. exact IH. Qed.
Lemma isort_sorts : sorts isort.
Proof.
  intros c l. split; [induction l as [|a l IH]; cbn; [constructor|]; rewrite <- ins_perm; constructor; exact IH|].
  intros T Tr. induction l as [|a l IH]; cbn; [constructor|]. change (fold_right (ins c) [] l) with (isort c l). revert IH. generalize (isort c l). clear l. induction l as [|b t IH]; intros S1; cbn; [constructor; constructor|].
  inversion S1 as [|? ? S2 F]; subst. destruct (Z.leb_spec (c a b) 0).
  - constructor; [exact S1|]. constructor; [lia|]. eapply Forall_impl; [|exact F]. cbn. intros x Hx. eapply Tr; eauto.
  - specialize (IH S2). constructor; [exact IH|]. assert (P := ins_perm c a t). eapply Permutation_Forall; [exact P|]. constructor; [|exact F]. destruct (T a b); lia.
Qed.
Definition sp (d : nat) : space := mksp 0 0 d None None None None None.
Definition M1 : mat := [[2;0;1;0;0;0];[3;0;1;0;0;0];[5;0;0;1;1;0]].
Definition M2 : mat := [[2;0;0;1;0;0;0];[3;0;0;0;1;0;0];[5;0;1;0;0;0;0]].
Definition M3 : mat := [[2;0;1;0;0;0;0];[5;0;0;1;0;0;0];[3;0;0;0;1;0;0]].
(** well-formedness, computed *)
Definition wf_b (d : nat) (M : mat) : bool :=
  forallb (fun i => let r := nth i M [] in Nat.eqb (length r) (2 + d + length M) && (0 <? nth 0 r 0) && forallb (Z.eqb 0) (skipn (2 + d + i) r)) (seq 0 (length M)).
Lemma wf_b_ok d M : wf_b d M = true -> wf_divs d M /\ known M.
Proof.
  unfold wf_b. rewrite forallb_forall. intros H. assert (A : forall i, (i < length M)%nat -> div_row d (length M) i (nth i M []) /\ nth 0 (nth i M []) 0 <> 0).
  { intros i Hi. specialize (H i ltac:(apply in_seq; lia)). cbv zeta in H. rewrite !andb_true_iff in H. destruct H as ((L & P) & Z0). apply Nat.eqb_eq in L. rewrite forallb_forall in Z0. split; [|lia]. split; [exact L|]. split; [lia|].
    intros j Hj. destruct (Nat.ltb_spec j (length (nth i M []))) as [Hl|Hl]; [|apply nth_overflow; lia]. symmetry. apply Z.eqb_eq. apply Z0. replace j with (2 + d + i + (j - (2 + d + i)))%nat by lia. rewrite <- nth_skipn. apply nth_In. rewrite skipn_length. lia. }
  split; intros i Hi; apply A; exact Hi.
Qed.
(** the value of a quasi-polynomial, computed *)
Definition value_b (q : qp) (v : list Z) : Q := pval (wval (extend_loop (q_div q) v)) (q_poly q).
Lemma value_b_ok q v r : wf_b (q_d q) (q_div q) = true -> qvalue q v r -> (r == value_b q v)%Q.
Proof.
  intros W H. apply wf_b_ok in W as (W & K). destruct (qvalue_point _ _ _ H) as (L & E). destruct (extend_sat _ _ _ W K L E) as (Sw & Fw). destruct H as (w & S1 & F1 & Er). rewrite Er. unfold value_b.
  replace (extend_loop (q_div q) v) with w; [reflexivity|]. eapply sat_unique; eauto. congruence.
Qed.
Lemma value_b_has q v : wf_b (q_d q) (q_div q) = true -> int_point (q_d q) v -> qvalue q v (value_b q v).
Proof. intros W (L & E). apply wf_b_ok in W as (W & K). destruct (extend_sat _ _ _ W K L E) as (Sw & Fw). exists (extend_loop (q_div q) v). split; [exact Sw|]. split; [exact Fw|]. reflexivity. Qed.

(** floor((floor(x/2) + floor(x/3))/5) at x = 6 *)
Lemma from_aff_wrong : ~ (forall qsort s M a q, sorts qsort -> wf_divs (dim_all s) M -> known M -> length a = (2 + dim_all s + length M)%nat -> 0 < nth 0 a 0 ->
  qp_from_aff qsort s M a = Ok q -> forall v r, aff_value (dim_all s) M a v r -> qvalue q v r).
Proof.
  intros H. assert (W : wf_b 1 M1 = true) by reflexivity. apply wf_b_ok in W as (W & K).
  specialize (H isort (sp 1) M1 [1;0;0;0;0;1] _ isort_sorts W K eq_refl eq_refl eq_refl [1;6] 1%Q).
  assert (X : aff_value (dim_all (sp 1)) M1 [1; 0; 0; 0; 0; 1] [1; 6] 1%Q).
  { exists [1;6;3;2;1]. split; [|split; [reflexivity|reflexivity]]. split; [reflexivity|]. split; [reflexivity|]. intros i Hi _. do 3 (destruct i as [|i]; [reflexivity|]). cbn in Hi. lia. }
  specialize (H X). apply value_b_ok in H; [|reflexivity]. vm_compute in H. discriminate.
Qed.
(** sort_divs *)
Lemma sort_divs_wrong : ~ (forall qsort q q', sorts qsort -> wf_qp q -> sort_divs qsort q = Ok q' -> forall v r, qvalue q v r -> qvalue q' v r).
Proof.
  intros H. assert (W : wf_b 2 M2 = true) by reflexivity. apply wf_b_ok in W as (W & K). set (q := mkqp (sp 2) M2 (var_pow 3 1)) in *.
  assert (G : wf_qp q) by (split; [exact W|split; [exact K|]]; cbn; repeat split; lia).
  specialize (H isort q _ isort_sorts G eq_refl [1;0;12] _ (value_b_has q [1;0;12] eq_refl (conj eq_refl eq_refl))). apply value_b_ok in H; [|reflexivity]. vm_compute in H. discriminate.
Qed.
(** isl_qpolynomial_move_dims exchanges the two variables x and y: the value of the result at (y, x) should be that of
    the original at (x, y) *)
Lemma move_wrong : ~ (forall qsort q q', sorts qsort -> wf_qp q -> q_d q = 2%nat -> qp_move qsort (q_sp q) q 0 1 1 = Ok q' -> forall x y r, qvalue q [1; x; y] r -> qvalue q' [1; y; x] r).
Proof.
  intros H. assert (W : wf_b 2 M3 = true) by reflexivity. apply wf_b_ok in W as (W & K). set (q := mkqp (sp 2) M3 (var_pow 4 1)) in *.
  assert (G : wf_qp q) by (split; [exact W|split; [exact K|]]; cbn; repeat split; lia).
  specialize (H isort q _ isort_sorts G eq_refl eq_refl 12 0 _ (value_b_has q [1;12;0] eq_refl (conj eq_refl eq_refl))). apply value_b_ok in H; [|reflexivity]. vm_compute in H. discriminate.
Qed.
