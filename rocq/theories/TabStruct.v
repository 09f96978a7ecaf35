(** The operations that move rows and columns of a tableau around. *)
From Coq Require Import ZArith List Bool Arith Lia.
From Verif Require Import SeqModel SeqSpec SeqProofs MatModel BMapModel BMapLists BMapGauss2 BElimFM TabModel TabSpec TabBase.
Import ListNotations.
Open Scope Z_scope.

Definition rc (t : tab) (u : Z) : list Z := match v_idx (t_info t u) with Some i => nth i (t_rows t) [] | None => [] end.
Definition vec (L : list (list Z)) (t : tab) (p : list Z) : list Z := hd 0 p :: map (value L p) (t_cv t).

Lemma rc_row t i : arranged t -> (i < nrow t)%nat -> rc t (rowv t i) = nth i (t_rows t) [].
Proof. intros A H. unfold rc. destruct (a_row _ A _ H) as (_ & -> & _). reflexivity. Qed.
Lemma rowv_inj t i j : arranged t -> (i < nrow t)%nat -> (j < nrow t)%nat -> rowv t i = rowv t j -> i = j.
Proof. intros A Hi Hj E. destruct (a_row _ A _ Hi) as (_ & E1 & _). destruct (a_row _ A _ Hj) as (_ & E2 & _). rewrite E in E1. congruence. Qed.
Lemma colv_inj t i j : arranged t -> (i < ncol t)%nat -> (j < ncol t)%nat -> colv t i = colv t j -> i = j.
Proof. intros A Hi Hj E. destruct (a_col _ A _ Hi) as (_ & E1 & _). destruct (a_col _ A _ Hj) as (_ & E2 & _). rewrite E in E1. congruence. Qed.
Lemma row_col t i j : arranged t -> (i < nrow t)%nat -> (j < ncol t)%nat -> rowv t i <> colv t j.
Proof. intros A Hi Hj E. destruct (a_row _ A _ Hi) as (_ & _ & E1). destruct (a_col _ A _ Hj) as (_ & _ & E2). rewrite E in E1. congruence. Qed.
Lemma at_row t v i : arranged t -> valid t v -> v_idx (t_info t v) = Some i -> v_row (t_info t v) = true -> (i < nrow t)%nat /\ rowv t i = v.
Proof. intros A V E R. pose proof (a_inv _ A _ _ V E) as H. rewrite R in H. exact H. Qed.
Lemma at_col t v i : arranged t -> valid t v -> v_idx (t_info t v) = Some i -> v_row (t_info t v) = false -> (i < ncol t)%nat /\ colv t i = v.
Proof. intros A V E R. pose proof (a_inv _ A _ _ V E) as H. rewrite R in H. exact H. Qed.
Lemma row_of_eq t i v : arranged t -> (i < nrow t)%nat -> rowv t i = v -> row_of t v = Ok i.
Proof. intros A Hi <-. destruct (a_row _ A _ Hi) as (_ & E & _). unfold row_of. rewrite E. rewrite (proj2 (Nat.ltb_lt i (nrow t)) Hi). reflexivity. Qed.
Lemma col_of_eq t i v : arranged t -> (i < ncol t)%nat -> colv t i = v -> col_of t v = Ok i.
Proof. intros A Hi <-. destruct (a_col _ A _ Hi) as (_ & E & _). unfold col_of. rewrite E. rewrite (proj2 (Nat.ltb_lt i (ncol t)) Hi). reflexivity. Qed.

(** ** undo records *)
Lemma push_w t u : exists l, push t u = w_log t l.
Proof. unfold push. destruct (t_undo t); [eexists; reflexivity|]. exists (t_log t). destruct t; reflexivity. Qed.
Lemma push_var_eq t u v : arranged t -> valid t v -> v_idx (t_info t v) <> None -> push_var t u v = Ok (push t (u v)).
Proof.
  intros A V N. unfold push_var. destruct (v_idx (t_info t v)) as [i|] eqn:E; [|congruence]. destruct (v_row (t_info t v)) eqn:R.
  - destruct (at_row _ _ _ A V E R) as (Hi & Ei). rewrite (row_of_eq t i v A Hi Ei). cbn [bind]. rewrite Ei. reflexivity.
  - destruct (at_col _ _ _ A V E R) as (Hi & Ei). rewrite (col_of_eq t i v A Hi Ei). cbn [bind]. rewrite Ei. reflexivity.
Qed.

(** ** changes that do not move anything *)
Record shape (t t' : tab) : Prop := {
  sh_rows : t_rows t' = t_rows t; sh_rv : t_rv t' = t_rv t; sh_cv : t_cv t' = t_cv t;
  sh_nvar : t_nvar t' = t_nvar t; sh_ncon : t_ncon t' = t_ncon t;
  sh_info : forall u, v_idx (t_info t' u) = v_idx (t_info t u) /\ v_row (t_info t' u) = v_row (t_info t u) }.
Section Shape.
Variables t t' : tab.
Hypothesis S : shape t t'.
Lemma sh_valid v : valid t' v <-> valid t v.
Proof. unfold valid. rewrite (sh_nvar _ _ S), (sh_ncon _ _ S). reflexivity. Qed.
Lemma sh_gone v : gone t' v <-> gone t v.
Proof. unfold gone. destruct (sh_info _ _ S v) as (-> & ->). reflexivity. Qed.
Lemma sh_rc v : rc t' v = rc t v.
Proof. unfold rc. destruct (sh_info _ _ S v) as (-> & _). rewrite (sh_rows _ _ S). reflexivity. Qed.
Lemma arranged_shape : arranged t -> arranged t'.
Proof.
  intros A. destruct A as [A1 A2 A3 A4 A5 A6]. unfold nrow, ncol, rowv, colv, den, ent in *.
  constructor; unfold nrow, ncol, rowv, colv, den, ent; rewrite ?(sh_rows _ _ S), ?(sh_rv _ _ S), ?(sh_cv _ _ S); auto.
  - intros i H. rewrite sh_valid. destruct (sh_info _ _ S (nth i (t_rv t) 0)) as (-> & ->). auto.
  - intros i H. rewrite sh_valid. destruct (sh_info _ _ S (nth i (t_cv t) 0)) as (-> & ->). auto.
  - intros v i V. destruct (sh_info _ _ S v) as (-> & ->). apply A5. apply sh_valid. exact V.
Qed.
Lemma related_shape L : related L t -> related L t'.
Proof.
  intros R p Lp G i Hi. unfold related, row_holds, den, ent, nrow, rowv in *. rewrite (sh_rows _ _ S), (sh_rv _ _ S), (sh_cv _ _ S) in *. apply R; auto.
  - rewrite Lp. rewrite (sh_nvar _ _ S). reflexivity.
  - intros v V Gv. apply G; [apply sh_valid; exact V|apply sh_gone; exact Gv].
Qed.
Lemma independent_shape L : independent L t -> independent L t'.
Proof.
  intros R x z. destruct (R x z) as (k & p & K & Lp & Hp & C & G). exists k, p. unfold ncol, colv. rewrite (sh_nvar _ _ S), (sh_cv _ _ S).
  split; [exact K|]. split; [exact Lp|]. split; [exact Hp|]. split; [exact C|]. intros v V Gv. apply G; [apply sh_valid; exact V|apply sh_gone; exact Gv].
Qed.
End Shape.
Lemma shape_upd t v f : (forall x, v_idx (f x) = v_idx x /\ v_row (f x) = v_row x) -> shape t (upd t v f).
Proof. intros H. constructor; try reflexivity. intros u. cbn. destruct (Z.eqb_spec u v) as [->|]; [apply H|auto]. Qed.
Lemma shape_trans t t1 t2 : shape t t1 -> shape t1 t2 -> shape t t2.
Proof.
  intros S1 S2. constructor; try (etransitivity; [apply S2|apply S1]).
  intros u. destruct (sh_info _ _ S1 u) as (<- & <-). apply S2.
Qed.

(** ** swapping *)
Lemma lsw_length {A} (d : A) l i j : length (lsw d l i j) = length l.
Proof. unfold lsw. rewrite !lset_length. reflexivity. Qed.
Lemma nth_lsw {A} (d : A) l i j k : (i < length l)%nat -> (j < length l)%nat ->
  nth k (lsw d l i j) d = if Nat.eqb k j then nth i l d else if Nat.eqb k i then nth j l d else nth k l d.
Proof. intros Hi Hj. unfold lsw. rewrite nth_lset by (rewrite lset_length; exact Hj). rewrite nth_lset by exact Hi. reflexivity. Qed.
Lemma dot_lsw r w i j : i <> j -> (i < length r)%nat -> (j < length r)%nat -> length w = length r -> dot (lsw 0 r i j) (lsw 0 w i j) = dot r w.
Proof.
  intros N Hi Hj Lw. unfold lsw at 1. rewrite !lset_zupd. rewrite !dot_zupd by (rewrite ?zupd_length; lia).
  rewrite nth_zupd, (proj2 (Nat.eqb_neq j i)) by lia. cbn [andb].
  rewrite !nth_lsw by lia. rewrite (proj2 (Nat.eqb_neq i j)) by lia. rewrite !Nat.eqb_refl.
  unfold lsw. rewrite !lset_zupd. rewrite !dot_upd by (rewrite ?zupd_length; lia).
  rewrite nth_zupd, (proj2 (Nat.eqb_neq j i)) by lia. cbn [andb]. ring.
Qed.
Lemma map_lsw {A B} (f : A -> B) d d' l i j : (i < length l)%nat -> (j < length l)%nat -> map f (lsw d l i j) = lsw d' (map f l) i j.
Proof. intros Hi Hj. unfold lsw. rewrite !map_lset. rewrite !(nth_map_d f l d d') by assumption. reflexivity. Qed.

Section SwapRows.
Variables (t : tab) (i j : nat).
Hypothesis A : arranged t.
Hypothesis Hi : (i < nrow t)%nat.
Hypothesis Hj : (j < nrow t)%nat.
Hypothesis N : i <> j.
Let t' := swap_rows t i j.
Lemma swr_nrow : nrow t' = nrow t. Proof. apply lsw_length. Qed.
Lemma swr_cv : t_cv t' = t_cv t. Proof. reflexivity. Qed.
Lemma swr_rowv k : rowv t' k = if Nat.eqb k j then rowv t i else if Nat.eqb k i then rowv t j else rowv t k.
Proof. apply nth_lsw; assumption. Qed.
Lemma swr_row k : nth k (t_rows t') [] = if Nat.eqb k j then nth i (t_rows t) [] else if Nat.eqb k i then nth j (t_rows t) [] else nth k (t_rows t) [].
Proof. apply nth_lsw; rewrite (a_len _ A); assumption. Qed.
Lemma swr_info u : t_info t' u = if u =? rowv t i then vs_idx (Some j) (t_info t u) else if u =? rowv t j then vs_idx (Some i) (t_info t u) else t_info t u.
Proof.
  assert (E1 : nth i (lsw 0 (t_rv t) i j) 0 = rowv t j) by (rewrite nth_lsw by assumption; rewrite (proj2 (Nat.eqb_neq i j)) by lia; rewrite Nat.eqb_refl; reflexivity).
  assert (E2 : nth j (lsw 0 (t_rv t) i j) 0 = rowv t i) by (rewrite nth_lsw by assumption; rewrite Nat.eqb_refl; reflexivity).
  assert (Nv : rowv t i <> rowv t j) by (intros E; apply N; apply (rowv_inj t); assumption).
  unfold t', swap_rows, upd, rowv in *. cbn [t_info w_rows w_info w_rv t_rv]. rewrite E1, E2.
  rewrite (proj2 (Z.eqb_neq _ _) Nv). destruct (Z.eqb_spec u (nth i (t_rv t) 0)) as [->|]; [reflexivity|].
  destruct (Z.eqb_spec u (nth j (t_rv t) 0)) as [->|]; reflexivity.
Qed.
Lemma swr_flags u : vs_idx None (t_info t' u) = vs_idx None (t_info t u).
Proof. rewrite swr_info. destruct (_ =? _); [reflexivity|]. destruct (_ =? _); reflexivity. Qed.
Lemma swr_flag {X} (f : tvar -> X) u : (forall x, f (vs_idx None x) = f x) -> f (t_info t' u) = f (t_info t u).
Proof. intros H. rewrite <- H, swr_flags, H. reflexivity. Qed.
Lemma swr_valid u : valid t' u <-> valid t u. Proof. reflexivity. Qed.
Lemma swr_idx u : v_idx (t_info t' u) = None <-> v_idx (t_info t u) = None.
Proof.
  rewrite swr_info. destruct (Z.eqb_spec u (rowv t i)) as [->|].
  - destruct (a_row _ A _ Hi) as (_ & -> & _). cbn. split; discriminate.
  - destruct (Z.eqb_spec u (rowv t j)) as [->|]; [|reflexivity]. destruct (a_row _ A _ Hj) as (_ & -> & _). cbn. split; discriminate.
Qed.
Lemma swr_arr : arranged t'.
Proof.
  constructor.
  - rewrite swr_nrow. change (t_rows t') with (lsw [] (t_rows t) i j). rewrite lsw_length. apply (a_len _ A).
  - intros k Hk. rewrite swr_nrow in Hk. rewrite swr_row. change (ncol t') with (ncol t).
    destruct (Nat.eqb k j); [apply (a_wid _ A); assumption|]. destruct (Nat.eqb k i); apply (a_wid _ A); assumption.
  - intros k Hk. rewrite swr_nrow in Hk. rewrite swr_rowv, swr_valid.
    destruct (Nat.eqb_spec k j) as [->|Nj].
    { rewrite swr_info, Z.eqb_refl. destruct (a_row _ A _ Hi) as (V & _ & R). cbn. auto. }
    destruct (Nat.eqb_spec k i) as [->|Ni].
    { rewrite swr_info, Z.eqb_refl. rewrite (proj2 (Z.eqb_neq (rowv t j) (rowv t i))) by (intros E; apply N; symmetry; apply (rowv_inj t); assumption).
      destruct (a_row _ A _ Hj) as (V & _ & R). cbn. auto. }
    rewrite swr_info. rewrite (proj2 (Z.eqb_neq (rowv t k) (rowv t i))) by (intros E; apply Ni; apply (rowv_inj t); assumption).
    rewrite (proj2 (Z.eqb_neq (rowv t k) (rowv t j))) by (intros E; apply Nj; apply (rowv_inj t); assumption). apply (a_row _ A). assumption.
  - intros k Hk. change (ncol t') with (ncol t) in Hk. change (colv t' k) with (colv t k). rewrite swr_valid, swr_info.
    pose proof (row_col t i k A Hi Hk). pose proof (row_col t j k A Hj Hk).
    rewrite (proj2 (Z.eqb_neq (colv t k) (rowv t i))) by congruence. rewrite (proj2 (Z.eqb_neq (colv t k) (rowv t j))) by congruence. apply (a_col _ A). assumption.
  - intros v k V. rewrite swr_valid in V. rewrite swr_info, swr_nrow. change (ncol t') with (ncol t). change (colv t' k) with (colv t k).
    destruct (Z.eqb_spec v (rowv t i)) as [->|Ni].
    { intros [= <-]. cbn [v_row vs_idx]. destruct (a_row _ A _ Hi) as (_ & _ & ->). split; [assumption|]. rewrite swr_rowv, Nat.eqb_refl. reflexivity. }
    destruct (Z.eqb_spec v (rowv t j)) as [->|Nj].
    { intros [= <-]. cbn [v_row vs_idx]. destruct (a_row _ A _ Hj) as (_ & _ & ->). split; [assumption|]. rewrite swr_rowv, Nat.eqb_refl, (proj2 (Nat.eqb_neq i j) N). reflexivity. }
    intros E. pose proof (a_inv _ A _ _ V E) as I. destruct (v_row (t_info t v)); [|exact I]. destruct I as (Hk & Ek). split; [exact Hk|].
    rewrite swr_rowv. destruct (Nat.eqb_spec k j) as [->|]; [congruence|]. destruct (Nat.eqb_spec k i) as [->|]; [congruence|]. exact Ek.
  - intros k Hk. rewrite swr_nrow in Hk. unfold den, ent. rewrite swr_row. destruct (Nat.eqb k j); [apply (a_den _ A); assumption|]. destruct (Nat.eqb k i); apply (a_den _ A); assumption.
Qed.
Lemma swr_rc u : valid t u -> v_row (t_info t u) = true -> rc t' u = rc t u.
Proof.
  intros V R. unfold rc. rewrite swr_info. destruct (Z.eqb_spec u (rowv t i)) as [->|].
  - cbn. rewrite swr_row, Nat.eqb_refl. destruct (a_row _ A _ Hi) as (_ & -> & _). reflexivity.
  - destruct (Z.eqb_spec u (rowv t j)) as [->|].
    + cbn. rewrite swr_row, Nat.eqb_refl, (proj2 (Nat.eqb_neq i j) N). destruct (a_row _ A _ Hj) as (_ & -> & _). reflexivity.
    + destruct (v_idx (t_info t u)) as [k|] eqn:E; [|reflexivity]. destruct (at_row _ _ _ A V E R) as (Hk & Ek). rewrite swr_row.
      destruct (Nat.eqb_spec k j) as [->|]; [congruence|]. destruct (Nat.eqb_spec k i) as [->|]; [congruence|]. reflexivity.
Qed.
End SwapRows.

(** ** the last row is removed *)
Section DropLast.
Variables (t : tab).
Hypothesis A : arranged t.
Hypothesis Hn : (0 < nrow t)%nat.
Let last := (nrow t - 1)%nat.
Let t' := let t1 := upd t (rowv t last) (vs_idx None) in w_rows (w_rv t1 (removelast (t_rv t1))) (removelast (t_rows t1)).
Lemma dl_nrow : nrow t' = (nrow t - 1)%nat. Proof. apply removelast_length. Qed.
Lemma dl_rowv k : (k < nrow t - 1)%nat -> rowv t' k = rowv t k. Proof. intros H. apply nth_removelast. exact H. Qed.
Lemma dl_row k : (k < nrow t - 1)%nat -> nth k (t_rows t') [] = nth k (t_rows t) []. Proof. intros H. apply nth_removelast. rewrite (a_len _ A). exact H. Qed.
Lemma dl_info u : t_info t' u = if u =? rowv t last then vs_idx None (t_info t u) else t_info t u.
Proof. unfold t', upd. cbn. destruct (Z.eqb_spec u (rowv t last)) as [->|]; reflexivity. Qed.
Lemma dl_flag {X} (f : tvar -> X) u : (forall x, f (vs_idx None x) = f x) -> f (t_info t' u) = f (t_info t u).
Proof. intros H. rewrite dl_info. destruct (_ =? _); auto. Qed.
Lemma dl_arr : arranged t'.
Proof.
  assert (Hl : (last < nrow t)%nat) by (unfold last; lia).
  constructor.
  - rewrite dl_nrow. unfold t'. cbn. rewrite removelast_length, (a_len _ A). reflexivity.
  - intros k Hk. rewrite dl_nrow in Hk. rewrite dl_row by exact Hk. apply (a_wid _ A). lia.
  - intros k Hk. rewrite dl_nrow in Hk. rewrite dl_rowv by exact Hk. rewrite dl_info.
    rewrite (proj2 (Z.eqb_neq (rowv t k) (rowv t last))); [apply (a_row _ A); lia|]. intros E. apply (rowv_inj t k last A) in E; unfold last in *; lia.
  - intros k Hk. change (ncol t') with (ncol t) in Hk. change (colv t' k) with (colv t k). rewrite dl_info.
    rewrite (proj2 (Z.eqb_neq (colv t k) (rowv t last))); [apply (a_col _ A); lia|]. intros E. apply (row_col t last k A Hl Hk). congruence.
  - intros v k V. rewrite dl_info. destruct (Z.eqb_spec v (rowv t last)) as [->|Nv]; [discriminate|]. intros E. pose proof (a_inv _ A _ _ V E) as I.
    destruct (v_row (t_info t v)); [|exact I]. destruct I as (Hk & Ek). assert (k <> last) by congruence. rewrite dl_nrow, dl_rowv by (unfold last in *; lia). split; [unfold last in *; lia|exact Ek].
  - intros k Hk. rewrite dl_nrow in Hk. unfold den, ent. rewrite dl_row by exact Hk. apply (a_den _ A). lia.
Qed.
Lemma dl_rc u : valid t u -> v_row (t_info t u) = true -> u <> rowv t last -> rc t' u = rc t u.
Proof.
  intros V R Nu. unfold rc. rewrite dl_info. rewrite (proj2 (Z.eqb_neq _ _) Nu). destruct (v_idx (t_info t u)) as [k|] eqn:E; [|reflexivity].
  destruct (at_row _ _ _ A V E R) as (Hk & Ek). apply dl_row. assert (k <> last) by congruence. unfold last in *. lia.
Qed.
End DropLast.

(** ** rows that are marked redundant *)
Record swept (t t' : tab) : Prop := {
  s_cv : t_cv t' = t_cv t; s_dead : t_dead t' = t_dead t; s_nvar : t_nvar t' = t_nvar t; s_ncon : t_ncon t' = t_ncon t;
  s_neq : t_neq t' = t_neq t; s_rat : t_rat t' = t_rat t; s_empty : t_empty t' = t_empty t; s_undo : t_undo t' = t_undo t;
  s_inundo : t_inundo t' = t_inundo t; s_preserve : t_preserve t' = t_preserve t; s_strict : t_strict t' = t_strict t; s_cone : t_cone t' = t_cone t;
  s_keep : forall u, v_zero (t_info t' u) = v_zero (t_info t u) /\ v_frozen (t_info t' u) = v_frozen (t_info t u) /\
                     v_row (t_info t' u) = v_row (t_info t u) /\ v_marked (t_info t' u) = v_marked (t_info t u) /\ v_negated (t_info t' u) = v_negated (t_info t u);
  s_grow : forall u, (v_red (t_info t u) = true -> v_red (t_info t' u) = true) /\ (v_nonneg (t_info t u) = true -> v_nonneg (t_info t' u) = true) /\
                     (v_red (t_info t' u) = false -> v_nonneg (t_info t' u) = v_nonneg (t_info t u));
  s_col : forall u, valid t u -> v_row (t_info t u) = false -> t_info t' u = t_info t u;
  s_rc : forall u, valid t u -> v_row (t_info t u) = true -> v_idx (t_info t' u) <> None -> v_idx (t_info t u) <> None /\ rc t' u = rc t u;
  s_idx : forall u, valid t u -> v_red (t_info t' u) = false -> v_idx (t_info t u) <> None -> v_idx (t_info t' u) <> None;
  s_var : forall u, valid t u -> 0 <= u -> v_nonneg (t_info t u) = false -> v_nonneg (t_info t' u) = true -> v_red (t_info t' u) = true }.
Lemma swept_refl t : swept t t.
Proof. constructor; auto; intros; congruence. Qed.
Lemma swept_valid t t' u : swept t t' -> (valid t' u <-> valid t u).
Proof. intros S. unfold valid. rewrite (s_ncon _ _ S), (s_nvar _ _ S). reflexivity. Qed.
Lemma swept_trans t t1 t2 : swept t t1 -> swept t1 t2 -> swept t t2.
Proof.
  intros S1 S2. constructor; try match goal with |- _ = _ => etransitivity; [apply S2|apply S1] end.
  - intros u. destruct (s_keep _ _ S1 u) as (<- & <- & <- & <- & <-). apply S2.
  - intros u. destruct (s_grow _ _ S1 u) as (R1 & N1 & E1), (s_grow _ _ S2 u) as (R2 & N2 & E2). split; [auto|]. split; [auto|].
    intros R. rewrite (E2 R). apply E1. destruct (v_red (t_info t1 u)); [rewrite R2 in R by reflexivity; discriminate|reflexivity].
  - intros u V R. pose proof (s_col _ _ S1 u V R) as E. rewrite <- E. apply (s_col _ _ S2); [apply (swept_valid _ _ _ S1); exact V|]. rewrite E. exact R.
  - intros u V R I. destruct (s_keep _ _ S1 u) as (_ & _ & Er & _). destruct (s_rc _ _ S2 u) as (I1 & E2); [apply (swept_valid _ _ _ S1); exact V|congruence|exact I|].
    destruct (s_rc _ _ S1 u V R I1) as (I0 & E1). split; [exact I0|congruence].
  - intros u V R I. apply (s_idx _ _ S2); [apply (swept_valid _ _ _ S1); exact V|exact R|]. apply (s_idx _ _ S1); [exact V| |exact I].
    destruct (s_grow _ _ S2 u) as (R2 & _). destruct (v_red (t_info t1 u)); [rewrite R2 in R by reflexivity; discriminate|reflexivity].
  - intros u V P Nn Nn2. destruct (v_nonneg (t_info t1 u)) eqn:E.
    + apply (proj1 (s_grow _ _ S2 u)). apply (s_var _ _ S1); auto.
    + apply (s_var _ _ S2 u); auto. apply (swept_valid _ _ _ S1); exact V.
Qed.
Lemma swept_gone t t' u : swept t t' -> valid t u -> (gone t' u <-> gone t u).
Proof.
  intros S V. unfold gone. destruct (s_keep _ _ S u) as (_ & _ & -> & _). destruct (v_row (t_info t u)) eqn:R; [split; intros (_ & X); discriminate|].
  rewrite (s_col _ _ S u V R). reflexivity.
Qed.
Lemma rc_rowv t i : arranged t -> (i < nrow t)%nat -> forall j, nth j (rc t (rowv t i)) 0 = ent t i j.
Proof. intros A H j. rewrite rc_row by assumption. reflexivity. Qed.
Lemma swept_core L t t' : swept t t' -> arranged t' -> flagged t' -> core L t -> core L t'.
Proof.
  intros S A' F' C. destruct C as [A F Ln Wd R I]. constructor; auto.
  - rewrite (s_ncon _ _ S). exact Ln.
  - rewrite (s_nvar _ _ S). exact Wd.
  - intros p Lp G i Hi. destruct (a_row _ A' _ Hi) as (V & X & Rw). pose proof (proj1 (swept_valid _ _ _ S) V) as V0.
    destruct (s_keep _ _ S (rowv t' i)) as (_ & _ & Er & _). rewrite Er in Rw.
    destruct (s_rc _ _ S _ V0 Rw) as (I0 & E); [congruence|]. destruct (v_idx (t_info t (rowv t' i))) as [k|] eqn:Ek; [|congruence].
    destruct (at_row _ _ _ A V0 Ek Rw) as (Hk & Er0).
    assert (H : row_holds L t p k). { apply R; [rewrite Lp, (s_nvar _ _ S); reflexivity| |exact Hk]. intros v Vv Gv. apply G; [apply (swept_valid _ _ _ S); exact Vv|apply (swept_gone _ _ _ S Vv); exact Gv]. }
    unfold row_holds, den, ent in *. rewrite rc_row in E by assumption. unfold rc in E. rewrite Ek in E. rewrite E, (s_cv _ _ S), <- Er0. exact H.
  - intros x z. destruct (I x z) as (k & p & K & Lp & Hp & Cv & G). exists k, p. unfold ncol, colv. rewrite (s_nvar _ _ S), (s_cv _ _ S).
    split; [exact K|]. split; [exact Lp|]. split; [exact Hp|]. split; [exact Cv|]. intros v V Gv.
    pose proof (proj1 (swept_valid _ _ _ S) V) as V0. apply G; [exact V0|apply (swept_gone _ _ _ S V0); exact Gv].
Qed.
Lemma swept_feas L t t' p : swept t t' -> feas L t p -> feas L t' p.
Proof.
  intros S (Lp & F). split; [rewrite (s_nvar _ _ S); exact Lp|]. intros v V. pose proof (proj1 (swept_valid _ _ _ S) V) as V0. destruct (F v V0) as (F1 & F2).
  destruct (s_keep _ _ S v) as (-> & _). destruct (s_grow _ _ S v) as (R & _ & E). split; [exact F1|]. intros Nn Rd. apply F2; [rewrite <- (E Rd); exact Nn|].
  destruct (v_red (t_info t v)); [rewrite R in Rd by reflexivity; discriminate|reflexivity].
Qed.
Lemma swept_sample ex t t' : swept t t' -> arranged t -> flagged t -> arranged t' -> flagged t' -> sample_ok ex t -> sample_ok ex t'.
Proof.
  intros S A F A' F' D i Hi Nx Nn. destruct (a_row _ A' i) as (V & Ix & Rw); [lia|]. pose proof (proj1 (swept_valid _ _ _ S) V) as V0.
  assert (Rd : v_red (t_info t' (rowv t' i)) = false) by (rewrite (f_rows _ F') by lia; apply Nat.ltb_ge; lia).
  destruct (s_keep _ _ S (rowv t' i)) as (_ & _ & Er & _). rewrite Er in Rw. destruct (s_grow _ _ S (rowv t' i)) as (R & _ & E).
  destruct (s_rc _ _ S _ V0 Rw) as (I0 & Ec); [congruence|]. destruct (v_idx (t_info t (rowv t' i))) as [k|] eqn:Ek; [|congruence].
  destruct (at_row _ _ _ A V0 Ek Rw) as (Hk & Er0).
  assert (Rd0 : v_red (t_info t (rowv t' i)) = false) by (destruct (v_red (t_info t (rowv t' i))); [rewrite R in Rd by reflexivity; discriminate|reflexivity]).
  assert (Hr : (t_red t <= k)%nat). { rewrite <- Er0 in Rd0. rewrite (f_rows _ F) in Rd0 by exact Hk. apply Nat.ltb_ge in Rd0. exact Rd0. }
  unfold cst. rewrite <- rc_rowv by (auto; lia). rewrite Ec, <- Er0, rc_rowv by assumption. apply D; [lia|rewrite Er0; exact Nx|]. rewrite Er0, <- (E Rd). exact Nn.
Qed.
