(** Proofs about restore_basis. *)
From Coq Require Import ZArith List Bool Lia Arith Permutation.
From Verif Require Import SeqModel SeqSpec MatModel BMapModel BMapSpec BMapSem BElimModel BElimSpec BElimProofs BElimFM TabModel TabSpec TabBase TabPivot TabStep TabBuild TabMap LpModel.
Import ListNotations.
Open Scope Z_scope.

Lemma lset_perm : forall (l : list nat) j y, (j < length l)%nat -> Permutation (y :: l) (nth j l O :: lset l j y).
Proof.
  induction l as [|x l IH]; intros j y H; [cbn in H; lia|]. destruct j as [|j]; cbn [nth lset].
  - apply perm_swap.
  - cbn in H. rewrite perm_swap. rewrite (perm_swap x (nth j l O)). apply perm_skip. apply IH. lia.
Qed.
Lemma lset_app_l : forall (l r : list nat) j y, (j < length l)%nat -> lset (l ++ r) j y = lset l j y ++ r.
Proof. induction l as [|x l IH]; intros r j y H; [cbn in H; lia|]. destruct j; cbn; [reflexivity|]. rewrite IH by (cbn in H; lia). reflexivity. Qed.
Lemma lset_app_r : forall (l : list nat) x y, lset (l ++ [x]) (length l) y = l ++ [y].
Proof. induction l as [|a l IH]; intros x y; cbn; [reflexivity|]. rewrite IH. reflexivity. Qed.
(** the element that was used is removed from the list *)
Lemma extra_perm l j : (j < length l)%nat -> Permutation l (nth j l O :: removelast (lset l j (last l O))).
Proof.
  intros H. destruct (exists_last (l := l)) as (l1 & y & ->); [intros ->; cbn in H; lia|]. rewrite last_last. rewrite app_length in H. cbn in H.
  destruct (Nat.eq_dec j (length l1)) as [->|N].
  - rewrite lset_app_r, removelast_last, nth_middle. symmetry. apply Permutation_cons_append.
  - assert (Hj : (j < length l1)%nat) by lia. rewrite lset_app_l, removelast_last, app_nth1 by exact Hj. rewrite <- Permutation_cons_append. apply lset_perm. exact Hj.
Qed.
Lemma dot_zero : forall a b, (forall j, nth j a 0 * nth j b 0 = 0) -> dot a b = 0.
Proof.
  induction a as [|x a IH]; intros [|y b] H; try reflexivity. cbn [dot]. rewrite (IH b) by (intros j; apply (H (S j))). pose proof (H O) as H0. cbn in H0. lia.
Qed.

Section Basis.
Variables (int : bool) (L : list (list Z)) (t0 : tab).
Hypothesis C0 : core L t0.
Notation cv0 := (t_cv t0).

(** a row cannot be zero in all columns that do not belong to the basis *)
Lemma basis_row t i : represents int L t -> t_nvar t = t_nvar t0 -> (forall v, valid t v -> gone t v -> gone t0 v) -> (i < nrow t)%nat ->
  List.In (rowv t i) cv0 -> exists c, (c < ncol t)%nat /\ ~ List.In (colv t c) cv0 /\ cf t i c <> 0.
Proof.
  intros R Nv G Hi Iv. pose proof (r_core _ _ _ R) as C. pose proof (c_arr _ _ C) as A.
  assert (Nc : t_ncon t = t_ncon t0) by (rewrite <- (c_len _ _ C), <- (c_len _ _ C0); reflexivity).
  destruct (existsb (fun c => negb (existsb (Z.eqb (colv t c)) cv0) && negb (cf t i c =? 0)) (seq 0 (ncol t))) eqn:X.
  { apply existsb_exists in X. destruct X as (c & Hc & X). apply in_seq in Hc. apply andb_true_iff in X. destruct X as (X1 & X2). exists c. split; [lia|]. split.
    - intros H. apply negb_true_iff in X1. assert (T : existsb (Z.eqb (colv t c)) cv0 = true) by (apply existsb_exists; exists (colv t c); split; [exact H|apply Z.eqb_refl]). congruence.
    - apply negb_true_iff in X2. apply Z.eqb_neq. exact X2. }
  exfalso. destruct (In_nth _ _ 0 Iv) as (q & Hq & Eq).
  destruct (c_ind _ _ C0 0 (fun c => if Nat.eqb c q then 1 else 0)) as (k & p & Hk & Lp & Hp & Vp & Gp). rewrite Z.mul_0_r in Hp.
  assert (H : row_holds L t p i).
  { apply (c_rel _ _ C p); [rewrite Nv; exact Lp| |exact Hi]. intros v V Gv. apply Gp; [unfold valid in *; rewrite <- Nv, <- Nc; exact V|apply G; assumption]. }
  unfold row_holds in H. rewrite dot_zero in H.
  - rewrite <- Eq in H. change (nth q cv0 0) with (colv t0 q) in H. rewrite (Vp q Hq), Nat.eqb_refl in H. pose proof (a_den _ A i Hi). nia.
  - intros [|c]; [cbn [nth]; rewrite Hp; lia|]. cbn [nth]. destruct (Nat.lt_ge_cases c (ncol t)) as [Hc|Hc]; [|rewrite (nth_overflow (map (value L p) (t_cv t)) 0) by (rewrite map_length; exact Hc); lia].
    rewrite (nth_indep (map (value L p) (t_cv t)) 0 (value L p 0)) by (rewrite map_length; exact Hc). rewrite map_nth. change (nth c (t_cv t) 0) with (colv t c).
    assert (Ec : nth (S c) (tl (nth i (t_rows t) [])) 0 = cf t i c).
    { unfold cf, ent. destruct (nth i (t_rows t) []); [destruct c; reflexivity|reflexivity]. }
    rewrite Ec. assert (Xc : (negb (existsb (Z.eqb (colv t c)) cv0) && negb (cf t i c =? 0)) = false).
    { apply not_true_iff_false. intros T. apply not_true_iff_false in X. apply X. apply existsb_exists. exists c. split; [apply in_seq; lia|exact T]. }
    apply andb_false_iff in Xc. destruct Xc as [Xc|Xc]; apply negb_false_iff in Xc; [|apply Z.eqb_eq in Xc; rewrite Xc; lia].
    apply existsb_exists in Xc. destruct Xc as (w & Iw & Ew). apply Z.eqb_eq in Ew. destruct (In_nth _ _ 0 Iw) as (q' & Hq' & Eq').
    rewrite Ew, <- Eq'. change (nth q' cv0 0) with (colv t0 q'). rewrite (Vp q' Hq'). destruct (Nat.eqb_spec q' q) as [->|_]; [|lia].
    exfalso. destruct (a_col _ A c Hc) as (_ & _ & H1). destruct (a_row _ A i Hi) as (_ & _ & H2). rewrite Ew, <- Eq', Eq in H1. congruence.
Qed.

(** the state of the loop *)
Record basis_inv (t : tab) (done : list Z) (extra : list nat) : Prop := {
  bi_rep : represents int L t;
  bi_nvar : t_nvar t = t_nvar t0;
  bi_ncol : ncol t = ncol t0;
  bi_gone : forall v, valid t v -> gone t v -> gone t0 v;
  bi_red : forall v, List.In v cv0 -> v_red (t_info t v) = false;
  bi_undo : t_inundo t = true;
  bi_nd : NoDup extra;
  bi_ext : forall c, List.In c extra <-> (c < ncol t)%nat /\ ~ List.In (colv t c) cv0;
  bi_dead : forall c, List.In c extra -> (t_dead t <= c)%nat;
  bi_done : forall v, List.In v done -> List.In v (t_cv t) }.

Lemma col_unique t c c' : arranged t -> (c < ncol t)%nat -> (c' < ncol t)%nat -> colv t c = colv t c' -> c = c'.
Proof. intros A H H' E. destruct (a_col _ A c H) as (_ & I & _). destruct (a_col _ A c' H') as (_ & I' & _). rewrite E in I. congruence. Qed.
Lemma cols_nodup t : arranged t -> NoDup (t_cv t).
Proof. intros A. apply (NoDup_nth _ 0). intros i j Hi Hj E. exact (col_unique t i j A Hi Hj E). Qed.

Lemma basis_loop : forall cv t done extra, basis_inv t done extra -> cv0 = done ++ cv ->
  exists t', restore_basis_loop t cv extra = Ok t' /\ represents int L t' /\ t_nvar t' = t_nvar t0 /\ (forall v, List.In v (t_cv t') <-> List.In v cv0) /\
    (forall u, v_nonneg (t_info t' u) = v_nonneg (t_info t u) /\ v_red (t_info t' u) = v_red (t_info t u) /\ v_zero (t_info t' u) = v_zero (t_info t u)) /\
    t_log t' = t_log t /\ forall p, feas L t' p <-> feas L t p.
Proof.
  assert (Fin : forall t done extra, basis_inv t done extra -> extra = [] \/ cv0 = done -> forall v, List.In v (t_cv t) <-> List.In v cv0).
  { intros t done extra B H v. pose proof (c_arr _ _ (r_core _ _ _ (bi_rep _ _ _ B))) as A. pose proof (cols_nodup t A) as N1. pose proof (cols_nodup t0 (c_arr _ _ C0)) as N2. pose proof (bi_ncol _ _ _ B) as Nl. unfold ncol in Nl.
    destruct H as [E|E].
    - subst extra. assert (I : incl (t_cv t) cv0).
      { intros x Hx. destruct (in_dec Z.eq_dec x cv0) as [|N]; [assumption|]. destruct (In_nth _ _ 0 Hx) as (c & Hc & Ec). exfalso. apply (proj2 (bi_ext _ _ _ B c)). split; [exact Hc|]. unfold colv. rewrite Ec. exact N. }
      split; [apply I|]. apply (NoDup_length_incl N1); [rewrite Nl; constructor|exact I].
    - assert (I : incl cv0 (t_cv t)) by (intros x Hx; rewrite E in Hx; apply (bi_done _ _ _ B x Hx)). split; [|apply I]. apply (NoDup_length_incl N2); [rewrite Nl; constructor|exact I]. }
  induction cv as [|v cv IH]; intros t done extra B E; cbn [restore_basis_loop].
  { exists t. rewrite app_nil_r in E. pose proof (Fin t done extra B (or_intror E)). split; [reflexivity|]. split; [apply B|]. split; [apply B|]. split; [exact H|]. split; [auto|]. split; [reflexivity|]. intros p. reflexivity. }
  destruct extra as [|e extra].
  { exists t. pose proof (Fin t done [] B (or_introl eq_refl)). split; [reflexivity|]. split; [apply B|]. split; [apply B|]. split; [exact H|]. split; [auto|]. split; [reflexivity|]. intros p. reflexivity. }
  set (ex := e :: extra) in *. assert (Iv : List.In v cv0) by (rewrite E; apply in_or_app; right; left; reflexivity).
  assert (E' : cv0 = (done ++ [v]) ++ cv) by (rewrite <- app_assoc; exact E).
  destruct (existsb (Z.eqb v) (t_cv t)) eqn:X.
  { apply existsb_exists in X. destruct X as (w & Iw & Ew). apply Z.eqb_eq in Ew. subst w. apply (IH t (done ++ [v]) ex); [|exact E']. destruct B. constructor; auto.
    intros u Hu. apply in_app_or in Hu. destruct Hu as [Hu|[<-|[]]]; auto. }
  pose proof (bi_rep _ _ _ B) as R. pose proof (r_core _ _ _ R) as C. pose proof (c_arr _ _ C) as A. pose proof (c_flg _ _ C) as F.
  assert (Nc : t_ncon t = t_ncon t0) by (rewrite <- (c_len _ _ C), <- (c_len _ _ C0); reflexivity).
  destruct (In_nth _ _ 0 Iv) as (q & Hq & Eq). change (nth q cv0 0) with (colv t0 q) in Eq. destruct (a_col _ (c_arr _ _ C0) q Hq) as (V0 & I0 & _). rewrite Eq in V0, I0.
  assert (V : valid t v) by (unfold valid in *; rewrite (bi_nvar _ _ _ B), Nc; exact V0).
  assert (Row : exists i, v_idx (t_info t v) = Some i /\ (t_red t <= i < nrow t)%nat /\ rowv t i = v).
  { destruct (v_idx (t_info t v)) as [i|] eqn:Ix.
    - pose proof (a_inv _ A v i V Ix) as Y. destruct (v_row (t_info t v)); destruct Y as (Hi & Ei).
      + exists i. split; [reflexivity|]. split; [|exact Ei]. split; [|exact Hi]. pose proof (f_rows _ F i Hi) as Fr. rewrite Ei, (bi_red _ _ _ B v Iv) in Fr. symmetry in Fr. apply Nat.ltb_ge in Fr. exact Fr.
      + exfalso. apply not_true_iff_false in X. apply X. apply existsb_exists. exists v. split; [|apply Z.eqb_refl]. rewrite <- Ei. apply nth_In. exact Hi.
    - exfalso. destruct (f_gone _ F v V Ix) as (_ & Y). destruct (v_row (t_info t v)) eqn:Rw; [rewrite (bi_red _ _ _ B v Iv) in Y; discriminate|].
      destruct (bi_gone _ _ _ B v V (conj Ix Rw)) as (G & _). congruence. }
  destruct Row as (i & Ix & Hi & Ei). assert (Er : row_of t v = Ok i) by (unfold row_of; rewrite Ix; rewrite (proj2 (Nat.ltb_lt i (nrow t)) (proj2 Hi)); reflexivity).
  rewrite Er. cbn [bind].
  destruct (find (fun j => negb (cf t i (nth j ex O) =? 0)) (seq 0 (length ex))) as [j|] eqn:Fj.
  2:{ exfalso. destruct (basis_row t i R (bi_nvar _ _ _ B) (bi_gone _ _ _ B) (proj2 Hi)) as (c & Hc & Nc' & Nz); [rewrite Ei; exact Iv|].
      assert (Ic : List.In c ex) by (apply (bi_ext _ _ _ B); split; assumption). destruct (In_nth _ _ O Ic) as (j & Hj & Ej).
      pose proof (find_none _ _ Fj j) as Y. cbv beta in Y. rewrite Ej in Y. assert (Ij : List.In j (seq 0 (length ex))) by (apply in_seq; lia). specialize (Y Ij). apply negb_false_iff in Y. apply Z.eqb_eq in Y. exact (Nz Y). }
  apply find_some in Fj. destruct Fj as (Ij & Nz). apply in_seq in Ij. assert (Hj : (j < length ex)%nat) by (clear - Ij; lia). apply negb_true_iff in Nz. apply Z.eqb_neq in Nz.
  set (c := nth j ex O) in *. assert (Ic : List.In c ex) by (apply nth_In; exact Hj).
  destruct (proj1 (bi_ext _ _ _ B c) Ic) as (Hc & Ncv). pose proof (bi_dead _ _ _ B c Ic) as Dc.
  unfold pivot. change (t_inundo (pivot_step t i c)) with (t_inundo t). rewrite (bi_undo _ _ _ B). cbn [bind].
  pose proof (extra_perm ex j Hj) as P. fold c in P. set (ex' := removelast (lset ex j (last ex O))) in *.
  pose proof (Permutation_NoDup P (bi_nd _ _ _ B)) as Nd. inversion_clear Nd as [|? ? Nin Nd'].
  set (t1 := pivot_step t i c).
  assert (Cv : forall k, colv t1 k = if Nat.eqb k c then v else colv t k) by (intros k; rewrite <- Ei; apply (ps_colv t i c Hc k)).
  assert (Ncl : ncol t1 = ncol t) by apply st_ncol.
  assert (Fl : forall X (f : tvar -> X) w, (forall x y z, f (vs_idx y (vs_row z x)) = f x) -> f (t_info t1 w) = f (t_info t w)) by (intros X0 f w; apply (ps_flag t i c A (proj2 Hi) Hc)).
  assert (B1 : basis_inv t1 (done ++ [v]) ex').
  { constructor.
    - exact (st_represents int L t i c R Hi (conj Dc Hc) Nz).
    - apply (bi_nvar _ _ _ B).
    - rewrite Ncl. apply (bi_ncol _ _ _ B).
    - intros w Vw Gw. apply (bi_gone _ _ _ B w Vw). apply (ps_gone t i c A (proj2 Hi) Hc w Vw). exact Gw.
    - intros w Iw. rewrite (Fl _ v_red) by reflexivity. apply (bi_red _ _ _ B w Iw).
    - apply (bi_undo _ _ _ B).
    - exact Nd'.
    - intros k. rewrite Ncl, Cv. destruct (Nat.eqb_spec k c) as [->|Nk].
      + split; [intros H; contradiction|intros (_ & H); contradiction].
      + rewrite <- (bi_ext _ _ _ B k). split; intros H.
        * apply (Permutation_in _ (Permutation_sym P)). right. exact H.
        * apply (Permutation_in _ P) in H. destruct H as [H|H]; [congruence|exact H].
    - intros k Hk. change (t_dead t1) with (t_dead t). apply (bi_dead _ _ _ B k). apply (Permutation_in _ (Permutation_sym P)). right. exact Hk.
    - intros u Hu. apply in_app_or in Hu. destruct Hu as [Hu|[<-|[]]].
      + pose proof (bi_done _ _ _ B u Hu) as H. destruct (In_nth _ _ 0 H) as (k & Hk & Ek). assert (Nk : k <> c).
        { intros ->. apply Ncv. unfold colv. rewrite Ek. rewrite E. apply in_or_app. left. exact Hu. }
        pose proof (Cv k) as Ck. rewrite (proj2 (Nat.eqb_neq k c) Nk) in Ck. unfold colv in Ck. rewrite Ek in Ck. rewrite <- Ck. apply nth_In. change (k < ncol t1)%nat. rewrite Ncl. exact Hk.
      + pose proof (Cv c) as Ck. rewrite Nat.eqb_refl in Ck. rewrite <- Ck. apply nth_In. change (c < ncol t1)%nat. rewrite Ncl. exact Hc. }
  destruct (IH t1 (done ++ [v]) ex' B1 E') as (t' & Et & R' & Nv' & Cv' & Fl' & Lg & Fe). exists t'. split; [exact Et|]. split; [exact R'|]. split; [exact Nv'|]. split; [exact Cv'|]. split; [|split; [exact Lg|]].
  - intros u. destruct (Fl' u) as (-> & -> & ->). split; [apply (Fl _ v_nonneg); reflexivity|]. split; [apply (Fl _ v_red); reflexivity|apply (Fl _ v_zero); reflexivity].
  - intros p. rewrite Fe. exact (st_feas int L t i c R Hi (conj Dc Hc) p).
Qed.
End Basis.

Lemma restore_basis_ok int L t0 t : core L t0 -> represents int L t -> t_nvar t = t_nvar t0 -> ncol t = ncol t0 -> t_inundo t = true ->
  (forall v, valid t v -> gone t v -> gone t0 v) -> (forall v, List.In v (t_cv t0) -> v_red (t_info t v) = false) ->
  (forall c, (c < t_dead t)%nat -> List.In (colv t c) (t_cv t0)) ->
  exists t', restore_basis t (t_cv t0) = Ok t' /\ represents int L t' /\ t_nvar t' = t_nvar t0 /\ (forall v, List.In v (t_cv t') <-> List.In v (t_cv t0)) /\
    (forall u, v_nonneg (t_info t' u) = v_nonneg (t_info t u) /\ v_red (t_info t' u) = v_red (t_info t u) /\ v_zero (t_info t' u) = v_zero (t_info t u)) /\
    t_log t' = t_log t /\ forall p, feas L t' p <-> feas L t p.
Proof.
  intros C0 R Nv Nc Iu G Rd Dd. unfold restore_basis. apply (basis_loop int L t0 C0 (t_cv t0) t [] (extra_cols t (t_cv t0))); [|reflexivity].
  assert (Ex : forall c, List.In c (extra_cols t (t_cv t0)) <-> (c < ncol t)%nat /\ ~ List.In (colv t c) (t_cv t0)).
  { intros c. unfold extra_cols. rewrite filter_In, in_seq, negb_true_iff. split.
    - intros (H & X). split; [lia|]. intros I. apply not_true_iff_false in X. apply X. apply existsb_exists. exists (colv t c). split; [exact I|apply Z.eqb_refl].
    - intros (H & N). split; [lia|]. apply not_true_iff_false. intros X. apply existsb_exists in X. destruct X as (w & Iw & Ew). apply Z.eqb_eq in Ew. apply N. rewrite Ew. exact Iw. }
  constructor; auto.
  - unfold extra_cols. apply NoDup_filter. apply seq_NoDup.
  - intros c Ic. apply Ex in Ic. destruct Ic as (_ & N). destruct (Nat.le_gt_cases (t_dead t) c) as [|H]; [assumption|]. exfalso. apply N. apply Dd. exact H.
  - intros v [].
Qed.
