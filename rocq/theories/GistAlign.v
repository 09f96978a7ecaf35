(** Alignment of integer divisions. *)
From Coq Require Import ZArith List Bool Arith Lia.
From Verif Require Import SeqModel SeqSpec SeqProofs MatModel MatTheory BMapLists BMapModel BMapSpec BMapSem BMapGauss BMapGauss2 BMapOrder BDupModel BDupProofs LocalModel LocalProofs BElimModel BElimSpec BElimProofs BElimCols SimpModel SimpSpec SimpBase SimpDrop SimpNew SetModel SetSpec SetBase SetLift SetOps SubModel SubBase SubMaps GistModel GistSpec GistFlat GistFull.
Import ListNotations.
Open Scope Z_scope.

(** ** the constraints of an integer division *)
Lemma div_rows d v c : length d = S (length v) -> nth (S c) d 0 = 0 -> (0 < c < length v)%nat -> hd 0 v = 1 ->
  let r := zupd (seq_neg (tl d)) c (hd 0 d) in
  (0 <= dot (zupd (tl d) c (- hd 0 d)) v /\ 0 <= dot (zupd r 0 (hd 0 r + nth c r 0 - 1)) v <-> hd 0 d * nth c v 0 <= dot (tl d) v < hd 0 d * nth c v 0 + hd 0 d).
Proof.
  intros L Z0 Hc Hv r. destruct d as [|m e]; [cbn in L; lia|]. cbn [hd tl nth length] in *. assert (Le : length e = length v) by lia.
  assert (NS : nth c (seq_neg e) 0 = 0) by (unfold seq_neg; etransitivity; [exact (map_nth Z.opp e 0 c)|rewrite Z0; reflexivity]).
  assert (Lr : length r = length v) by (unfold r; rewrite zupd_length, neg_len; exact Le).
  assert (DR : dot r v = - dot e v + m * nth c v 0) by (unfold r; rewrite dot_zupd by (rewrite neg_len; lia); rewrite NS, dot_seq_neg; ring).
  assert (NC : nth c r 0 = m). { unfold r. rewrite nth_zupd, Nat.eqb_refl. destruct (Nat.ltb_spec c (length (seq_neg e))) as [|Q]; [reflexivity|]. rewrite neg_len in Q. lia. }
  rewrite !dot_zupd by lia. rewrite NC, DR, Z0. replace (nth 0 v 0) with 1 by (destruct v; [cbn in Hc; lia|symmetry; exact Hv]). replace (hd 0 r) with (nth 0 r 0) by (destruct r; reflexivity). lia.
Qed.
Lemma add_div_ok b i : wf b -> (i < ndiv b)%nat -> nth (2 + nvar b + i) (nth i (b_div b) []) 0 = 0 -> let d := nth i (b_div b) [] in let b' := add_div_constraints b i in
  wf b' /\ forall v, length v = (1 + total b)%nat -> hd 0 v = 1 ->
    (system (b_eq b') (b_ineq b') v <-> system (b_eq b) (b_ineq b) v /\ hd 0 d * nth (1 + nvar b + i) v 0 <= dot (tl d) v < hd 0 d * nth (1 + nvar b + i) v 0 + hd 0 d).
Proof.
  intros W Hi Z0 d b'. pose proof (div_len b i W Hi) as Ld. fold d in Ld, Z0. assert (Lt : length (tl d) = (1 + total b)%nat) by (destruct d; cbn in *; lia). destruct W as (We & Wi & Wd). split.
  - split; [exact We|]. split; [|exact Wd]. change (rows_of (1 + total b) (b_ineq b')). unfold b', add_div_constraints, add_lower_div_constraint, add_upper_div_constraint. cbn [set_ineq b_ineq b_div]. change (nvar (set_ineq b _)) with (nvar b). fold d. unfold rows_of. rewrite !Forall_app. split; [split; [exact Wi|]|]; (constructor; [|constructor]); rewrite ?zupd_length, ?neg_len; exact Lt.
  - intros v Lv Hv. pose proof (div_rows d v (1 + nvar b + i)) as R. rewrite Ld, Lv in R. specialize (R eq_refl Z0 ltac:(unfold total; lia) Hv). cbv zeta in R. rewrite <- R. unfold system, b', add_div_constraints, add_lower_div_constraint, add_upper_div_constraint. cbn [set_ineq b_ineq b_eq b_div]. change (nvar (set_ineq b _)) with (nvar b). fold d. rewrite !Forall_app, !Forall_cons_iff. unfold nonneg_on. intuition.
Qed.
Lemma same_at_total b b' : same_space b b' -> nvar b' = nvar b.
Proof. intros (A & B & C & _). unfold nvar. congruence. Qed.
(** a new integer division *)
Lemma alloc_same b d : proper b -> length d = (3 + total b)%nat -> nth (2 + total b) d 0 = 0 -> 0 < hd 0 d -> same b (add_div_constraints (alloc_div b d) (ndiv b)).
Proof.
  intros P Ld Z0 D0. pose proof P as (W & A & D & I & R & H). set (b1 := alloc_div b d). set (b' := add_div_constraints b1 (ndiv b)).
  assert (DB : b_div b1 = map (fun r => r ++ [0]) (b_div b) ++ [d]) by reflexivity.
  assert (ND : ndiv b1 = S (ndiv b)) by (unfold ndiv; rewrite DB, app_length, map_length; cbn; lia). assert (NV : nvar b1 = nvar b) by reflexivity. assert (TT : total b1 = S (total b)) by (unfold total; rewrite ND, NV; lia).
  assert (RN : nth (ndiv b) (b_div b1) [] = d). { rewrite DB, app_nth2 by (rewrite map_length; unfold ndiv; lia). rewrite map_length. unfold ndiv. rewrite Nat.sub_diag. reflexivity. }
  assert (RO : forall k, (k < ndiv b)%nat -> nth k (b_div b1) [] = nth k (b_div b) [] ++ [0]). { intros k Hk. rewrite DB, app_nth1 by (rewrite map_length; exact Hk). apply nth_map_pad0. exact Hk. }
  assert (PD : forall n (l : list (list Z)), rows_of n l -> rows_of (S n) (map (fun r => r ++ [0]) l)). { intros n l F. unfold rows_of in *. rewrite Forall_map. revert F. apply Forall_impl. intros r Hr. rewrite app_length. cbn. lia. }
  assert (W1 : wf b1). { destruct W as (We & Wi & Wd). unfold wf. rewrite TT. split; [apply PD; exact We|]. split; [apply PD; exact Wi|]. rewrite DB. apply Forall_app. split; [apply PD; exact Wd|constructor; [exact Ld|constructor]]. }
  destruct (add_div_ok b1 (ndiv b) W1 ltac:(lia)) as [W' SY]; [rewrite RN, NV; unfold total in Z0; rewrite <- Z0 at 2; f_equal; lia|]. rewrite RN, NV, TT in SY. fold b' in W', SY.
  assert (S1 : forall v t, length v = (1 + total b)%nat -> (system (b_eq b1) (b_ineq b1) (v ++ [t]) <-> system (b_eq b) (b_ineq b) v)).
  { intros v t Lv. destruct W as (We & Wi & _). unfold system. cbn [b1 alloc_div b_eq b_ineq]. rewrite <- (Forall_map_iff (fun r => r ++ [0]) (zero_on v)), <- (Forall_map_iff (fun r => r ++ [0]) (nonneg_on v)); [reflexivity| |]; intros r Hr; unfold zero_on, nonneg_on; rewrite dot_pad0; try reflexivity; [pose proof (proj1 (Forall_forall _ _) Wi r Hr)|pose proof (proj1 (Forall_forall _ _) We r Hr)]; cbn beta in *; lia. }
  assert (DT : forall v t, length v = (1 + total b)%nat -> dot (tl d) (v ++ [t]) = dot (firstn (1 + total b) (tl d)) v).
  { intros v t Lv. rewrite (dot_prefix (tl d) (1 + total b)); [f_equal; rewrite firstn_app, Lv, Nat.sub_diag, firstn_all2 by lia; cbn; apply app_nil_r|]. intros j Hj. destruct d as [|m e]; [discriminate Ld|]. cbn [tl nth] in *. destruct (Nat.eq_dec j (1 + total b)) as [->|]; [exact Z0|]. apply nth_overflow. cbn in Ld. lia. }
  assert (SPL : forall v, length v = (2 + total b)%nat -> hd 0 v = 1 -> exists u t, v = u ++ [t] /\ length u = (1 + total b)%nat /\ hd 0 u = 1).
  { intros v Lv Hv. destruct (exists_last (l := v)) as (u & t & ->); [intros ->; discriminate Lv|]. rewrite app_length in Lv. cbn in Lv. exists u, t. split; [reflexivity|]. split; [lia|]. destruct u; [cbn in Lv; lia|exact Hv]. }
  split; [repeat split|]. split.
  - split; [exact W'|]. split.
    { destruct A as (rank & RK). set (M := list_max (map rank (seq 0 (ndiv b)))). exists (fun k => if Nat.ltb k (ndiv b) then rank k else S M). intros k j Hk Hj. change (ndiv b') with (ndiv b1) in *. change (b_div b') with (b_div b1). change (nvar b') with (nvar b). rewrite ND in Hk, Hj.
      assert (MX : forall k, (k < ndiv b)%nat -> (rank k <= M)%nat). { intros x Hx. pose proof (proj1 (list_max_le (map rank (seq 0 (ndiv b))) M) (le_n _)) as F. apply (proj1 (Forall_forall _ _) F). apply in_map, in_seq. lia. }
      destruct (Nat.ltb_spec k (ndiv b)) as [Lk|Lk].
      - rewrite RO by exact Lk. rewrite hd_pad0, nth_pad0. destruct (Nat.ltb_spec j (ndiv b)) as [Lj|Lj]; [apply RK; assumption|]. intros _ N. exfalso. apply N. apply nth_overflow. rewrite (div_len b k W Lk). unfold total. lia.
      - assert (k = ndiv b) by lia. subst k. rewrite RN. destruct (Nat.ltb_spec j (ndiv b)) as [Lj|Lj]; [intros _ _; specialize (MX j Lj); lia|]. assert (j = ndiv b) by lia. subst j. intros _ N. exfalso. apply N. unfold total in Z0. rewrite <- Z0 at 2. f_equal; lia. }
    split. { change (b_div b') with (b_div b1). rewrite DB. apply Forall_app. split; [|constructor; [lia|constructor]]. rewrite Forall_map. revert D. apply Forall_impl. intros r. rewrite hd_pad0. auto. }
    split; [|split; [exact R|]].
    + intros v Lv Hv Sv. change (total b') with (total b1) in Lv. rewrite TT in Lv. destruct (SPL v Lv Hv) as (u & t & -> & Lu & Hu). apply SY in Sv; [|exact Lv|exact Hv]. destruct Sv as (Sv & BD). apply S1 in Sv; [|exact Lu]. pose proof (I u Lu Hu Sv) as DV. intros k Hk. change (b_div b') with (b_div b1) in *. fold (ndiv b1) in Hk. rewrite ND in Hk. change (nvar b') with (nvar b).
      destruct (Nat.eq_dec k (ndiv b)) as [->|Nk]; [rewrite RN; right; exact BD|]. rewrite RO by lia. specialize (DV k ltac:(unfold ndiv in *; lia)). assert (Lk : length (nth k (b_div b) []) = (2 + total b)%nat) by (apply div_len; [exact W|lia]). rewrite app_nth1 by (unfold total in Lu; lia). unfold division in *. rewrite hd_pad0. destruct DV as [DV|DV]; [left; exact DV|right].
      replace (tl (nth k (b_div b) [] ++ [0])) with (tl (nth k (b_div b) []) ++ [0]) by (destruct (nth k (b_div b) []); [discriminate Lk|reflexivity]). rewrite dot_pad0; [exact DV|]. destruct (nth k (b_div b) []); cbn in *; lia.
    + intros F v Lv Hv Sv. change (total b') with (total b1) in Lv. rewrite TT in Lv. destruct (SPL v Lv Hv) as (u & t & -> & Lu & Hu). apply SY in Sv; [|exact Lv|exact Hv]. apply (H F u Lu Hu). apply (S1 u t Lu), Sv.
  - intros q Lq Hq. unfold points, member. change (b_empty b') with (b_empty b). apply and_iff_compat_l. unfold described. change (ndiv b') with (ndiv b1). rewrite ND. split.
    + intros (e & Le & Se). set (t := dot (firstn (1 + total b) (tl d)) (q ++ e) / hd 0 d). exists (e ++ [t]). split; [rewrite app_length; cbn; lia|]. assert (LQ : length (q ++ e) = (1 + total b)%nat) by (rewrite app_length; unfold total; lia). rewrite app_assoc. apply SY; [rewrite app_length; cbn; lia|destruct q; [discriminate Lq|exact Hq]|]. split; [apply S1; assumption|]. rewrite DT by exact LQ. rewrite app_nth2 by (unfold total in LQ; lia). replace (1 + nvar b + ndiv b - length (q ++ e))%nat with 0%nat by (unfold total in LQ; lia). cbn [nth]. unfold t. pose proof (Z.div_mod (dot (firstn (1 + total b) (tl d)) (q ++ e)) (hd 0 d) ltac:(lia)). pose proof (Z.mod_pos_bound (dot (firstn (1 + total b) (tl d)) (q ++ e)) (hd 0 d) ltac:(lia)). lia.
    + intros (e & Le & Se). destruct (exists_last (l := e)) as (e0 & t & ->); [intros ->; discriminate Le|]. rewrite app_length in Le. cbn in Le. exists e0. split; [lia|]. rewrite app_assoc in Se. assert (LQ : length (q ++ e0) = (1 + total b)%nat) by (rewrite app_length; unfold total; lia). apply SY in Se; [|rewrite app_length; cbn; lia|destruct q; [discriminate Lq|exact Hq]]. apply (S1 (q ++ e0) t LQ), Se.
Qed.
(** exchanging two integer divisions *)
Lemma swap_same b i j : proper b -> (i < ndiv b)%nat -> (j < ndiv b)%nat -> same b (swap_div b i j).
Proof.
  intros P Hi Hj. pose proof P as (W & (rank & RK) & D & I & R & H). destruct (swap_div_ok b i j W Hi Hj) as (RN & DN & DV). pose proof RN as (SH & W' & f & g & IF & HS). pose proof SH as (S1 & S2 & S3 & S4 & S5 & S6). split; [apply shape_same; exact SH|]. split.
  - split; [exact W'|]. split.
    { exists (fun k => rank (tr i j k)). intros k c Hk Hc. rewrite S4 in *. destruct (DV k Hk) as (E1 & E2). rewrite E1. change (nvar (swap_div b i j)) with (nvar b). rewrite E2. apply RK; apply tr_lt; assumption. }
    split; [auto|]. split; [apply (renames_implied b); assumption|]. split; [rewrite S5; exact R|]. intros F v Lv Hv Sv. rewrite S6 in F. change (total (swap_div b i j)) with (nvar b + ndiv (swap_div b i j))%nat in Lv. rewrite S4 in Lv. destruct (split_point (1 + nvar b) v (ndiv b)) as (p & e & -> & Lp & Le); [lia|]. apply (HS p e Lp Le) in Sv. apply (H F (p ++ f e)); [|destruct p; [discriminate Lp|exact Hv]|exact Sv]. rewrite app_length. destruct (IF e Le) as (Lf & _). unfold total. lia.
  - intros q Lq _. apply renames_points; assumption.
Qed.

(** ** rows that are the same up to zeros at the end *)
Definition rowlike (d d' : list Z) : Prop := forall c, nth c d 0 = nth c d' 0.
Lemma rowlike_dot : forall d d' v, rowlike d d' -> dot d v = dot d' v.
Proof.
  induction d as [|x d IH]; intros d' v H.
  - symmetry. apply dot_zeros. intros j. rewrite <- H. destruct j; reflexivity.
  - destruct v as [|y v]; [rewrite !dot_nil_r; reflexivity|]. destruct d' as [|x' d'].
    + apply dot_zeros. intros j. rewrite H. destruct j; reflexivity.
    + cbn [dot]. pose proof (H 0%nat) as E. cbn in E. rewrite E, (IH d' v); [reflexivity|]. intros c. exact (H (S c)).
Qed.
Lemma rowlike_tl d d' : rowlike d d' -> rowlike (tl d) (tl d').
Proof. intros H c. pose proof (H (S c)) as E. destruct d, d', c; exact E. Qed.
Lemma rowlike_hd d d' : rowlike d d' -> hd 0 d = hd 0 d'.
Proof. intros H. pose proof (H 0%nat) as E. destruct d, d'; exact E. Qed.
Lemma rowlike_division d d' e v : rowlike d d' -> (division d e v <-> division d' e v).
Proof. intros H. unfold division. rewrite (rowlike_hd d d' H), (rowlike_dot (tl d) (tl d') v (rowlike_tl d d' H)). reflexivity. Qed.
Lemma rowlike_sym d d' : rowlike d d' -> rowlike d' d. Proof. intros H c. symmetry. apply H. Qed.
Lemma rowlike_trans a b c : rowlike a b -> rowlike b c -> rowlike a c. Proof. intros H K x. rewrite H. apply K. Qed.
Lemma rowlike_pad d : rowlike (d ++ [0]) d. Proof. intros c. apply nth_pad0. Qed.

(** integer divisions of which the values are determined by earlier variables *)
Definition explicit (V m : nat) (D : list (list Z)) : Prop :=
  forall k, (k < m)%nat -> 0 < hd 0 (nth k D []) /\ forall c, (2 + V + k <= c)%nat -> nth c (nth k D []) 0 = 0.
Lemma explicit_unique V D m v v' : explicit V m D ->
  (forall k, (k < m)%nat -> division (nth k D []) (nth (1 + V + k) v 0) v) -> (forall k, (k < m)%nat -> division (nth k D []) (nth (1 + V + k) v' 0) v') ->
  (1 + V <= length v)%nat -> (1 + V <= length v')%nat -> firstn (1 + V) v = firstn (1 + V) v' -> forall j, (j < 1 + V + m)%nat -> nth j v 0 = nth j v' 0.
Proof.
  intros EX H H' L L' E. induction j as [j IH] using lt_wf_ind. intros Hj. destruct (Nat.lt_ge_cases j (1 + V)) as [C|C].
  - rewrite <- (nth_firstn_lt v 0 (1 + V) j C), <- (nth_firstn_lt v' 0 (1 + V) j C), E. reflexivity.
  - assert (X : exists k, j = (1 + V + k)%nat) by (exists (j - (1 + V))%nat; lia). destruct X as (k & ->). assert (Hk : (k < m)%nat) by lia. destruct (EX k Hk) as (D0 & Z0). set (d := nth k D []) in *.
    assert (DT : dot (tl d) v = dot (tl d) v').
    { assert (ZT : forall j, (1 + V + k <= j)%nat -> nth j (tl d) 0 = 0). { intros j Hj'. pose proof (Z0 (S j) ltac:(lia)) as Q. destruct d; [destruct j; reflexivity|exact Q]. }
      rewrite (dot_prefix (tl d) (1 + V + k) v ZT), (dot_prefix (tl d) (1 + V + k) v' ZT).
      assert (RL : forall a x y, (forall i, (i < 1 + V + k)%nat -> nth i x 0 = nth i y 0) -> rowlike (firstn (1 + V + k) x) (firstn (1 + V + k) y) -> dot a (firstn (1 + V + k) x) = dot a (firstn (1 + V + k) y)). { intros a x y _ Q. rewrite (dot_comm a), (dot_comm a). apply rowlike_dot. exact Q. }
      apply RL; [intros i Hi; apply IH; lia|]. intros c. rewrite !nth_firstn. destruct (Nat.ltb_spec c (1 + V + k)); [apply IH; lia|reflexivity]. }
    specialize (H k Hk). specialize (H' k Hk). fold d in H, H'. unfold division in H, H'. rewrite DT in H. destruct H as [H|H]; [lia|]. destruct H' as [H'|H']; [lia|]. nia.
Qed.
Lemma explicit_values V D : forall m x, explicit V m D -> length x = (1 + V)%nat -> exists e, length e = m /\ forall k, (k < m)%nat -> division (nth k D []) (nth (1 + V + k) (x ++ e) 0) (x ++ e).
Proof.
  induction m as [|m IH]; intros x EX L; [exists []; split; [reflexivity|intros k Hk; lia]|]. destruct (IH x) as (e & Le & He); [intros k Hk; apply EX; lia|exact L|]. destruct (EX m ltac:(lia)) as (D0 & Z0). set (d := nth m D []) in *. set (t := dot (tl d) (x ++ e) / hd 0 d). exists (e ++ [t]). split; [rewrite app_length; cbn; lia|].
  assert (DT : forall k, (k <= m)%nat -> dot (tl (nth k D [])) (x ++ e ++ [t]) = dot (tl (nth k D [])) (x ++ e)).
  { intros k Hk. destruct (EX k ltac:(lia)) as (_ & Zk). assert (ZT : forall j, (1 + V + k <= j)%nat -> nth j (tl (nth k D [])) 0 = 0). { intros j Hj'. pose proof (Zk (S j) ltac:(lia)) as Q. destruct (nth k D []); [destruct j; reflexivity|exact Q]. }
    rewrite (dot_prefix _ (1 + V + k) _ ZT), (dot_prefix _ (1 + V + k) (x ++ e) ZT). f_equal. rewrite app_assoc, firstn_app. replace (1 + V + k - length (x ++ e))%nat with 0%nat by (rewrite app_length; lia). cbn. apply app_nil_r. }
  intros k Hk. unfold division. destruct (Nat.eq_dec k m) as [->|N].
  - pose proof (DT m (le_n _)) as QD. fold d in QD |- *. right. rewrite QD. rewrite app_assoc, app_nth2 by (rewrite app_length; lia). replace (1 + V + m - length (x ++ e))%nat with 0%nat by (rewrite app_length; lia). cbn [nth]. unfold t. pose proof (Z.div_mod (dot (tl d) (x ++ e)) (hd 0 d) ltac:(lia)). pose proof (Z.mod_pos_bound (dot (tl d) (x ++ e)) (hd 0 d) ltac:(lia)). lia.
  - rewrite DT by lia. rewrite app_assoc, app_nth1 by (rewrite app_length; lia). apply He. lia.
Qed.
Lemma known_explicit b : proper b -> ordered b -> has_known_divs b = true -> explicit (nvar b) (ndiv b) (b_div b).
Proof.
  intros (W & _ & D & _) O K k Hk. unfold has_known_divs in K. rewrite forallb_forall in K. specialize (K _ (nth_In _ [] Hk)). apply negb_true_iff, Z.eqb_neq in K. pose proof (proj1 (Forall_forall _ _) D _ (nth_In _ [] Hk)) as D0. cbn beta in D0. split; [lia|]. intros c Hc. replace c with (2 + nvar b + (c - (2 + nvar b)))%nat by lia. apply O; [exact Hk|lia|exact K].
Qed.

(** ** the alignment *)
Lemma seq_eq_nth : forall a b, seq_eq a b = true -> length a = length b -> a = b.
Proof.
  induction a as [|x a IH]; intros [|y b]; cbn [seq_eq length]; intros H L; try discriminate L; [reflexivity|]. destruct (Z.eqb_spec x y) as [->|]; [|discriminate H]. cbn in H. f_equal. apply IH; [exact H|lia].
Qed.
Lemma same_div_rowlike n i d sd : same_div n i d sd = true -> (2 + n + i <= length d)%nat -> (2 + n + i <= length sd)%nat -> (forall c, (2 + n + i <= c)%nat -> nth c sd 0 = 0) -> rowlike d sd.
Proof.
  intros H L1 L2 Z0 c. unfold same_div in H. apply andb_true_iff in H as [H1 H2]. apply seq_eq_nth in H1; [|rewrite !firstn_length; lia]. destruct (Nat.lt_ge_cases c (2 + n + i)) as [C|C].
  - rewrite <- (nth_firstn_lt d 0 _ c C), <- (nth_firstn_lt sd 0 _ c C), H1. reflexivity.
  - rewrite (Z0 c C). pose proof (first_non_zero_ok (skipn (2 + n + i) d)) as F. destruct (seq_first_non_zero _); [discriminate H2|]. replace c with (2 + n + i + (c - (2 + n + i)))%nat by lia. rewrite <- nth_skipn. apply F.
Qed.

Lemma find_from_ok n i sd : forall ds o,
  match find_from n i ds o sd with
  | Some j => (o <= j < o + length ds)%nat /\ (i <= j)%nat /\ same_div n i (nth (j - o) ds []) sd = true /\ forall k, (o <= k < j)%nat -> (i <= k)%nat -> same_div n i (nth (k - o) ds []) sd = false
  | None => forall k, (o <= k < o + length ds)%nat -> (i <= k)%nat -> same_div n i (nth (k - o) ds []) sd = false
  end.
Proof.
  induction ds as [|d ds IH]; intros o; cbn [find_from]; [cbn; intros k Hk; lia|]. destruct (Nat.leb i o && same_div n i d sd) eqn:E.
  - apply andb_true_iff in E as [E1 E2]. apply Nat.leb_le in E1. rewrite Nat.sub_diag. cbn [length nth]. split; [lia|]. split; [exact E1|]. split; [exact E2|]. intros k Hk. lia.
  - assert (F : (i <= o)%nat -> same_div n i d sd = false). { intros L. destruct (Nat.leb_spec i o); [exact E|lia]. } specialize (IH (S o)).
    assert (SH : forall k, (S o <= k)%nat -> nth (k - o) (d :: ds) [] = nth (k - S o) ds []) by (intros k Hk; replace (k - o)%nat with (S (k - S o)) by lia; reflexivity).
    destruct (find_from n i ds (S o) sd) as [j|].
    + destruct IH as (A & B & C & D). cbn [length]. split; [lia|]. split; [exact B|]. split; [rewrite SH by lia; exact C|]. intros k Hk Hi. destruct (Nat.eq_dec k o) as [->|]; [rewrite Nat.sub_diag; apply F; exact Hi|]. rewrite SH by lia. apply D; lia.
    + cbn [length]. intros k Hk Hi. destruct (Nat.eq_dec k o) as [->|]; [rewrite Nat.sub_diag; apply F; exact Hi|]. rewrite SH by lia. apply IH; lia.
Qed.
Lemma swap_row_rowlike off a b r : nth (off + a) r 0 = 0 -> nth (off + b) r 0 = 0 -> rowlike (swap_row off a b r) r.
Proof.
  intros A B c. unfold swap_row. rewrite !nth_zupd, A, B. destruct (Nat.eqb_spec c (off + b)) as [->|]; cbn [andb]; [destruct (Nat.ltb _ _); [congruence|]|]; destruct (Nat.eqb_spec (off + b) (off + a)) as [E|]; cbn [andb]; try reflexivity.
  - destruct (Nat.ltb _ _); congruence.
  - destruct (Nat.eqb_spec c (off + a)) as [->|]; cbn [andb]; [destruct (Nat.ltb _ _); congruence|reflexivity].
  - destruct (Nat.eqb_spec c (off + a)) as [->|]; cbn [andb]; [destruct (Nat.ltb _ _); congruence|reflexivity].
Qed.
Lemma swap_div_row b i j k : (i < ndiv b)%nat -> (j < ndiv b)%nat -> (k < ndiv b)%nat -> nth k (b_div (swap_div b i j)) [] = swap_row (2 + nvar b) i j (nth (tr i j k) (b_div b) []).
Proof.
  intros Hi Hj Hk. cbn [swap_div b_div set_div]. rewrite (nth_indep _ [] (swap_row (2 + nvar b) i j [])) by (rewrite map_length, lswap_length; exact Hk). rewrite map_nth. f_equal. rewrite nth_lswap by assumption. unfold tr.
  destruct (Nat.eqb_spec k j) as [->|]; [destruct (Nat.eqb_spec j i) as [->|]; reflexivity|]. destruct (Nat.eqb k i); reflexivity.
Qed.
Lemma swap_div_count b i j : ndiv (swap_div b i j) = ndiv b.
Proof. unfold ndiv, swap_div. cbn. rewrite map_length, lswap_length. reflexivity. Qed.

Definition begins (m : nat) (D D' : list (list Z)) : Prop := forall k, (k < m)%nat -> rowlike (nth k D []) (nth k D' []).
Lemma align_loop_ok V src : wf src -> nvar src = V -> explicit V (ndiv src) (b_div src) -> forall m i dst dst', (i + m)%nat = ndiv src -> proper dst -> nvar dst = V -> (i <= ndiv dst)%nat -> begins i (b_div dst) (b_div src) ->
  align_loop m i dst src = Ok dst' ->
  same dst dst' /\ (ndiv src <= ndiv dst')%nat /\ begins (ndiv src) (b_div dst') (b_div src) /\
  (begins (Nat.min (ndiv dst) (ndiv src)) (b_div dst) (b_div src) -> ndiv dst' = Nat.max (ndiv dst) (ndiv src)).
Proof.
  intros WS NS EX. induction m as [|m IH]; intros i dst dst' IM P NV LI B; cbn [align_loop].
  { intros [= <-]. assert (i = ndiv src) by lia. subst i. split; [apply same_refl; exact P|]. split; [exact LI|]. split; [exact B|]. intros _. lia. }
  destruct (Nat.ltb_spec (ndiv dst) i) as [C|_]; [discriminate|]. cbv zeta. assert (Hi : (i < ndiv src)%nat) by lia. destruct (EX i Hi) as (D0 & Z0). set (sd := nth i (b_div src) []) in *. rewrite NS. pose proof (div_len src i WS Hi) as Ls. fold sd in Ls. unfold total in Ls. rewrite NS in Ls. pose proof (proj1 P) as WD.
  assert (ZC : forall k c, (k <= i)%nat -> (i <= c)%nat -> nth (2 + V + c) (nth k (b_div src) []) 0 = 0) by (intros k c Hk Hc; apply (EX k); lia).
  assert (STEP : forall dst1 j, same dst dst1 -> nvar dst1 = V -> (i <= j < ndiv dst1)%nat -> begins i (b_div dst1) (b_div src) -> rowlike (nth j (b_div dst1) []) sd ->
     (begins (Nat.min (ndiv dst) (ndiv src)) (b_div dst) (b_div src) -> j = i /\ ndiv dst1 = Nat.max (ndiv dst) (S i) /\ begins (Nat.min (ndiv dst1) (ndiv src)) (b_div dst1) (b_div src)) ->
     align_loop m (S i) (if Nat.eqb j i then dst1 else swap_div dst1 i j) src = Ok dst' ->
     same dst dst' /\ (ndiv src <= ndiv dst')%nat /\ begins (ndiv src) (b_div dst') (b_div src) /\ (begins (Nat.min (ndiv dst) (ndiv src)) (b_div dst) (b_div src) -> ndiv dst' = Nat.max (ndiv dst) (ndiv src))).
  { intros dst1 j S1 NV1 Hj B1 RL CNT E. pose proof (proj1 (proj2 S1)) as P1. set (dst2 := if Nat.eqb j i then dst1 else swap_div dst1 i j) in *.
    assert (X : same dst1 dst2 /\ nvar dst2 = V /\ ndiv dst2 = ndiv dst1 /\ begins (S i) (b_div dst2) (b_div src)).
    { unfold dst2. destruct (Nat.eqb_spec j i) as [->|N]; [split; [apply same_refl; exact P1|]; split; [exact NV1|]; split; [reflexivity|]; intros k Hk; destruct (Nat.eq_dec k i) as [->|]; [exact RL|apply B1; lia]|].
      split; [apply swap_same; [exact P1|lia|lia]|]. split; [exact NV1|]. split; [apply swap_div_count|]. intros k Hk. rewrite swap_div_row by lia. rewrite NV1.
      destruct (Nat.eq_dec k i) as [->|Nk].
      - replace (tr i j i) with j by (unfold tr; rewrite Nat.eqb_refl; reflexivity). eapply rowlike_trans; [|exact RL]. apply swap_row_rowlike; rewrite (RL _); apply ZC; lia.
      - replace (tr i j k) with k by (unfold tr; destruct (Nat.eqb_spec k i); [lia|]; destruct (Nat.eqb_spec k j); [lia|reflexivity]). eapply rowlike_trans; [|apply B1; lia]. apply swap_row_rowlike; rewrite (B1 k ltac:(lia) _); apply ZC; lia. }
    destruct X as (S2 & NV2 & N2 & B2). destruct (IH (S i) dst2 dst' ltac:(lia) (proj1 (proj2 S2)) NV2 ltac:(lia) B2 E) as (S3 & L3 & B3 & C3). split; [exact (same_trans _ _ _ S1 (same_trans _ _ _ S2 S3))|]. split; [exact L3|]. split; [exact B3|].
    intros BG. destruct (CNT BG) as (-> & N1 & BG1). unfold dst2 in *. rewrite Nat.eqb_refl in *. rewrite (C3 BG1). lia. }
  pose proof (find_from_ok V i sd (b_div dst) 0) as F. destruct (find_from V i (b_div dst) 0 sd) as [j|].
  - destruct F as (F1 & F2 & F3 & F4). rewrite Nat.sub_0_r in F3. cbn [plus] in F1. fold (ndiv dst) in F1. apply STEP; [apply same_refl; exact P|exact NV|lia|exact B| |].
    + apply (same_div_rowlike V i); [exact F3|rewrite (div_len dst j WD) by lia; unfold total; lia|lia|exact Z0].
    + intros BG. assert (j = i). { destruct (Nat.eq_dec j i) as [|N]; [assumption|]. exfalso. specialize (F4 i ltac:(lia) (le_n _)). rewrite Nat.sub_0_r in F4. assert (RL : rowlike (nth i (b_div dst) []) sd) by (apply BG; lia). 
        assert (Li : (i < ndiv dst)%nat) by lia. pose proof (div_len dst i WD Li) as LD. unfold total in LD. rewrite NV in LD.
        assert (Q : same_div V i (nth i (b_div dst) []) sd = true). { unfold same_div. apply andb_true_iff. split.
          - replace (firstn (2 + V + i) sd) with (firstn (2 + V + i) (nth i (b_div dst) [])); [generalize (firstn (2 + V + i) (nth i (b_div dst) [])) as q; intros q; induction q as [|x q IHq]; cbn [seq_eq]; [reflexivity|rewrite Z.eqb_refl; exact IHq]|]. apply (nth_ext _ _ 0 0); [rewrite !firstn_length; lia|]. intros c Hc. rewrite firstn_length in Hc. rewrite !nth_firstn_lt by lia. apply RL.
          - pose proof (first_non_zero_ok (skipn (2 + V + i) (nth i (b_div dst) []))) as FN. destruct (seq_first_non_zero _) as [c|]; [|reflexivity]. destruct FN as (_ & FN & _). exfalso. apply FN. rewrite nth_skipn, (RL _). apply Z0. lia. }
        congruence. }
      split; [assumption|]. split; [lia|exact BG].
  - assert (Li : length (firstn (2 + V + i) sd) = (2 + V + i)%nat) by (rewrite firstn_length; lia). set (d := firstn (2 + V + i) sd ++ repeat 0 (S (ndiv dst) - i)).
    assert (RD : rowlike d sd). { intros c. unfold d. destruct (Nat.lt_ge_cases c (2 + V + i)) as [C|C]; [rewrite app_nth1 by lia; apply nth_firstn_lt; exact C|]. rewrite app_nth2 by lia. rewrite (Z0 c C). apply nth_repeat. }
    assert (Ld : length d = (3 + total dst)%nat) by (unfold d, total; rewrite app_length, repeat_length; lia). assert (DB : b_div (add_div_constraints (alloc_div dst d) (ndiv dst)) = map (fun r => r ++ [0]) (b_div dst) ++ [d]) by reflexivity.
    assert (N1 : ndiv (add_div_constraints (alloc_div dst d) (ndiv dst)) = S (ndiv dst)) by (unfold ndiv at 1; rewrite DB, app_length, map_length; unfold ndiv; cbn; lia).
    assert (RO : forall k, (k < ndiv dst)%nat -> rowlike (nth k (b_div (add_div_constraints (alloc_div dst d) (ndiv dst))) []) (nth k (b_div dst) [])). { intros k Hk. rewrite DB, app_nth1 by (rewrite map_length; exact Hk). rewrite nth_map_pad0 by exact Hk. apply rowlike_pad. }
    assert (RN : nth (ndiv dst) (b_div (add_div_constraints (alloc_div dst d) (ndiv dst))) [] = d). { rewrite DB, app_nth2 by (rewrite map_length; unfold ndiv; lia). rewrite map_length. unfold ndiv. rewrite Nat.sub_diag. reflexivity. }
    apply STEP; [|exact NV|lia| | |].
    + apply alloc_same; [exact P|exact Ld|rewrite (RD _); apply Z0; unfold total; lia|rewrite (rowlike_hd d sd RD); exact D0].
    + intros k Hk. eapply rowlike_trans; [apply RO; lia|apply B; exact Hk].
    + rewrite RN. exact RD.
    + intros BG. assert (EI : ndiv dst = i).
      { destruct (Nat.eq_dec (ndiv dst) i) as [|N]; [assumption|]. exfalso. specialize (F i ltac:(fold (ndiv dst); lia) (le_n _)). rewrite Nat.sub_0_r in F. assert (RL : rowlike (nth i (b_div dst) []) sd) by (apply BG; lia). pose proof (div_len dst i WD ltac:(lia)) as LD. unfold total in LD. rewrite NV in LD.
        assert (Q : same_div V i (nth i (b_div dst) []) sd = true). { unfold same_div. apply andb_true_iff. split.
          - replace (firstn (2 + V + i) sd) with (firstn (2 + V + i) (nth i (b_div dst) [])); [generalize (firstn (2 + V + i) (nth i (b_div dst) [])) as q; intros q; induction q as [|x q IHq]; cbn [seq_eq]; [reflexivity|rewrite Z.eqb_refl; exact IHq]|]. apply (nth_ext _ _ 0 0); [rewrite !firstn_length; lia|]. intros c Hc. rewrite firstn_length in Hc. rewrite !nth_firstn_lt by lia. apply RL.
          - pose proof (first_non_zero_ok (skipn (2 + V + i) (nth i (b_div dst) []))) as FN. destruct (seq_first_non_zero _) as [c|]; [|reflexivity]. destruct FN as (_ & FN & _). exfalso. apply FN. rewrite nth_skipn, (RL _). apply Z0. lia. }
        congruence. }
      split; [exact EI|]. split; [lia|]. rewrite N1. intros k Hk. destruct (Nat.eq_dec k (ndiv dst)) as [->|]; [rewrite RN, EI; exact RD|]. eapply rowlike_trans; [apply RO; lia|apply BG; lia].
Qed.
