(** Dropping a local variable, and elimination of a local variable using an
    equality. *)
From Coq Require Import ZArith List Bool Lia Arith Permutation.
From Verif Require Import SeqModel SeqSpec SeqProofs MatModel BMapModel BMapSpec BMapSem BMapLists BMapNorm BMapGauss BMapGauss2 BMapOrder BDupModel BDupProofs BElimModel BElimSpec BElimCols BElimProofs BElimFM BElimVars SimpModel SimpSpec SimpBase.
Import ListNotations.
Open Scope Z_scope.

(** ** removing and inserting an element *)
Definition linsert (l : list Z) (i : nat) (t : Z) : list Z := firstn i l ++ t :: skipn i l.
Lemma ldrop_cons {A} (x : A) l i : ldrop (x :: l) (S i) = x :: ldrop l i. Proof. reflexivity. Qed.
Lemma linsert_cons x l i t : linsert (x :: l) (S i) t = x :: linsert l i t. Proof. reflexivity. Qed.
Lemma ldrop_nil {A} i : ldrop (@nil A) i = []. Proof. unfold ldrop. rewrite firstn_nil, skipn_nil. reflexivity. Qed.
Lemma ldrop_linsert l : forall i t, (i <= length l)%nat -> ldrop (linsert l i t) i = l.
Proof. induction l as [|x l IH]; intros [|i] t H; cbn [length] in H; try lia; try reflexivity. rewrite linsert_cons, ldrop_cons, IH by lia. reflexivity. Qed.
Lemma linsert_ldrop l : forall i, (i < length l)%nat -> linsert (ldrop l i) i (nth i l 0) = l.
Proof. induction l as [|x l IH]; intros [|i] H; cbn [length] in H; try lia; try reflexivity. rewrite ldrop_cons, linsert_cons. cbn [nth]. rewrite IH by lia. reflexivity. Qed.
Lemma linsert_length l i t : length (linsert l i t) = S (length l).
Proof. unfold linsert. rewrite app_length. cbn [length]. rewrite firstn_length, skipn_length. lia. Qed.
Lemma nth_linsert l : forall i t j, (i <= length l)%nat -> nth j (linsert l i t) 0 = if Nat.eqb j i then t else if Nat.ltb j i then nth j l 0 else nth (j - 1) l 0.
Proof.
  induction l as [|x l IH]; intros [|i] t [|j] H; cbn [length] in H; try lia; try reflexivity.
  - cbn. destruct j; reflexivity.
  - cbn. rewrite Nat.sub_0_r. reflexivity.
  - rewrite linsert_cons. cbn [nth]. rewrite IH by lia. change (Nat.eqb (S j) (S i)) with (Nat.eqb j i). change (Nat.ltb (S j) (S i)) with (Nat.ltb j i). destruct (Nat.eqb_spec j i); [reflexivity|]. destruct (Nat.ltb_spec j i); [reflexivity|]. destruct j; [lia|]. cbn. rewrite Nat.sub_0_r. reflexivity.
Qed.
Lemma ldrop_len_le {A} (l : list A) i : (i < length l)%nat -> length (ldrop l i) = (length l - 1)%nat.
Proof. apply ldrop_length. Qed.
Lemma dot_ldrop r : forall o v, nth o r 0 = 0 -> dot r v = dot (ldrop r o) (ldrop v o).
Proof.
  induction r as [|x r IH]; intros [|o] [|y v] H; cbn [nth] in H; try reflexivity; try (rewrite ?ldrop_nil, ?dot_nil_r; reflexivity).
  - subst x. cbn [dot]. change (ldrop (0 :: r) 0) with r. change (ldrop (y :: v) 0) with v. lia.
  - rewrite !ldrop_cons. cbn [dot]. rewrite (IH o v H). reflexivity.
Qed.
Lemma dot_linsert r : forall o v t, (o <= length v)%nat -> dot r (linsert v o t) = dot (ldrop r o) v + t * nth o r 0.
Proof.
  induction r as [|x r IH]; intros o v t H.
  - rewrite ldrop_nil. destruct o; cbn; lia.
  - destruct o as [|o].
    + change (linsert v 0 t) with (t :: v). change (ldrop (x :: r) 0) with r. cbn [dot nth]. ring.
    + destruct v as [|y v]; cbn [length] in H; [lia|]. rewrite linsert_cons, ldrop_cons. cbn [dot nth]. rewrite IH by lia. ring.
Qed.
Lemma linsert_app p e d t : linsert (p ++ e) (length p + d) t = p ++ linsert e d t.
Proof. induction p as [|x p IH]; [reflexivity|]. cbn [app length Nat.add]. rewrite linsert_cons, IH. reflexivity. Qed.
Lemma ldrop_app (p e : list Z) d : ldrop (p ++ e) (length p + d) = p ++ ldrop e d.
Proof. induction p as [|x p IH]; [reflexivity|]. cbn [app length Nat.add]. rewrite ldrop_cons, IH. reflexivity. Qed.
Lemma hd_ldrop (l : list Z) i : hd 0 (ldrop l (S i)) = hd 0 l. Proof. destruct l; reflexivity. Qed.
Lemma hd_linsert (l : list Z) i t : (0 < length l)%nat -> hd 0 (linsert l (S i) t) = hd 0 l. Proof. destruct l; cbn; [lia|reflexivity]. Qed.
Lemma tl_ldrop (l : list Z) i : tl (ldrop l (S i)) = ldrop (tl l) i. Proof. destruct l; [|reflexivity]. cbn [tl]. rewrite !ldrop_nil. reflexivity. Qed.
Lemma map_ldrop {A B} (f : A -> B) l i : map f (ldrop l i) = ldrop (map f l) i.
Proof. unfold ldrop. rewrite map_app, firstn_map, skipn_map. reflexivity. Qed.
Definition bump (d k : nat) : nat := if Nat.ltb k d then k else S k.
Lemma nth_ldrop_bump {A} (l : list A) x d k : (d < length l)%nat -> nth k (ldrop l d) x = nth (bump d k) l x.
Proof. intros H. rewrite nth_ldrop by exact H. unfold bump. destruct (Nat.ltb k d); reflexivity. Qed.
Lemma bump_ne d k : bump d k <> d. Proof. unfold bump. destruct (Nat.ltb_spec k d); lia. Qed.
Lemma bump_le d k j : (k <= j)%nat -> (bump d k <= bump d j)%nat. Proof. unfold bump. destruct (Nat.ltb_spec k d), (Nat.ltb_spec j d); lia. Qed.
Lemma bump_lt d n k : (k < n - 1)%nat -> (bump d k < n)%nat. Proof. unfold bump. destruct (Nat.ltb_spec k d); lia. Qed.
Lemma bump_surj d n k : (k < n)%nat -> k <> d -> (d < n)%nat -> exists k', (k' < n - 1)%nat /\ bump d k' = k.
Proof.
  intros H N Hd. destruct (Nat.lt_ge_cases k d) as [L|G].
  - exists k. split; [lia|]. unfold bump. destruct (Nat.ltb_spec k d); lia.
  - exists (k - 1)%nat. split; [lia|]. unfold bump. destruct (Nat.ltb_spec (k - 1) d); lia.
Qed.
Lemma bump_add o d k : (o + bump d k)%nat = bump (o + d) (o + k). Proof. unfold bump. destruct (Nat.ltb_spec k d), (Nat.ltb_spec (o + k) (o + d)); lia. Qed.

(** ** isl_basic_map_drop_div *)
(** the known definitions other than the one of [d] do not refer to [d] *)
Definition unused (b : bmap) (d : nat) : Prop :=
  forall k, (k < ndiv b)%nat -> k <> d -> hd 0 (nth k (b_div b) []) <> 0 -> nth (2 + nvar b + d) (nth k (b_div b) []) 0 = 0.
Lemma Forall_map_iff {A B} (f : A -> B) (P : A -> Prop) (Q : B -> Prop) l : (forall x, In x l -> (P x <-> Q (f x))) -> (Forall P l <-> Forall Q (map f l)).
Proof. intros H. rewrite Forall_map. rewrite !Forall_forall. split; intros F x Hx; apply (H x Hx); auto. Qed.
Lemma drop_div_ok b d : wf b -> (d < ndiv b)%nat -> zcol (nvar b + d) b -> unused b d ->
  let b' := drop_div b d in
  same_space b b' /\ b_empty b' = b_empty b /\ wf b' /\ ndiv b' = (ndiv b - 1)%nat /\ nvar b' = nvar b /\
  (forall v, system (b_eq b) (b_ineq b) v <-> system (b_eq b') (b_ineq b') (ldrop v (1 + nvar b + d))) /\
  (forall v, length v = (1 + total b)%nat -> (forall k, (k < ndiv b)%nat -> k <> d -> division (nth k (b_div b) []) (nth (1 + nvar b + k) v 0) v) -> divisions (b_div b') (1 + nvar b) (ldrop v (1 + nvar b + d))) /\
  (forall v, length v = (1 + total b)%nat -> divisions (b_div b') (1 + nvar b) (ldrop v (1 + nvar b + d)) -> forall k, (k < ndiv b)%nat -> k <> d -> division (nth k (b_div b) []) (nth (1 + nvar b + k) v 0) v) /\
  (ordered b -> ordered b') /\ (acyclic b -> acyclic b') /\ (denoms (b_div b) -> denoms (b_div b')) /\
  (forall k, (k < ndiv b - 1)%nat -> nth k (b_div b') [] = ldrop (nth (bump d k) (b_div b) []) (2 + nvar b + d)).
Proof.
  intros (We & Wi & Wd) Hd [Ze Zi] U b'. set (o := (1 + nvar b + d)%nat).
  assert (NV : nvar b' = nvar b) by reflexivity. assert (ND : ndiv b' = (ndiv b - 1)%nat) by (unfold ndiv, b', drop_div; cbn [b_div]; rewrite ldrop_length by (rewrite map_length; exact Hd); rewrite map_length; reflexivity).
  assert (RK : forall k, (k < ndiv b - 1)%nat -> nth k (b_div b') [] = ldrop (nth (bump d k) (b_div b) []) (1 + o)).
  { intros k Hk. unfold b', drop_div. cbn [b_div]. rewrite nth_ldrop_bump by (rewrite map_length; exact Hd). rewrite (nth_indep _ [] (ldrop [] (1 + (1 + nvar b + d)))) by (rewrite map_length; apply bump_lt; exact Hk). rewrite (map_nth (fun r => ldrop r _)). reflexivity. }
  assert (LK : forall k, (k < ndiv b)%nat -> length (nth k (b_div b) []) = (2 + total b)%nat) by (intros k Hk; apply rows_nth; assumption).
  assert (HK : forall k, hd 0 (ldrop (nth k (b_div b) []) (1 + o)) = hd 0 (nth k (b_div b) [])) by (intros k; apply hd_ldrop).
  split; [repeat split|]. split; [reflexivity|]. assert (TT : total b = (nvar b + ndiv b)%nat) by reflexivity. assert (T' : total b' = (total b - 1)%nat) by (unfold total; rewrite NV, ND; lia).
  split.
  { split; [|split]; unfold rows_of; rewrite T'; unfold b', drop_div; cbn [b_eq b_ineq b_div].
    - rewrite Forall_map. revert We. apply Forall_impl. intros r Hr. rewrite ldrop_length; lia.
    - rewrite Forall_map. revert Wi. apply Forall_impl. intros r Hr. rewrite ldrop_length; lia.
    - rewrite <- map_ldrop. rewrite Forall_map. assert (F : rows_of (2 + total b) (ldrop (b_div b) d)). { apply (Forall_at (fun r => length r = _) _ [] d Hd) in Wd. apply Wd. } revert F. apply Forall_impl. intros r Hr. rewrite ldrop_length; lia. }
  split; [exact ND|]. split; [exact NV|].
  assert (DIV : forall v k, length v = (1 + total b)%nat -> (k < ndiv b - 1)%nat -> (division (nth (bump d k) (b_div b) []) (nth (1 + nvar b + bump d k) v 0) v <-> division (nth k (b_div b') []) (nth (1 + nvar b + k) (ldrop v o) 0) (ldrop v o))).
  { intros v k Lv Hk. rewrite RK by exact Hk. unfold division. rewrite HK. rewrite nth_ldrop_bump by (unfold o; lia). replace (bump o (1 + nvar b + k)) with (1 + nvar b + bump d k)%nat by (rewrite bump_add; reflexivity). cbn [Nat.add]. rewrite tl_ldrop. pose proof (bump_lt d (ndiv b) k Hk) as BL.
    destruct (Z.eq_dec (hd 0 (nth (bump d k) (b_div b) [])) 0) as [E|E]; [tauto|]. rewrite <- dot_ldrop; [reflexivity|]. specialize (U (bump d k) BL (bump_ne d k) E). rewrite nth_tl. exact U. }
  split.
  { intros v. unfold system, b', drop_div. cbn [b_eq b_ineq]. fold o. rewrite <- (Forall_map_iff (fun r => ldrop r o) (zero_on v)), <- (Forall_map_iff (fun r => ldrop r o) (nonneg_on v)); [reflexivity| |].
    - intros r Hr. unfold nonneg_on. rewrite (dot_ldrop r o v); [reflexivity|]. apply (proj1 (Forall_forall _ _) Zi r Hr).
    - intros r Hr. unfold zero_on. rewrite (dot_ldrop r o v); [reflexivity|]. apply (proj1 (Forall_forall _ _) Ze r Hr). }
  split; [intros v Lv H k Hk; fold (ndiv b') in Hk; rewrite ND in Hk; apply DIV; [exact Lv|exact Hk|]; apply H; [apply bump_lt; exact Hk|apply bump_ne]|].
  split; [intros v Lv H k Hk Nk; destruct (bump_surj d (ndiv b) k Hk Nk Hd) as (k' & Hk' & <-); apply DIV; [exact Lv|exact Hk'|]; apply H; fold (ndiv b'); lia|].
  split; [|split; [|split; [|exact RK]]].
  - intros O k j Hk Hj. rewrite ND in Hk. rewrite RK by exact Hk. rewrite HK. intros N. pose proof (bump_lt d (ndiv b) k Hk) as BL. rewrite NV. rewrite nth_ldrop_bump by (rewrite LK by exact BL; unfold o; lia).
    replace (bump (1 + o) (2 + nvar b + j)) with (2 + nvar b + bump d j)%nat by (rewrite bump_add; unfold o; f_equal; lia). apply O; [exact BL|apply bump_le; exact Hj|exact N].
  - intros (rank & A). exists (fun k => rank (bump d k)). intros k j Hk Hj. rewrite ND in Hk, Hj. rewrite RK by exact Hk. rewrite HK. intros N. pose proof (bump_lt d (ndiv b) k Hk) as BL. rewrite NV. rewrite nth_ldrop_bump by (rewrite LK by exact BL; unfold o; lia).
    replace (bump (1 + o) (2 + nvar b + j)) with (2 + nvar b + bump d j)%nat by (rewrite bump_add; unfold o; f_equal; lia). apply A; [exact BL|apply bump_lt; exact Hj|exact N].
  - unfold denoms. rewrite !(Forall_nth_iff _ _ []). intros D k Hk. fold (ndiv b') in Hk. rewrite ND in Hk. rewrite RK by exact Hk. rewrite HK. apply D. apply bump_lt. exact Hk.
Qed.
Lemma ldrop_zupd l : forall o t, ldrop (zupd l o t) o = ldrop l o.
Proof. induction l as [|x l IH]; intros [|o] t; cbn [zupd]; try reflexivity. rewrite !ldrop_cons, IH. reflexivity. Qed.
(** the local variable is dropped from a system that does not involve it *)
Lemma drop_div_pres b b2 d : good b -> b_rat b = false -> b_empty b = false -> same_space b b2 -> b_empty b2 = false -> ndiv b2 = ndiv b -> wf b2 -> acyclic b2 -> denoms (b_div b2) -> (d < ndiv b)%nat ->
  zcol (nvar b + d) b2 -> unused b2 d ->
  (forall v, length v = (1 + total b)%nat -> hd 0 v = 1 -> system (b_eq b) (b_ineq b) v -> system (b_eq b2) (b_ineq b2) v) ->
  (forall v, length v = (1 + total b)%nat -> hd 0 v = 1 -> system (b_eq b2) (b_ineq b2) v -> exists t, let w := zupd v (1 + nvar b + d) t in
     system (b_eq b) (b_ineq b) w /\ (divisions (b_div b) (1 + nvar b) w -> forall k, (k < ndiv b)%nat -> k <> d -> division (nth k (b_div b2) []) (nth (1 + nvar b + k) w 0) w)) ->
  pres b (drop_div b2 d).
Proof.
  intros G RF EF SS E2 ND W2 A2 D2 Hd Z2 U2 F1 F2. destruct (same_space_nvar _ _ SS) as [NV RT].
  assert (T2 : total b2 = total b) by (unfold total; lia). assert (TT : total b = (nvar b + ndiv b)%nat) by reflexivity.
  destruct (drop_div_ok b2 d W2 ltac:(lia) ltac:(rewrite NV; exact Z2) U2) as (SS' & E' & W' & ND' & NV' & SY & DV1 & _ & _ & A' & D' & _). set (b' := drop_div b2 d) in *. rewrite NV, T2, ?ND in *.
  assert (BW : forall v', length v' = total b -> hd 0 v' = 1 -> system (b_eq b') (b_ineq b') v' -> exists w, length w = (1 + total b)%nat /\ hd 0 w = 1 /\ ldrop w (1 + nvar b + d) = v' /\ system (b_eq b) (b_ineq b) w /\
     (divisions (b_div b) (1 + nvar b) w -> forall k, (k < ndiv b)%nat -> k <> d -> division (nth k (b_div b2) []) (nth (1 + nvar b + k) w 0) w)).
  { intros v' Lv Hv Sv. set (v := linsert v' (1 + nvar b + d) 0). assert (L : length v = (1 + total b)%nat) by (unfold v; rewrite linsert_length; lia).
    assert (DR : ldrop v (1 + nvar b + d) = v') by (apply ldrop_linsert; lia). assert (HV : hd 0 v = 1) by (unfold v; cbn [Nat.add]; rewrite hd_linsert by lia; exact Hv).
    destruct (F2 v L HV) as (t & S1 & S2); [apply SY; rewrite DR; exact Sv|]. exists (zupd v (1 + nvar b + d) t). split; [rewrite zupd_length; exact L|]. split; [cbn [Nat.add]; rewrite hd_zupd_S; exact HV|]. split; [rewrite ldrop_zupd; exact DR|]. split; [exact S1|exact S2]. }
  assert (TB' : total b' = (total b - 1)%nat) by (unfold total in *; lia).
  assert (SS3 : same_space b b') by (eapply same_space_trans; eassumption). assert (E3 : b_empty b' = b_empty b) by congruence.
  apply pres_gen; auto.
  - intros v Lv Hv Sv. rewrite NV'. destruct (BW v ltac:(lia) Hv Sv) as (w & Lw & Hw & Dw & Sw & Fw). rewrite <- Dw. apply DV1; [exact Lw|]. apply Fw. apply G; assumption.
  - congruence.
  - intros F. congruence.
  - intros p e Lp Le Hp Sp. exists (ldrop e d). split; [rewrite ldrop_length; lia|]. rewrite <- ldrop_app. rewrite Lp. apply SY. apply F1; [rewrite app_length; lia| |exact Sp]. rewrite hd_app by (eapply len_ne; exact Lp). apply Hp. exact RF.
  - intros p e Lp Le Hp Sp. destruct (BW (p ++ e)) as (w & Lw & Hw & Dw & Sw & _); [rewrite app_length; lia|rewrite hd_app by (eapply len_ne; exact Lp); apply Hp; exact RF|exact Sp|].
    assert (FN : firstn (1 + nvar b) w = p). { assert (FN : firstn (1 + nvar b) (ldrop w (1 + nvar b + d)) = firstn (1 + nvar b) (p ++ e)) by congruence. rewrite firstn_app, <- Lp, firstn_all, Nat.sub_diag in FN. cbn [firstn] in FN. rewrite app_nil_r in FN. rewrite Lp in FN. rewrite <- FN. unfold ldrop. rewrite firstn_app, firstn_firstn. replace (Nat.min (1 + nvar b) (1 + nvar b + d)) with (1 + nvar b)%nat by lia. rewrite firstn_length. replace (1 + nvar b - Nat.min (1 + nvar b + d) (length w))%nat with O by lia. cbn [firstn]. rewrite app_nil_r. reflexivity. }
    exists (skipn (1 + nvar b) w). split; [rewrite skipn_length; lia|]. rewrite <- FN at 1. rewrite firstn_skipn. exact Sw.
Qed.

(** ** eliminate_div *)
Lemma good_int b d : good b -> (d < ndiv b)%nat -> b_rat b = false /\ b_empty b = false.
Proof.
  intros (_ & _ & _ & _ & R & B) Hd. split; [destruct (b_rat b); [specialize (R eq_refl); lia|reflexivity]|]. destruct (b_empty b) eqn:E; [|reflexivity]. destruct (B E) as [B1 _]. unfold ndiv in Hd. rewrite B1 in Hd. cbn in Hd. lia.
Qed.
(** the definitions after an elimination with an arbitrary equality *)
Lemma elim_divs_any b d eq skip : wf b -> ordered b -> length eq = (1 + total b)%nat -> (d < ndiv b)%nat -> nth (1 + nvar b + d) eq 0 <> 0 ->
  let b' := eliminate_var_using_equality b (nvar b + d) eq skip true in
  ordered b' /\ (denoms (b_div b) -> denoms (b_div b')) /\ unused b' d /\ (forall k, (k <= d)%nat -> nth k (b_div b') [] = nth k (b_div b) []) /\
  (forall v o, hd 0 v = 1 -> dot eq v = 0 -> divisions (b_div b) o v -> divisions (b_div b') o v).
Proof.
  intros (We & Wi & Wd) O L P N. cbn zeta. unfold eliminate_var_using_equality. set (ld := seq_last_non_zero (skipn (1 + nvar b) eq)). set (pos := (nvar b + d)%nat).
  cbn [b_eq b_ineq b_div set_eq set_ineq set_div]. assert (TT : total b = (nvar b + ndiv b)%nat) by reflexivity.
  assert (KEY : forall k, (k < ndiv b)%nat -> let r := nth k (b_div b) [] in let r' := elim_div eq pos true ld k r in
     (hd 0 r = 0 -> hd 0 r' = 0) /\ (0 <= hd 0 r -> 0 <= hd 0 r') /\
     (hd 0 r' <> 0 -> nth (2 + pos) r' 0 = 0) /\
     (forall j, (k <= j)%nat -> hd 0 r' <> 0 -> nth (2 + nvar b + j) r' 0 = 0) /\ ((k <= d)%nat -> r' = r) /\
     (forall e v, hd 0 v = 1 -> dot eq v = 0 -> division r e v -> division r' e v)).
  { intros k Hk. cbn zeta. set (r := nth k (b_div b) []) in *. assert (Ld : length r = (2 + total b)%nat) by (apply rows_nth; assumption).
    pose proof (fun j H => O k j Hk H) as Ok. fold r in Ok. unfold elim_div.
    destruct (Z.eqb_spec (hd 0 r) 0) as [E|E]; [repeat split; auto; tauto|].
    destruct (Z.eqb_spec (nth (2 + pos) r 0) 0) as [E2|E2]; [repeat split; auto; tauto|].
    assert (KD : (d < k)%nat). { destruct (Nat.lt_ge_cases d k) as [|G]; [assumption|]. exfalso. apply E2. apply (Ok d); [exact G|exact E]. }
    destruct (match ld with None => true | Some l => true && Nat.ltb l k end) eqn:EL.
    - pose proof (elim_div_kept eq pos r ltac:(lia) ltac:(unfold pos; lia) N E) as K. cbn zeta in K. destruct (seq_elim (tl r) eq (1 + pos) (hd 0 r)) as [q m]. cbn [fst snd] in K.
      destruct K as (_ & K2 & K3 & K4 & K5 & K6). split; [tauto|]. split; [exact K3|]. split; [intros _; exact K4|]. split; [|split; [lia|intros e v Hv Ev; apply K6; assumption]].
      intros j Hj _. pose proof (last_non_zero_ok (skipn (1 + nvar b) eq)) as LN. fold ld in LN. change (2 + nvar b + j)%nat with (S (1 + nvar b + j)). apply K5; [lia| |apply Ok; [exact Hj|exact E]]. destruct ld as [l|].
      + apply Nat.ltb_lt in EL. destruct LN as (_ & _ & LN). rewrite <- nth_skipn. apply LN. lia.
      + rewrite <- nth_skipn. apply LN.
    - assert (H0 : hd 0 (repeat 0 (length r - 1) ++ [last r 0]) = 0) by (replace (length r - 1)%nat with (S (length r - 2)) by lia; reflexivity).
      rewrite H0. repeat split; try congruence; try lia. intros e v _ _ _. left. exact H0. }
  assert (NT : forall k, (k < ndiv b)%nat -> nth k (elim_divs eq pos true ld 0 (b_div b)) [] = elim_div eq pos true ld k (nth k (b_div b) [])) by (intros k Hk; apply nth_elim_divs; exact Hk).
  split; [|split; [|split; [|split]]].
  - intros k j Hk Hj H. unfold ndiv, nvar in *. cbn [b_div b_param b_in b_out set_div set_eq set_ineq] in *. rewrite elim_divs_length in Hk. rewrite NT in H |- * by exact Hk. apply (KEY k Hk); [exact Hj|exact H].
  - unfold denoms. rewrite !(Forall_nth_iff _ _ []), elim_divs_length. intros D k Hk. rewrite NT by exact Hk. apply (KEY k Hk). apply D. exact Hk.
  - intros k Hk _ H. unfold ndiv, nvar in *. cbn [b_div b_param b_in b_out set_div set_eq set_ineq] in *. rewrite elim_divs_length in Hk. rewrite NT in H |- * by exact Hk. destruct (KEY k Hk) as (_ & _ & K3 & _). exact (K3 H).
  - intros k Hk. rewrite NT by lia. apply (KEY k); lia.
  - intros v o Hv Ev. unfold divisions. rewrite elim_divs_length. intros H k Hk. rewrite NT by exact Hk. apply (KEY k Hk); auto.
Qed.
Lemma drop_eq_div_comm b d i : drop_equality (drop_div b d) i = drop_div (drop_equality b i) d.
Proof. unfold drop_equality, drop_div, set_eq, nvar. cbn. rewrite map_ldrop. reflexivity. Qed.
Definition used (b : bmap) (skip : option nat) (eq : row) : Prop :=
  match skip with Some i => (i < length (b_eq b))%nat /\ nth i (b_eq b) [] = eq | None => True end.
Definition drop_used (b : bmap) (skip : option nat) : bmap := match skip with Some i => drop_equality b i | None => b end.
Lemma eliminate_div_ok b d eq skip : good b -> ordered b -> (d < ndiv b)%nat -> length eq = (1 + total b)%nat -> (nth (1 + nvar b + d) eq 0 = 1 \/ nth (1 + nvar b + d) eq 0 = -1) ->
  used b skip eq -> (forall v, length v = (1 + total b)%nat -> hd 0 v = 1 -> system (b_eq b) (b_ineq b) v -> dot eq v = 0) ->
  let b' := drop_used (eliminate_div b eq skip d true) skip in
  pres b b' /\ ordered b' /\ ndiv b' = (ndiv b - 1)%nat /\ (forall k, (k < d)%nat -> nth k (b_div b') [] = ldrop (nth k (b_div b) []) (2 + nvar b + d)).
Proof.
  intros G O Hd L N US ZE. pose proof G as (W & A & D & I & R & B). destruct (good_int b d G Hd) as [RF EF]. assert (N' : nth (1 + (nvar b + d)) eq 0 <> 0) by (cbn [Nat.add] in *; lia).
  assert (TT : total b = (nvar b + ndiv b)%nat) by reflexivity.
  destruct (elim_system b (nvar b + d) eq skip true W L ltac:(lia) N') as (W1 & (NV1 & ND1 & LE1 & LI1 & E1 & R1 & P1 & I1 & O1) & SY1). destruct (elim_divs_any b d eq skip W O L Hd ltac:(cbn [Nat.add] in *; lia)) as (OR1 & D1 & U1 & K1 & V1).
  cbn zeta. unfold eliminate_div. set (b1 := eliminate_var_using_equality b (nvar b + d) eq skip true) in *.
  replace (drop_used (drop_div b1 d) skip) with (drop_div (drop_used b1 skip) d) by (destruct skip; [symmetry; apply drop_eq_div_comm|reflexivity]).
  set (b2 := drop_used b1 skip).
  assert (B2 : b_ineq b2 = b_ineq b1 /\ b_div b2 = b_div b1 /\ nvar b2 = nvar b1 /\ ndiv b2 = ndiv b1 /\ b_empty b2 = b_empty b1 /\ same_space b1 b2) by (unfold b2; destruct skip; repeat split).
  destruct B2 as (BI & BD & BV & BN & BE & BS). assert (SS2 : same_space b b2) by (eapply same_space_trans; [|exact BS]; repeat split; assumption).
  assert (ZE1 : forall j, (j < length (b_eq b))%nat -> match skip with Some k => Nat.eqb k j | None => false end = false -> zrow (nvar b + d) (nth j (b_eq b1) [])).
  { intros j Hj SK. unfold b1, eliminate_var_using_equality. cbn [b_eq set_eq set_ineq set_div]. rewrite nth_elim_eqs by exact Hj. cbn [Nat.add]. rewrite SK. apply elim_row_ok; [|lia|exact N']. rewrite (rows_nth _ _ _ (proj1 W) Hj). lia. }
  assert (Z2 : zcol (nvar b + d) b2).
  { split.
    - unfold b2. destruct skip as [i|]; cbn [drop_used].
      + unfold drop_equality. cbn [b_eq set_eq]. apply (Forall_nth_iff _ _ []). rewrite ldrop_length by (rewrite LE1; apply US). intros j Hj. rewrite LE1 in Hj. rewrite nth_ldrop_bump by (rewrite LE1; apply US). apply ZE1; [apply bump_lt; exact Hj|]. apply Nat.eqb_neq. intros E. symmetry in E. exact (bump_ne _ _ E).
      + apply (Forall_nth_iff _ _ []). intros j Hj. rewrite LE1 in Hj. apply ZE1; auto.
    - rewrite BI. unfold b1, eliminate_var_using_equality. cbn [b_ineq set_eq set_ineq set_div]. rewrite Forall_map. destruct W as (_ & Wi & _). revert Wi. apply Forall_impl. intros r Lr. apply elim_row_ok; [lia|lia|exact N']. }
  assert (SY2 : forall v, dot eq v = 0 -> (system (b_eq b) (b_ineq b) v <-> system (b_eq b2) (b_ineq b2) v)).
  { intros v Ev. rewrite (SY1 v Ev). unfold system. rewrite BI. apply and_iff_compat_r. unfold b2. destruct skip as [i|]; [|reflexivity]. cbn [drop_used drop_equality b_eq set_eq].
    rewrite (Forall_at (zero_on v) (b_eq b1) [] i) by (rewrite LE1; apply US). split; [tauto|]. intros F. split; [|exact F]. replace (nth i (b_eq b1) []) with eq; [exact Ev|]. unfold b1, eliminate_var_using_equality. cbn [b_eq set_eq set_ineq set_div]. rewrite nth_elim_eqs by apply US. cbn [Nat.add]. rewrite Nat.eqb_refl. symmetry. apply US. }
  assert (U2 : unused b2 d) by (unfold unused in *; rewrite BN, BD, BV; exact U1).
  assert (O2 : ordered b2) by (unfold ordered in *; rewrite BN, BD, BV; exact OR1).
  assert (W2 : wf b2). { unfold wf in *. replace (total b2) with (total b1) by (unfold total; congruence). rewrite BI, BD. split; [|apply W1]. unfold b2. destruct skip as [i|]; [|apply W1]. cbn [drop_used drop_equality b_eq set_eq]. apply (Forall_at (fun r => length r = _) (b_eq b1) [] i); [rewrite LE1; apply US|apply W1]. }
  split.
  - apply drop_div_pres; auto; try congruence; try lia.
    + apply ordered_acyclic. exact O2.
    + rewrite BD. auto.
    + intros v Lv Hv Sv. apply SY2; [|exact Sv]. apply ZE; assumption.
    + intros v Lv Hv Sv. set (c := nth (1 + nvar b + d) eq 0) in *. exists (nth (1 + nvar b + d) v 0 - c * dot eq v). cbn zeta. set (w := zupd v _ _).
      assert (DE : dot eq w = 0). { unfold w. rewrite dot_upd by lia. fold c. destruct N as [-> | ->]; ring. }
      assert (SW : system (b_eq b2) (b_ineq b2) w). { destruct (drop_div_ok b2 d W2 ltac:(lia) ltac:(rewrite BV, NV1; exact Z2) U2) as (_ & _ & _ & _ & _ & SY & _). apply SY. rewrite BV, NV1. unfold w. rewrite ldrop_zupd. rewrite <- NV1, <- BV. apply SY. exact Sv. }
      split; [apply SY2; assumption|]. intros DV k Hk _. rewrite BD. apply V1; auto; [unfold w; cbn [Nat.add]; rewrite hd_zupd_S; exact Hv|]. fold (ndiv b1). lia.
  - destruct (drop_div_ok b2 d W2 ltac:(lia) ltac:(rewrite BV, NV1; exact Z2) U2) as (_ & _ & _ & ND' & _ & _ & _ & _ & O' & _ & _ & RW). split; [auto|]. split; [rewrite ND'; congruence|]. intros k Hk. rewrite RW by lia. unfold bump. destruct (Nat.ltb_spec k d); [|lia]. rewrite BD, K1, BV, NV1 by lia. reflexivity.
Qed.
