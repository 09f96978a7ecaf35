(** Proofs for isl_basic_map_eliminate_vars. *)
From Coq Require Import ZArith List Bool Lia Arith Permutation.
From Verif Require Import SeqModel SeqSpec SeqProofs MatModel BMapModel BMapSpec BMapSem BMapLists BMapNorm BMapGauss BMapGauss2 BMapOrder BDupModel BDupProofs BElimModel BElimSpec BElimSort BElimCols BElimProofs BElimFM.
Import ListNotations.
Open Scope Z_scope.

(** ** projections and their composition *)
Definition sound_on (X : nat -> Prop) (b b' : bmap) : Prop :=
  forall q q', length q = (1 + nvar b)%nat -> admissible (b_rat b) q -> points b q -> agree X q q' -> points b' q'.
Definition complete_on (X : nat -> Prop) (b b' : bmap) : Prop :=
  forall q', length q' = (1 + nvar b)%nat -> 0 < hd 0 q' -> points b' q' -> exists k q, 0 < k /\ agree X (scale k q') q /\ points b q.
Definition projected (X : nat -> Prop) (b b' : bmap) : Prop := sound_on X b b' /\ (b_rat b = true -> complete_on X b b').

Lemma agree_refl X q : agree X q q. Proof. repeat split. Qed.
Lemma agree_mono (X Y : nat -> Prop) q q' : (forall c, X c -> Y c) -> agree X q q' -> agree Y q q'.
Proof. intros H (A & B & C). split; [exact A|]. split; [exact B|]. intros c N. apply C. auto. Qed.
Lemma hd_scale k q : hd 0 (scale k q) = k * hd 0 q. Proof. destruct q; cbn; ring. Qed.
Lemma scale_scale k j q : scale k (scale j q) = scale (k * j) q.
Proof. unfold scale. rewrite map_map. apply map_ext. intros. ring. Qed.
Lemma admissible_hd rat v v' : hd 0 v' = hd 0 v -> admissible rat v -> admissible rat v'.
Proof. unfold admissible. intros ->. auto. Qed.
Lemma hd_zupd_S q i t : hd 0 (zupd q (S i) t) = hd 0 q. Proof. destruct q; reflexivity. Qed.
Lemma list_eq (l m : list Z) : length l = length m -> (forall k, (k < length l)%nat -> nth k l 0 = nth k m 0) -> l = m.
Proof. intros L H. apply list_ext; [exact L|]. intros k. destruct (Nat.lt_ge_cases k (length l)); [auto|]. rewrite !nth_overflow by lia. reflexivity. Qed.

Lemma projected_trans (X Y Z1 : nat -> Prop) a b c : same_space a b -> (forall x, X x \/ Y x <-> Z1 x) -> (forall x, X x \/ ~ X x) -> (forall x, Y x \/ ~ Y x) ->
  (forall q, length q = (1 + nvar a)%nat -> forall q', agree Z1 q q' -> exists q1, agree X q q1 /\ agree Y q1 q') ->
  projected X a b -> projected Y b c -> projected Z1 a c.
Proof.
  intros SS HZ DX DY MID [S1 C1] [S2 C2]. destruct (same_space_nvar _ _ SS) as [NV RT]. split.
  - intros q q' Lq Hq Pq A. destruct (MID q Lq q' A) as (q1 & A1 & A2). pose proof (proj1 A1) as L1. apply (S2 q1); [lia| |apply (S1 q); auto|exact A2]. rewrite RT. apply (admissible_hd _ q); [apply A1|exact Hq].
  - intros R q' Lq Hq Pq. destruct (C2 ltac:(congruence) q') as (k & q1 & Hk & A1 & P1); [lia|exact Hq|exact Pq|]. destruct A1 as (L1 & H1 & N1). rewrite scale_length in L1. rewrite hd_scale in H1.
    destruct (C1 R q1) as (k2 & q & Hk2 & A2 & P2); [lia|nia|exact P1|]. exists (k2 * k), q. split; [nia|]. split; [|exact P2]. destruct A2 as (L2 & H2 & N2). rewrite scale_length in L2. rewrite hd_scale in H2.
    split; [rewrite scale_length; lia|]. split; [rewrite hd_scale, H2, H1; ring|]. intros x Nx. rewrite N2 by (intros Q; apply Nx, HZ; auto). rewrite nth_scale, N1 by (intros Q; apply Nx, HZ; auto). rewrite !nth_scale. ring.
Qed.
(** adding one variable *)
Lemma projected_add X a b c d : same_space a b -> (forall x, X x \/ ~ X x) -> projected X a b -> projected (fun x => x = d) b c -> projected (fun x => X x \/ x = d) a c.
Proof.
  intros SS DX. apply projected_trans; auto; [tauto|intros x; lia|]. intros q Lq q' (LL & HH & NN).
  destruct (DX d) as [Xd|Xd].
  - exists q'. split; [|apply agree_refl]. split; [exact LL|]. split; [exact HH|]. intros x Nx. apply NN. intros [Q|Q]; [exact (Nx Q)|subst x; exact (Nx Xd)].
  - exists (zupd q' (1 + d) (nth (1 + d) q 0)). split; (split; [rewrite ?zupd_length; congruence|]); (split; [cbn [Nat.add]; rewrite hd_zupd_S; congruence|]); intros x Nx; rewrite nth_zupd.
    + destruct (Nat.eqb_spec (1 + x) (1 + d)) as [E|E]; cbn [andb].
      * replace x with d by lia. destruct (Nat.ltb_spec (1 + d) (length q')); [reflexivity|]. rewrite !nth_overflow by lia. reflexivity.
      * apply NN. intros [Q|Q]; [exact (Nx Q)|lia].
    + destruct (Nat.eqb_spec (1 + x) (1 + d)) as [E|E]; cbn [andb]; [lia|reflexivity].
Qed.
(** followed by a simplification *)
Lemma projected_then X Y a b c : same_space a b -> projected X a b -> simplified Y b c -> projected X a c.
Proof.
  intros SS [S1 C1] (SS2 & _ & _ & _ & P & _). destruct (same_space_nvar _ _ SS) as [NV RT]. rewrite NV, RT in P. split.
  - intros q q' Lq Hq Pq A. apply P; [destruct A as [A _]; lia|apply (admissible_hd _ q); [apply A|exact Hq]|]. apply (S1 q); assumption.
  - intros R q' Lq Hq Pq. apply (C1 R q' Lq Hq). apply P; [exact Lq| |exact Pq]. split; [exact Hq|]. congruence.
Qed.
Lemma projected_mono (X Y : nat -> Prop) a b : (forall x, Y x -> X x) -> (forall q q', agree X q q' -> agree Y q q') -> projected Y a b -> projected X a b.
Proof.
  intros H1 H2 [S1 C1]. split.
  - intros q q' Lq Hq Pq A. apply (S1 q); auto.
  - intros R q' Lq Hq Pq. destruct (C1 R q' Lq Hq Pq) as (k & q & Hk & A & P). exists k, q. split; [exact Hk|]. split; [|exact P]. apply (agree_mono Y); assumption.
Qed.
(** nothing is in an empty basic map *)
Lemma projected_empty (X Y : nat -> Prop) a b : (forall x, X x -> Y x) -> b_empty b = true -> wf b -> projected X a b -> projected Y a b.
Proof.
  intros H E W [S1 C1]. split.
  - intros q q' Lq Hq Pq A. exfalso. specialize (S1 q q Lq Hq Pq (agree_refl _ _)). destruct S1 as [F _]. congruence.
  - intros R q' Lq Hq Pq. destruct Pq as [F _]. congruence.
Qed.

Lemma nth_first (l : list Z) n i : (i < n)%nat -> nth i (firstn n l) 0 = nth i l 0.
Proof. revert n i. induction l as [|x l IH]; intros [|n] [|i] H; cbn; try reflexivity; try lia. apply IH. lia. Qed.
(** from the constraints to the points *)
Lemma projected_system d b b' : nvar b' = nvar b -> ndiv b' = ndiv b -> b_empty b' = b_empty b -> (d < total b)%nat ->
  (forall v t, length v = (1 + total b)%nat -> system (b_eq b) (b_ineq b) v -> system (b_eq b') (b_ineq b') (zupd v (1 + d) t)) ->
  (forall v, length v = (1 + total b)%nat -> system (b_eq b') (b_ineq b') v -> exists k t, 0 < k /\ system (b_eq b) (b_ineq b) (zupd (scale k v) (1 + d) t)) ->
  projected (fun x => x = d) b b'.
Proof.
  intros NV ND EM Hd HS HC. assert (TT : total b = (nvar b + ndiv b)%nat) by reflexivity. split.
  - intros q q' Lq Hq (E & e & Le & Se) (LL & HH & NN). unfold points, member. rewrite EM, ND. split; [exact E|]. exists (skipn (1 + nvar b) (zupd (q ++ e) (1 + d) (nth (1 + d) (q' ++ e) 0))). split; [rewrite skipn_length, zupd_length, app_length; lia|].
    match goal with |- system _ _ ?v => replace v with (zupd (q ++ e) (1 + d) (nth (1 + d) (q' ++ e) 0)) end; [apply HS; [rewrite app_length; lia|exact Se]|].
    apply list_eq; [rewrite zupd_length, !app_length, skipn_length, zupd_length, app_length; lia|]. rewrite zupd_length, app_length. intros k Hk. rewrite nth_zupd. destruct (Nat.lt_ge_cases k (1 + nvar b)) as [L|G].
    + rewrite (app_nth1 q' _ 0 (n := k)) by lia. destruct (Nat.eqb_spec k (1 + d)) as [->|Ne]; cbn [andb].
      * destruct (Nat.ltb_spec (1 + d) (length (q ++ e))) as [|G]; [apply app_nth1; lia|rewrite app_length in G; lia].
      * rewrite app_nth1 by lia. destruct k as [|c]; [destruct q, q'; cbn in *; congruence|]. symmetry. apply (NN c). lia.
    + rewrite (app_nth2 q' _ 0 (n := k)) by lia. rewrite nth_skipn. replace (1 + nvar b + (k - length q'))%nat with k by lia. rewrite nth_zupd. reflexivity.
  - intros R q' Lq Hq (E & e & Le & Se). rewrite ND in Le. destruct (HC (q' ++ e) ltac:(rewrite app_length; lia) Se) as (k & t & Hk & S1).
    set (w := zupd (scale k (q' ++ e)) (1 + d) t) in *. assert (Lw : length w = (1 + total b)%nat) by (unfold w; rewrite zupd_length, scale_length, app_length; lia).
    exists k, (firstn (1 + nvar b) w). split; [exact Hk|]. split.
    + split; [rewrite firstn_length, scale_length; lia|]. assert (NW : forall x, (x < 1 + nvar b)%nat -> x <> (1 + d)%nat -> nth x (firstn (1 + nvar b) w) 0 = nth x (scale k q') 0).
      { intros x Hx Nx. rewrite nth_first by exact Hx. unfold w. rewrite nth_zupd. destruct (Nat.eqb_spec x (1 + d)); [contradiction|]. cbn [andb]. rewrite !nth_scale, app_nth1 by lia. reflexivity. }
      split. { specialize (NW O ltac:(lia) ltac:(lia)). destruct (firstn (1 + nvar b) w), (scale k q'); exact NW. }
      intros c Nc. destruct (Nat.lt_ge_cases (1 + c) (1 + nvar b)) as [L|G]; [apply NW; lia|]. rewrite !nth_overflow; [reflexivity|rewrite scale_length; lia|rewrite firstn_length; lia].
    + split; [congruence|]. exists (skipn (1 + nvar b) w). split; [rewrite skipn_length; lia|]. rewrite firstn_skipn. exact S1.
Qed.

(** ** the initial treatment of the integer divisions *)
Definition range (pos n : nat) : nat -> Prop := fun c => (pos <= c < pos + n)%nat.
Definition loosened (b b' : bmap) : Prop :=
  b' = set_div b (b_div b') /\ length (b_div b') = ndiv b /\ (wf b -> wf b') /\
  forall k, hd 0 (nth k (b_div b') []) = 0 \/ nth k (b_div b') [] = nth k (b_div b) [].
Lemma loosened_refl b : loosened b b.
Proof. split; [destruct b; reflexivity|]. split; [reflexivity|]. split; auto. Qed.
Lemma loosened_trans a b c : loosened a b -> loosened b c -> loosened a c.
Proof.
  intros (A1 & A2 & A3 & A4) (B1 & B2 & B3 & B4). split; [rewrite B1, A1; reflexivity|]. split; [unfold ndiv in B2; congruence|]. split; [auto|].
  intros k. destruct (B4 k) as [Q| ->]; [left; exact Q|apply A4].
Qed.
Lemma nth_map_nil (f : list Z -> list Z) l k : f [] = [] -> nth k (map f l) [] = f (nth k l []).
Proof. intros H. rewrite <- H at 1. apply map_nth. Qed.
Lemma remove_dependent_vars_ok b c : loosened b (remove_dependent_vars b c) /\
  forall k, hd 0 (nth k (b_div (remove_dependent_vars b c)) []) <> 0 -> nth (2 + c) (nth k (b_div (remove_dependent_vars b c)) []) 0 = 0.
Proof.
  unfold remove_dependent_vars. cbn [b_div set_div]. set (f := fun d => _). assert (F0 : f [] = []) by reflexivity.
  assert (FH : forall d, hd 0 (f d) = 0 \/ (f d = d /\ nth (2 + c) d 0 = 0)).
  { intros d. unfold f. destruct (Z.eqb_spec (hd 0 d) 0); [left; assumption|]. destruct (Z.eqb_spec (nth (2 + c) d 0) 0); [right; auto|left]. unfold mark_unknown. destruct d; reflexivity. }
  split; [split; [reflexivity|]; split; [apply map_length|]; split|].
  - intros (A & B & C). unfold wf. assert (T : total (set_div b (map f (b_div b))) = total b) by (unfold total, ndiv, nvar; cbn; rewrite map_length; reflexivity). rewrite T. split; [exact A|]. split; [exact B|]. cbn [b_div set_div]. unfold rows_of in *. rewrite Forall_map. eapply Forall_impl; [|exact C].
    intros d <-. unfold f, mark_unknown. destruct (hd 0 d =? 0); [reflexivity|]. destruct (_ =? 0); [reflexivity|apply zupd_length].
  - intros k. cbn [b_div set_div]. rewrite nth_map_nil by exact F0. destruct (FH (nth k (b_div b) [])) as [H|[H _]]; [left; exact H|right; exact H].
  - intros k. rewrite nth_map_nil by exact F0. destruct (FH (nth k (b_div b) [])) as [H|[-> H]]; [intros; contradiction|intros _; exact H].
Qed.
Lemma remove_dependent_ok : forall n b pos, loosened b (remove_dependent b pos n) /\
  forall k c, range pos n c -> hd 0 (nth k (b_div (remove_dependent b pos n)) []) <> 0 -> nth (2 + c) (nth k (b_div (remove_dependent b pos n)) []) 0 = 0.
Proof.
  induction n as [|n IH]; intros b pos; cbn [remove_dependent]; [split; [apply loosened_refl|]; intros k c H; unfold range in H; lia|].
  destruct (remove_dependent_vars_ok b (pos + n)) as [L1 H1]. set (b1 := remove_dependent_vars b (pos + n)) in *. destruct (IH b1 pos) as [L2 H2]. split; [eapply loosened_trans; eassumption|].
  intros k c Rc N. destruct (Nat.eq_dec c (pos + n)) as [->|]; [|apply H2; [unfold range in *; lia|exact N]]. destruct L2 as (_ & _ & _ & Q). destruct (Q k) as [Q1|Q1]; [contradiction|]. rewrite Q1 in *. apply H1. exact N.
Qed.
Lemma nth_lset_l (l : list (list Z)) i a j : (i < length l)%nat -> nth j (lset l i a) [] = if Nat.eqb j i then a else nth j l [].
Proof.
  revert i j. induction l as [|x l IH]; intros i j H; cbn in H; [lia|]. destruct i as [|i], j as [|j]; cbn; try reflexivity. apply IH. lia.
Qed.
Lemma lset_len {A} (l : list A) i a : length (lset l i a) = length l.
Proof. revert i. induction l as [|x l IH]; intros [|i]; cbn; auto. Qed.
Lemma clear_divs_ok : forall n b pos, (pos + n <= total b)%nat -> loosened b (clear_divs b pos n) /\
  forall k, (k < ndiv b)%nat -> range pos n (nvar b + k) -> hd 0 (nth k (b_div (clear_divs b pos n)) []) = 0.
Proof.
  induction n as [|n IH]; intros b pos Hp; cbn [clear_divs]; [split; [apply loosened_refl|]; intros k Hk H; unfold range in H; lia|].
  destruct (Nat.leb_spec (nvar b) (pos + n)) as [L|G]; [|split; [apply loosened_refl|]; intros k Hk H; unfold range in H; lia].
  set (b1 := set_div b _). set (i := (pos + n - nvar b)%nat). assert (Hi : (i < length (b_div b))%nat) by (unfold i, total, ndiv in *; lia). assert (ND : ndiv b1 = ndiv b) by (unfold ndiv, b1; cbn [b_div set_div]; apply lset_len).
  assert (NN : forall k, nth k (b_div b1) [] = if Nat.eqb k i then repeat 0 (2 + total b) else nth k (b_div b) []) by (intros k; unfold b1; cbn [b_div set_div]; apply nth_lset_l; exact Hi).
  assert (T : total b1 = total b) by (unfold total; rewrite ND; reflexivity).
  assert (L1 : loosened b b1).
  { split; [reflexivity|]. split; [exact ND|]. split.
    - intros (A & B & C). unfold wf. rewrite T. split; [exact A|]. split; [exact B|]. apply rows_iff. intros k Hk. rewrite NN. destruct (Nat.eqb k i); [apply repeat_length|]. apply rows_nth; [exact C|]. unfold ndiv in ND. lia.
    - intros k. rewrite NN. destruct (Nat.eqb k i); [left; reflexivity|right; reflexivity]. }
  destruct (IH b1 pos ltac:(lia)) as [L2 H2]. split; [eapply loosened_trans; eassumption|]. intros k Hk Rk. destruct (Nat.eq_dec k i) as [->|Ne].
  - destruct L2 as (_ & _ & _ & Q). destruct (Q i) as [Q1|Q1]; [exact Q1|]. rewrite Q1, NN, Nat.eqb_refl. reflexivity.
  - apply H2; [lia|]. change (nvar b1) with (nvar b). unfold range, i in *. lia.
Qed.
Lemma loosened_acyclic b b' : loosened b b' -> acyclic b -> acyclic b'.
Proof.
  intros (E & L & _ & H) (rank & A). exists rank. assert (NV : nvar b' = nvar b) by (rewrite E; reflexivity). assert (ND : ndiv b' = ndiv b) by exact L. rewrite NV, ND. intros k j Hk Hj N1 N2. destruct (H k) as [Q|Q]; [contradiction|]. rewrite Q in *. apply A; assumption.
Qed.
Lemma init_ok b pos n : (pos + n <= total b)%nat -> wf b -> acyclic b -> let b' := clear_divs (remove_dependent b pos n) pos n in
  loosened b b' /\ wf b' /\ tidy (range pos n) b'.
Proof.
  intros Hp W A b'. destruct (remove_dependent_ok n b pos) as [L1 H1]. set (b1 := remove_dependent b pos n) in *. assert (NV : nvar b1 = nvar b) by (rewrite (proj1 L1); reflexivity). assert (ND : ndiv b1 = ndiv b) by apply L1.
  destruct (clear_divs_ok n b1 pos) as [L2 H2]; [unfold total in *; lia|]. fold b' in L2, H2. pose proof (loosened_trans _ _ _ L1 L2) as L. split; [exact L|]. split; [apply L; exact W|]. left. split; [apply (loosened_acyclic b); assumption|].
  assert (NV2 : nvar b' = nvar b) by (rewrite (proj1 L); reflexivity). assert (ND2 : ndiv b' = ndiv b) by apply L.
  intros k Hk N. split.
  - intros R. apply N. apply H2; [lia|]. rewrite NV, <- NV2. exact R.
  - intros c R. destruct L2 as (_ & _ & _ & Q). destruct (Q k) as [Q1|Q1]; [contradiction|]. rewrite Q1 in *. apply H1; assumption.
Qed.

(** ** using an equality *)
Lemma Forall_ldrop (P : list Z -> Prop) l i : (i < length l)%nat -> Forall P l <-> P (nth i l []) /\ Forall P (ldrop l i).
Proof.
  intros H. rewrite <- Forall_cons_iff. pose proof (ldrop_perm l [] i H) as P0. split; intros F; [apply (Forall_perm _ _ _ (Permutation_sym P0)); exact F|apply (Forall_perm _ _ _ P0); exact F].
Qed.
Lemma ldrop_in (l : list (list Z)) i r : In r (ldrop l i) -> exists j, j <> i /\ (j < length l)%nat /\ r = nth j l [].
Proof.
  unfold ldrop. rewrite in_app_iff. intros [H|H]; apply (In_nth _ _ []) in H as (j & Hj & <-).
  - rewrite firstn_length in Hj. exists j. split; [lia|]. split; [lia|]. revert i Hj. induction l as [|x l IH] in j |- *; intros [|i] Hj; cbn in *; try lia. destruct j as [|j]; [reflexivity|]. cbn. apply IH. lia.
  - rewrite skipn_length in Hj. exists (S i + j)%nat. split; [lia|]. split; [lia|]. apply nth_skipn.
Qed.
Lemma eq_step_div X b d eq skip : wf b -> tidy X b -> X d -> length eq = (1 + total b)%nat -> (d < total b)%nat -> nth (1 + d) eq 0 <> 0 ->
  tidy X (eliminate_var_using_equality b d eq skip false).
Proof.
  intros (We & Wi & Wd) T Xd L Hd N. unfold eliminate_var_using_equality. set (ld := seq_last_non_zero _). set (b' := set_div _ _). assert (NV : nvar b' = nvar b) by reflexivity.
  assert (ND : ndiv b' = ndiv b) by (unfold ndiv, b'; cbn [b_div set_div]; apply elim_divs_length).
  assert (NN : forall k, (k < ndiv b)%nat -> nth k (b_div b') [] = elim_div eq d false ld k (nth k (b_div b) [])) by (intros k Hk; unfold b'; cbn [b_div set_div]; apply nth_elim_divs; exact Hk).
  destruct T as [[AC AL]|O].
  - apply (tidy_ext X b); [exact NV| |left; split; assumption]. apply (nth_ext _ _ [] []); [exact ND|]. intros k Hk. change (length (b_div b')) with (ndiv b') in Hk. rewrite ND in Hk. rewrite NN by exact Hk. unfold elim_div. destruct (Z.eqb_spec (hd 0 (nth k (b_div b) [])) 0) as [|E]; [reflexivity|].
    rewrite (proj2 (AL k Hk E) d Xd). reflexivity.
  - right. intros k j Hk Hj. rewrite ND in Hk. rewrite NV, NN by exact Hk. pose proof (rows_nth _ _ k Wd Hk) as Ld. specialize (O k j Hk Hj). unfold elim_div. destruct (Z.eqb_spec (hd 0 (nth k (b_div b) [])) 0) as [E|E]; [exact O|]. destruct (_ =? 0); [exact O|].
    pose proof (last_non_zero_ok (skipn (1 + nvar b) eq)) as LN. fold ld in LN. destruct ld as [l|]; cbn [andb].
    + intros F. exfalso. apply F. rewrite Ld. replace (2 + total b - 1)%nat with (S (total b)) by lia. reflexivity.
    + pose proof (elim_div_kept eq d (nth k (b_div b) []) ltac:(lia) ltac:(lia) N E) as K. cbn zeta in K. destruct (seq_elim _ _ _ _) as [q m]. cbn [fst snd] in K. destruct K as (_ & _ & _ & _ & K & _). intros _.
      change (2 + nvar b + j)%nat with (S (1 + nvar b + j)). apply K; [lia| |apply O; exact E]. specialize (LN j). rewrite nth_skipn in LN. exact LN.
Qed.
Lemma eq_step_ok X b d i : wf b -> tidy X b -> X d -> (d < total b)%nat -> (i < length (b_eq b))%nat -> nth (1 + d) (nth i (b_eq b) []) 0 <> 0 ->
  let b' := drop_equality (eliminate_var_using_equality b d (nth i (b_eq b) []) (Some i) false) i in
  same_space b b' /\ wf b' /\ tidy X b' /\ projected (fun x => x = d) b b' /\ (forall c, X c -> zcol c b -> zcol c b') /\ zcol d b' /\ ndiv b' = ndiv b /\ b_empty b' = b_empty b.
Proof.
  intros W T Xd Hd Hi N b'. set (eq := nth i (b_eq b) []) in *. assert (Le : length eq = (1 + total b)%nat) by (apply rows_nth; [apply W|exact Hi]).
  pose proof (elim_system b d eq (Some i) false W Le Hd N) as ES. pose proof (eq_step_div X b d eq (Some i) W T Xd Le Hd N) as T1. set (be := eliminate_var_using_equality b d eq (Some i) false) in *. cbn zeta in ES. destruct ES as ((W1 & W2 & W3) & (NV & ND & LE & LI & EM & RT & BP & BI & BO) & SY).
  assert (EI : nth i (b_eq be) [] = eq). { unfold be, eliminate_var_using_equality. cbn [b_eq set_div set_ineq set_eq]. rewrite nth_elim_eqs by exact Hi. cbn [Nat.add]. rewrite Nat.eqb_refl. reflexivity. }
  assert (TE : total be = total b) by (unfold total; congruence).
  assert (ZC : zcol d b').
  { unfold b', drop_equality. split; cbn [b_eq b_ineq set_eq].
    - apply Forall_forall. intros r Hr. apply ldrop_in in Hr as (j & Nj & Hj & ->). rewrite LE in Hj. unfold be, eliminate_var_using_equality. cbn [b_eq set_div set_ineq set_eq]. rewrite nth_elim_eqs by exact Hj. cbn [Nat.add]. destruct (Nat.eqb_spec i j); [congruence|].
      destruct (Nat.eqb_spec j i); [congruence|]. apply (elim_row_ok eq d (nth j (b_eq b) [])); [rewrite (rows_nth _ _ _ (proj1 W) Hj); lia|lia|exact N].
    - unfold be, eliminate_var_using_equality. cbn [b_ineq set_div set_ineq set_eq]. apply Forall_map. apply Forall_forall. intros r Hr. apply (elim_row_ok eq d r); [rewrite (proj1 (Forall_forall _ _) (proj1 (proj2 W)) r Hr); lia|lia|exact N]. }
  split; [repeat split; assumption|].
  assert (SB : forall v, dot eq v = 0 -> (system (b_eq b) (b_ineq b) v <-> system (b_eq b') (b_ineq b') v)).
  { intros v Hv. rewrite (SY v Hv). unfold system, b', drop_equality. cbn [b_eq b_ineq set_eq]. rewrite (Forall_ldrop _ (b_eq be) i) by lia. rewrite EI. unfold zero_on at 1. tauto. }
  assert (UZ : forall v t, length v = (1 + total b)%nat -> system (b_eq b') (b_ineq b') v -> system (b_eq b') (b_ineq b') (zupd v (1 + d) t)).
  { intros v t Lv [A B]. destruct ZC as [Z1 Z2]. split; (eapply Forall_impl_in; [|eassumption]); intros r Hr; unfold zero_on, nonneg_on; rewrite upd_zero; auto; try lia; [apply (proj1 (Forall_forall _ _) Z1 r Hr)|apply (proj1 (Forall_forall _ _) Z2 r Hr)]. }
  split. { unfold b', drop_equality. split; [|split; [|]]; cbn [b_eq b_ineq b_div set_eq]; [|exact W2|exact W3]. apply (proj1 (Forall_ldrop _ (b_eq be) i ltac:(lia)) W1). }
  split. { apply (tidy_ext X be); [reflexivity|reflexivity|exact T1]. }
  split; [|split; [|split; [exact ZC|split; [exact ND|exact EM]]]].
  - apply projected_system; auto.
    + intros v t Lv Sv. apply UZ; [exact Lv|]. apply SB; [|exact Sv]. apply (proj1 (Forall_forall _ _) (proj1 Sv) eq). apply nth_In. exact Hi.
    + intros v Lv Sv. set (a := nth (1 + d) eq 0) in *. set (f := dot eq v - nth (1 + d) v 0 * a). exists (Z.abs a), (- (Z.sgn a * f)). split; [lia|]. apply SB.
      * rewrite dot_upd by (rewrite scale_length; lia). rewrite dot_scale, nth_scale. fold a. transitivity ((Z.abs a - Z.sgn a * a) * f); [unfold f; ring|]. replace (Z.abs a - Z.sgn a * a) with 0 by lia. reflexivity.
      * apply UZ; [rewrite scale_length; exact Lv|]. destruct Sv as [A B]. split; (eapply Forall_impl; [|eassumption]); intros r; unfold zero_on, nonneg_on; rewrite dot_scale; [intros ->; ring|nia].
  - intros c Xc Zc. assert (zrow c eq) by (apply nth_z; apply Zc). pose proof (eliminate_z c b d eq (Some i) false H Zc) as [Z1 Z2]. fold be in Z1, Z2. split; [unfold b', drop_equality; cbn [b_eq set_eq]; apply ldrop_z; exact Z1|exact Z2].
Qed.

(** ** combining inequalities *)
Section Tab.
Variable hash : list Z -> nat.
Variable no_redundant : bmap -> bool.
Variable tab : bmap -> bool * list kind.
Hypothesis Tab : sound_tab tab.
Variable X : nat -> Prop.

Definition step_post (b : bmap) (d : nat) (b' : bmap) (stop : bool) : Prop :=
  same_space b b' /\ wf b' /\ tidy X b' /\ projected (fun x => x = d) b b' /\ (forall c, X c -> zcol c b -> zcol c b') /\ zcol d b' /\ (b_empty b' = false -> ndiv b' = ndiv b) /\ stop = b_empty b'.

Lemma combined_z d c r s : zrow c r -> zrow c s -> zrow c (combined d r s).
Proof. unfold zrow, combined. intros A B. apply seq_elim_0; assumption. Qed.

Lemma fm_step_ok b d ng : wf b -> tidy X b -> X d -> (d < total b)%nat -> b_empty b = false -> Forall (zrow d) (b_eq b) ->
  exists b' ng' stop, fm_step hash no_redundant tab b d ng = Ok (b', ng', stop) /\ step_post b d b' stop.
Proof.
  intros W T Xd Hd Em ZE. pose proof W as (W1 & W2 & W3). unfold fm_step.
  destruct (fm_loop_ok d (1 + total b) ltac:(lia) (S (length (b_ineq b))) (b_ineq b) (length (b_ineq b)) W2) as (l & -> & R & Zr & IN); [lia|lia|intros; lia|].
  set (b1 := set_ineq b l).
  assert (P1 : step_post b d b1 false).
  { assert (WB : wf b1) by (split; [exact W1|split; [exact R|exact W3]]). split; [repeat split|]. split; [exact WB|]. split; [apply (tidy_ext X b); auto|]. split.
    - apply projected_system; auto; cbn [b_eq b_ineq b1 set_ineq].
      + intros v t Lv [A B]. split.
        * eapply Forall_impl_in; [|exact A]. intros r Hr. unfold zero_on. rewrite upd_zero; [auto|apply (proj1 (Forall_forall _ _) ZE r Hr)|lia].
        * apply Forall_forall. intros r Hr. unfold nonneg_on. rewrite upd_zero; [|apply (proj1 (Forall_forall _ _) Zr r Hr)|lia]. apply IN in Hr as [[Hr _]|(i & j & Hij & O & ->)]; [apply (proj1 (Forall_forall _ _) B r Hr)|].
          destruct (combined_ok d (1 + total b) (nth i (b_ineq b) []) (nth j (b_ineq b) [])) as (_ & _ & a & c & Ha & Hc & _ & D); [apply rows_nth; [exact W2|lia]|apply rows_nth; [exact W2|lia]|lia|exact O|]. rewrite D.
          pose proof (proj1 (Forall_nth_iff (nonneg_on v) _ []) B i ltac:(lia)) as Pi. pose proof (proj1 (Forall_nth_iff (nonneg_on v) _ []) B j ltac:(lia)) as Pj. unfold nonneg_on in *. nia.
      + intros v Lv [A B]. destruct (fm_exists d (1 + total b) (b_ineq b) l v) as (k & t & Hk & F); auto; [lia|intros r Hr Hc; apply IN; left; auto|intros i j Hij O; apply IN; right; exists i, j; auto|].
        exists k, t. split; [exact Hk|]. split; [|exact F]. eapply Forall_impl_in; [|exact A]. intros r Hr. unfold zero_on. rewrite upd_zero; [|apply (proj1 (Forall_forall _ _) ZE r Hr)|rewrite scale_length; lia]. rewrite dot_scale. intros ->. ring.
    - split.
      + intros c Xc [Z1 Z2]. split; [exact Z1|]. cbn [b1 b_ineq set_ineq]. apply Forall_forall. intros r Hr. apply IN in Hr as [[Hr _]|(i & j & Hij & O & ->)]; [apply (proj1 (Forall_forall _ _) Z2 r Hr)|]. apply combined_z; apply nth_z; exact Z2.
      + split; [split; [exact ZE|exact Zr]|]. split; [reflexivity|symmetry; exact Em]. }
  destruct (_ && _); [|exists b1, ng, false; split; [reflexivity|exact P1]].
  destruct P1 as (S1 & WB & TB & PR & ZP & ZD & ND & _). assert (EB : b_empty b1 = false) by exact Em. pose proof (normalize_simplified X b1 WB TB EB) as N1. set (b2 := normalize_constraints b1) in *.
  destruct (dup_simplified X hash b2) as (b3 & p & -> & N2); [apply N1|apply N1|..]. { destruct (b_empty b2) eqn:E2; [right; apply (normalize_shape b1); assumption|left; reflexivity]. }
  destruct (gauss_simplified X b3) as (b4 & p4 & -> & N3 & _); [apply N2|apply N2|].
  destruct (remove_redundancies_ok no_redundant tab Tab X b4) as (b5 & -> & N4 & _); [apply N3|apply N3|].
  exists b5, false, (b_empty b5). split; [reflexivity|]. pose proof (simplified_trans X _ _ _ (simplified_trans X _ _ _ (simplified_trans X _ _ _ N1 N2) N3) N4) as NN.
  split; [eapply same_space_trans; [exact S1|apply NN]|]. split; [apply NN|]. split; [apply NN|]. split; [eapply projected_then; [exact S1|exact PR|exact NN]|]. destruct NN as (_ & _ & _ & _ & _ & NZ & NE).
  split; [intros c Xc Zc; apply NZ; auto|]. split; [apply NZ; auto|]. split; [intros E; destruct (NE E) as [-> _]; reflexivity|reflexivity].
Qed.

Lemma elim_step_ok b d ng : wf b -> tidy X b -> X d -> (d < total b)%nat -> b_empty b = false ->
  exists b' ng' stop, elim_step hash no_redundant tab b d ng = Ok (b', ng', stop) /\ step_post b d b' stop.
Proof.
  intros W T Xd Hd Em. unfold elim_step. pose proof (find_eq_from_ok (1 + d) (b_eq b) 0) as FE. destruct (find_eq_from (1 + d) 0 (b_eq b)) as [i|].
  - destruct FE as (i' & -> & Hi & N). cbn [Nat.add]. destruct (eq_step_ok X b d i' W T Xd Hd Hi N) as (S1 & W1 & T1 & P1 & Z1 & ZD & ND & EM). set (b1 := drop_equality _ _) in *.
    destruct (Nat.ltb i' _); [exists b1, true, false; split; [reflexivity|]; split; [exact S1|]; split; [exact W1|]; split; [exact T1|]; split; [exact P1|]; split; [exact Z1|]; split; [exact ZD|]; split; [auto|congruence]|].
    assert (NV : nvar b1 = nvar b) by (apply same_space_nvar; exact S1).
    destruct (fm_step_ok b1 d true W1 T1 Xd) as (b2 & ng2 & stop & E & S2 & W2 & T2 & P2 & Z2 & ZD2 & ND2 & ST); [unfold total in *; lia|congruence|apply ZD|]. exists b2, ng2, stop. split; [exact E|].
    split; [exact (same_space_trans _ _ _ S1 S2)|]. split; [exact W2|]. split; [exact T2|]. split; [|split; [auto|split; [exact ZD2|split; [intros F; rewrite ND2 by exact F; exact ND|exact ST]]]].
    apply (projected_mono (fun x => x = d) (fun x => x = d \/ x = d)); [tauto|intros q q'; apply agree_mono; auto|]. apply (projected_add (fun x => x = d) b b1 b2 d S1); [intros x; lia|exact P1|exact P2].
  - destruct (fm_step_ok b d ng W T Xd Hd Em) as (b2 & ng2 & stop & E & P); [apply (Forall_nth_iff _ _ []); exact FE|]. exists b2, ng2, stop. auto.
Qed.

Lemma elim_loop_ok : forall n b pos ng b0 Y, wf b -> tidy X b -> (forall c, range pos n c -> X c) -> (pos + n <= total b)%nat -> b_empty b = false ->
  (forall c, Y c \/ ~ Y c) -> (forall c, Y c -> X c) -> (forall c, Y c -> zcol c b) -> same_space b0 b -> ndiv b = ndiv b0 -> projected Y b0 b ->
  exists b' ng', elim_loop hash no_redundant tab b pos n ng = Ok (b', ng') /\ same_space b0 b' /\ wf b' /\ tidy X b' /\ projected (fun c => Y c \/ range pos n c) b0 b' /\
   (b_empty b' = false -> ndiv b' = ndiv b0 /\ forall c, Y c \/ range pos n c -> zcol c b').
Proof.
  induction n as [|n IH]; intros b pos ng b0 Y W T HX Hp Em DY YX ZY SS ND PR.
  - cbn [elim_loop]. exists b, ng. split; [reflexivity|]. split; [exact SS|]. split; [exact W|]. split; [exact T|]. split.
    + apply (projected_mono _ Y); [auto| |exact PR]. intros q q'. apply agree_mono. intros c [H|H]; [exact H|]. unfold range in H. lia.
    + intros _. split; [exact ND|]. intros c [H|H]; [auto|]. unfold range in H. lia.
  - cbn [elim_loop]. destruct (elim_step_ok b (pos + n) ng W T) as (b1 & ng1 & stop & -> & S1 & W1 & T1 & P1 & Z1 & ZD & ND1 & ->); [apply HX; unfold range; lia|lia|exact Em|].
    pose proof (same_space_trans _ _ _ SS S1) as SS1. pose proof (projected_add Y b0 b b1 (pos + n) SS DY PR P1) as PR1. destruct (b_empty b1) eqn:E1.
    + exists b1, ng1. split; [reflexivity|]. split; [exact SS1|]. split; [exact W1|]. split; [exact T1|]. split; [|congruence]. eapply projected_empty; [|exact E1|exact W1|exact PR1]. intros c [H|H]; [left; exact H|right; unfold range; lia].
    + assert (NV : nvar b1 = nvar b) by (apply same_space_nvar; exact S1). specialize (ND1 eq_refl).
      destruct (IH b1 pos ng1 b0 (fun c => Y c \/ c = (pos + n)%nat)) as (b' & ng' & E & SS' & W' & T' & P' & NE'); auto.
      * intros c H. apply HX. unfold range in *. lia.
      * unfold total in *. lia.
      * intros c. destruct (DY c); [left; auto|]. destruct (Nat.eq_dec c (pos + n)); [left; auto|right; tauto].
      * intros c [H| ->]; [auto|apply HX; unfold range; lia].
      * intros c [H| ->]; [apply Z1; auto|exact ZD].
      * congruence.
      * exists b', ng'. split; [exact E|]. split; [exact SS'|]. split; [exact W'|]. split; [exact T'|]. split.
        -- apply (projected_mono _ (fun c => (Y c \/ c = (pos + n)%nat) \/ range pos n c)); [unfold range; intros c [[H|H]|H]; [auto|right; lia|right; lia]| |exact P']. intros q q'. apply agree_mono. unfold range. intros c [H|H]; [auto|]. destruct (Nat.eq_dec c (pos + n)); [auto|right; lia].
        -- intros F. destruct (NE' F) as [A B]. split; [exact A|]. intros c [H|H]; apply B; [auto|]. destruct (Nat.eq_dec c (pos + n)); [auto|right; unfold range in *; lia].
Qed.
End Tab.

Theorem eliminate_vars_ok hash no_redundant tab b pos n : sound_tab tab -> wf b -> acyclic b -> b_empty b = false -> (pos + n <= total b)%nat ->
  exists b', eliminate_vars hash no_redundant tab b pos n = Ok b' /\ same_space b b' /\ wf b' /\ acyclic b' /\ projected (range pos n) b b' /\
   (b_empty b' = false -> ndiv b' = ndiv b /\ forall c, range pos n c -> zcol c b').
Proof.
  intros Tab W A Em Hp. unfold eliminate_vars. destruct (Nat.eqb_spec n 0) as [->|Nn].
  { exists b. split; [reflexivity|]. split; [repeat split|]. split; [exact W|]. split; [exact A|]. split; [|intros _; split; [reflexivity|intros c H; unfold range in H; lia]].
    split; [|intros R]; [intros q q' Lq Hq Pq (L1 & H1 & N1)|intros q' Lq Hq Pq].
    - replace q' with q; [exact Pq|]. apply list_eq; [lia|]. intros [|k] Hk; [destruct q, q'; cbn in *; congruence|]. symmetry. apply N1. unfold range. lia.
    - exists 1, (scale 1 q'). split; [lia|]. split; [apply agree_refl|]. unfold scale. rewrite (map_ext _ (fun x => x)) by (intros; lia). rewrite map_id. exact Pq. }
  destruct (init_ok b pos n Hp W A) as (L & W1 & T1). set (b1 := clear_divs _ _ _) in *. assert (SS : same_space b b1) by (rewrite (proj1 L); repeat split). assert (ND : ndiv b1 = ndiv b) by apply L.
  assert (NV : nvar b1 = nvar b) by (apply same_space_nvar; exact SS).
  assert (PT : forall q, points b1 q <-> points b q) by (intros q; unfold points; rewrite ND; rewrite (proj1 L); reflexivity).
  assert (PR : projected (fun _ => False) b b1).
  { split; [|intros R]; [intros q q' Lq Hq Pq (L1 & H1 & N1)|intros q' Lq Hq Pq].
    - apply PT. replace q' with q; [exact Pq|]. apply list_eq; [lia|]. intros [|k] Hk; [destruct q, q'; cbn in *; congruence|]. symmetry. apply N1. tauto.
    - exists 1, (scale 1 q'). split; [lia|]. split; [apply agree_refl|]. unfold scale. rewrite (map_ext _ (fun x => x)) by (intros; lia). rewrite map_id. apply PT. exact Pq. }
  destruct (elim_loop_ok hash no_redundant tab Tab (range pos n) n b1 pos false b (fun _ => False)) as (b2 & ng & -> & S2 & W2 & T2 & P2 & N2); auto; try tauto.
  { unfold total in *. lia. } { rewrite (proj1 L). exact Em. }
  assert (P2' : projected (range pos n) b b2). { apply (projected_mono _ (fun c => False \/ range pos n c)); [tauto| |exact P2]. intros q q'. apply agree_mono. tauto. }
  destruct ng.
  - destruct (gauss_simplified (range pos n) b2 W2 T2) as (b3 & p & -> & SP & O3). exists b3. split; [reflexivity|]. split; [eapply same_space_trans; [exact S2|apply SP]|]. split; [apply SP|]. split; [apply ordered_acyclic; exact O3|]. split; [eapply projected_then; eassumption|].
    destruct SP as (_ & _ & _ & _ & _ & Z3 & N3). intros E3. destruct (N3 E3) as [N4 E2]. destruct (N2 E2) as [N5 Z2]. split; [congruence|]. intros c H. apply Z3; auto.
  - exists b2. split; [reflexivity|]. split; [exact S2|]. split; [exact W2|]. split; [apply (tidy_acyclic (range pos n)); exact T2|]. split; [exact P2'|]. intros E. destruct (N2 E) as [N5 Z2]. split; [exact N5|]. intros c H. apply Z2. auto.
Qed.

(** ** the statements *)
Lemma agree_scale X k q q' : agree X q q' -> agree X (scale k q) (scale k q').
Proof. intros (A & B & C). split; [rewrite !scale_length; exact A|]. split; [rewrite !hd_scale, B; reflexivity|]. intros c N. rewrite !nth_scale, C by exact N. reflexivity. Qed.
Lemma agree_sym X q q' : agree X q q' -> agree X q' q.
Proof. intros (A & B & C). split; [auto|]. split; [auto|]. intros c N. symmetry. auto. Qed.
Lemma scale_1 q : scale 1 q = q.
Proof. unfold scale. rewrite (map_ext _ (fun x => x)) by (intros; lia). apply map_id. Qed.
Theorem eliminate_vars_rational hash no_redundant tab b pos n : sound_tab tab -> wf b -> acyclic b -> b_empty b = false -> (pos + n <= total b)%nat -> b_rat b = true ->
  exists b', eliminate_vars hash no_redundant tab b pos n = Ok b' /\ same_space b b' /\ wf b' /\
   forall q, length q = (1 + nvar b)%nat -> 0 < hd 0 q ->
    (rational_point b' q <-> exists k q', 0 < k /\ agree (range pos n) (scale k q) q' /\ rational_point b q').
Proof.
  intros Tab W A E Hp R. destruct (eliminate_vars_ok hash no_redundant tab b pos n Tab W A E Hp) as (b' & EQ & SS & W' & _ & [S1 C1] & _). exists b'. split; [exact EQ|]. split; [exact SS|]. split; [exact W'|].
  intros q Lq Hq. split.
  - intros (k & Hk & P). destruct (C1 R (scale k q)) as (k2 & q2 & Hk2 & A2 & P2); [rewrite scale_length; exact Lq|rewrite hd_scale; nia|exact P|]. exists (k2 * k), q2. split; [nia|]. split; [rewrite <- scale_scale; exact A2|]. exists 1. split; [lia|]. rewrite scale_1. exact P2.
  - intros (k & q' & Hk & AG & j & Hj & P). exists (j * k). split; [nia|]. pose proof AG as (L1 & H1 & _). rewrite scale_length in L1. rewrite hd_scale in H1. apply (S1 (scale j q')); [rewrite scale_length; lia|split; [rewrite hd_scale; nia|congruence]|exact P|].
    rewrite <- scale_scale. apply agree_scale, agree_sym. exact AG.
Qed.
Theorem eliminate_vars_sound hash no_redundant tab b pos n : sound_tab tab -> wf b -> acyclic b -> b_empty b = false -> (pos + n <= total b)%nat ->
  exists b', eliminate_vars hash no_redundant tab b pos n = Ok b' /\ same_space b b' /\ wf b' /\ acyclic b' /\
   forall q q', length q = (1 + nvar b)%nat -> admissible (b_rat b) q -> points b q -> agree (range pos n) q q' -> points b' q'.
Proof. intros Tab W A E Hp. destruct (eliminate_vars_ok hash no_redundant tab b pos n Tab W A E Hp) as (b' & EQ & SS & W' & A' & [S1 C1] & _). exists b'. auto. Qed.
Theorem eliminate_vars_free hash no_redundant tab b pos n b' : sound_tab tab -> wf b -> acyclic b -> b_empty b = false -> (pos + n <= total b)%nat ->
  eliminate_vars hash no_redundant tab b pos n = Ok b' -> b_empty b' = false ->
  ndiv b' = ndiv b /\ forall c r, range pos n c -> In r (b_eq b') \/ In r (b_ineq b') -> nth (1 + c) r 0 = 0.
Proof.
  intros Tab W A E Hp EQ E'. destruct (eliminate_vars_ok hash no_redundant tab b pos n Tab W A E Hp) as (b2 & EQ2 & _ & _ & _ & _ & H). rewrite EQ in EQ2. injection EQ2 as <-. destruct (H E') as [ND Z1]. split; [exact ND|].
  intros c r Rc I. destruct (Z1 c Rc) as [Z2 Z3]. destruct I as [I|I]; [apply (proj1 (Forall_forall _ _) Z2 r I)|apply (proj1 (Forall_forall _ _) Z3 r I)].
Qed.
Theorem remove_redundancies_points no_redundant tab b : sound_tab tab -> wf b -> acyclic b ->
  exists b', remove_redundancies no_redundant tab b = Ok b' /\ same_space b b' /\ wf b' /\ ordered b' /\
   forall q, length q = (1 + nvar b)%nat -> admissible (b_rat b) q -> (points b q <-> points b' q).
Proof.
  intros Tab W A. destruct (remove_redundancies_ok no_redundant tab Tab (fun _ => False) b W) as (b' & E & S & O); [left; split; [exact A|]; intros k Hk N; split; [tauto|tauto]|].
  exists b'. split; [exact E|]. split; [apply S|]. split; [apply S|]. split; [exact O|]. apply S.
Qed.
