(** Proofs for isl_basic_map_remove_duplicate_constraints. *)
From Coq Require Import ZArith List Bool Lia Arith Permutation.
From Verif Require Import SeqModel SeqSpec SeqProofs MatModel BMapModel BMapSpec BMapSem BMapLists BMapNorm BMapGauss BMapGauss2 BDupModel.
Import ListNotations.
Open Scope Z_scope.

(** ** the size of the table *)
Lemma index_size_gt n : (1 <= n)%nat -> (n < index_size n)%nat.
Proof.
  intros H. unfold index_size, round_up. set (v := (4 * (n + 1) / 3 - 1)%nat).
  assert (Hv : (n <= v)%nat).
  { unfold v. assert (n + 1 <= 4 * (n + 1) / 3)%nat by (apply Nat.div_le_lower_bound; lia). lia. }
  destruct (Nat.eqb_spec v 0); [lia|]. pose proof (Nat.log2_spec v ltac:(lia)). rewrite Nat.add_1_r. lia.
Qed.

(** ** linear probing *)
Section Hash.
Variable hash : list Z -> nat.

Definition slot (t : list (option nat)) (s d : nat) : nat := ((s + d) mod length t)%nat.
Fixpoint filled (t : list (option nat)) : nat := match t with [] => O | Some _ :: t' => S (filled t') | None :: t' => filled t' end.
Lemma filled_le t : (filled t <= length t)%nat.
Proof. induction t as [|[j|] t IH]; cbn; lia. Qed.
Lemma filled_free t : (filled t < length t)%nat -> exists h, (h < length t)%nat /\ nth h t None = None.
Proof.
  induction t as [|[j|] t IH]; cbn; intros H; [lia| |exists O; split; [lia|reflexivity]].
  destruct IH as (h & Hh & E); [lia|]. exists (S h). split; [lia|exact E].
Qed.
Lemma filled_lset t : forall h j, (h < length t)%nat -> nth h t None = None -> filled (lset t h (Some j)) = S (filled t).
Proof.
  induction t as [|x t IH]; intros [|h] j Hh E; cbn in *; try lia.
  - subst x. reflexivity.
  - specialize (IH h j ltac:(lia) E). destruct x; rewrite IH; reflexivity.
Qed.
Lemma filled_repeat n : filled (repeat None n) = O.
Proof. induction n; cbn; auto. Qed.

Lemma slot_onto t s h : (h < length t)%nat -> (s < length t)%nat -> exists d, (d < length t)%nat /\ slot t s d = h.
Proof.
  intros Hh Hs. unfold slot. destruct (Nat.le_gt_cases s h).
  - exists (h - s)%nat. split; [lia|]. replace (s + (h - s))%nat with h by lia. apply Nat.mod_small. exact Hh.
  - exists (length t + h - s)%nat. split; [lia|]. replace (s + (length t + h - s))%nat with (h + 1 * length t)%nat by lia. rewrite Nat.mod_add by lia. apply Nat.mod_small. exact Hh.
Qed.

Definition matches (l : list (list Z)) (self : nat) (c : list Z) (j : nat) : bool := negb (Nat.eqb self j) && seq_eq c (tl (nth j l [])).

Lemma hash_loop_ok t l self c s : (0 < length t)%nat -> forall n d0, nth (slot t s (n + d0)) t None = None ->
  (forall d, (d < d0)%nat -> exists j, nth (slot t s d) t None = Some j /\ matches l self c j = false) ->
  forall fuel, (n < fuel)%nat ->
  exists d, hash_index_loop fuel t l self c (slot t s d0) = Ok (slot t s d) /\
    (forall d', (d' < d)%nat -> exists j, nth (slot t s d') t None = Some j /\ matches l self c j = false) /\
    match nth (slot t s d) t None with Some j => matches l self c j = true | None => True end.
Proof.
  intros Hl. induction n as [|n IH]; intros d0 E Q fuel F; (destruct fuel as [|fuel]; [lia|]); cbn [hash_index_loop].
  - exists d0. cbn [plus] in E. rewrite E. split; [reflexivity|]. split; [exact Q|exact Logic.I].
  - destruct (nth (slot t s d0) t None) as [j|] eqn:EJ.
    2:{ exists d0. rewrite EJ. split; [reflexivity|]. split; [exact Q|exact Logic.I]. }
    fold (matches l self c j). destruct (matches l self c j) eqn:EM.
    + exists d0. rewrite EJ. split; [reflexivity|]. split; [exact Q|exact EM].
    + assert (ES : ((slot t s d0 + 1) mod length t)%nat = slot t s (S d0)).
      { unfold slot. rewrite Nat.add_mod_idemp_l by lia. f_equal. lia. }
      rewrite ES. apply (IH (S d0)).
      * replace (n + S d0)%nat with (S n + d0)%nat by lia. exact E.
      * intros d Hd. destruct (Nat.eq_dec d d0) as [->|]; [exists j; auto|apply Q; lia].
      * lia.
Qed.

(** the table holds the first [k] inequalities *)
Definition indexed (t : list (option nat)) (l : list (list Z)) (k : nat) : Prop :=
  filled t = k /\
  (forall h j, nth h t None = Some j -> (j < k)%nat) /\
  (forall j, (j < k)%nat -> exists d, nth (slot t (hash (tl (nth j l [])) mod length t) d) t None = Some j /\
     forall d', (d' < d)%nat -> nth (slot t (hash (tl (nth j l [])) mod length t) d') t None <> None).

Lemma hash_index_ok t l k self c n : indexed t l k -> (k < length t)%nat -> (forall j, (j < k)%nat -> length (tl (nth j l [])) = n) -> length c = n ->
  exists h, hash_index hash t l self c = Ok h /\ (h < length t)%nat /\
    match nth h t None with
    | Some j => (j < k)%nat /\ j <> self /\ tl (nth j l []) = c
    | None => (forall j, (j < k)%nat -> j <> self -> tl (nth j l []) <> c) /\
              exists d, h = slot t (hash c mod length t) d /\ forall d', (d' < d)%nat -> nth (slot t (hash c mod length t) d') t None <> None
    end.
Proof.
  intros (I1 & I2 & I3) Hk Hn Hc. destruct (filled_free t) as (h0 & Hh0 & E0); [lia|]. set (s := (hash c mod length t)%nat).
  assert (Hs : (s < length t)%nat) by (apply Nat.mod_upper_bound; lia). destruct (slot_onto t s h0 Hh0 Hs) as (d0 & Hd0 & Es).
  assert (EH : hash_index hash t l self c = hash_index_loop (S (length t)) t l self c (slot t s 0)).
  { unfold hash_index. fold s. unfold slot. rewrite Nat.add_0_r, Nat.mod_small by exact Hs. reflexivity. }
  destruct (hash_loop_ok t l self c s ltac:(lia) d0 O) with (fuel := S (length t)) as (d & E & Q & M).
  - rewrite Nat.add_0_r, Es. exact E0.
  - intros d Hd. lia.
  - lia.
  - exists (slot t s d). rewrite EH. split; [exact E|]. split; [apply Nat.mod_upper_bound; lia|].
    destruct (nth (slot t s d) t None) as [j|] eqn:EJ.
    + pose proof (I2 _ _ EJ) as Hj. split; [exact Hj|]. unfold matches in M. apply andb_true_iff in M as [M1 M2]. destruct (Nat.eqb_spec self j); [discriminate|]. split; [auto|].
      apply seq_eq_ok in M2; [auto|]. rewrite Hn by exact Hj. exact Hc.
    + split.
      * intros j Hj Hne Ec. destruct (I3 j Hj) as (dj & Ej & Pj). rewrite Ec in Ej, Pj. fold s in Ej, Pj.
        assert (D : (dj < d)%nat). { destruct (Nat.le_gt_cases d dj) as [L|]; [|assumption]. destruct (Nat.eq_dec d dj) as [->|]; [congruence|]. exfalso. apply (Pj d); [lia|exact EJ]. }
        destruct (Q dj D) as (j' & Ej' & Mj). rewrite Ej in Ej'. injection Ej' as <-. unfold matches in Mj. destruct (Nat.eqb_spec self j); [lia|]. cbn [negb andb] in Mj.
        assert (seq_eq c (tl (nth j l [])) = true); [|congruence]. apply seq_eq_ok; [rewrite Hn by exact Hj; exact Hc|congruence].
      * exists d. split; [reflexivity|]. intros d' Hd'. destruct (Q d' Hd') as (j & Ej & _). congruence.
Qed.

Lemma indexed_insert t l k h : indexed t l k -> (h < length t)%nat -> nth h t None = None ->
  (exists d, h = slot t (hash (tl (nth k l [])) mod length t) d /\ forall d', (d' < d)%nat -> nth (slot t (hash (tl (nth k l [])) mod length t) d') t None <> None) ->
  indexed (lset t h (Some k)) l (S k).
Proof.
  intros (I1 & I2 & I3) Hh E (d & Ed & Pd).
  assert (SL : forall s x, slot (lset t h (Some k)) s x = slot t s x) by (intros; unfold slot; rewrite lset_length; reflexivity).
  assert (NE : forall x, nth x t None <> None -> nth x (lset t h (Some k)) None <> None) by (intros x Hx; rewrite nth_lset by exact Hh; destruct (Nat.eqb x h); [discriminate|exact Hx]).
  split; [rewrite filled_lset by assumption; lia|]. split.
  - intros x j. rewrite nth_lset by exact Hh. destruct (Nat.eqb x h); [intros [= <-]; lia|]. intros Hx. specialize (I2 x j Hx). lia.
  - intros j Hj. rewrite lset_length. destruct (Nat.eq_dec j k) as [->|].
    + exists d. rewrite SL, <- Ed. rewrite nth_lset by exact Hh. rewrite Nat.eqb_refl. split; [reflexivity|]. intros d' Hd'. rewrite SL. apply NE. apply Pd. exact Hd'.
    + destruct (I3 j ltac:(lia)) as (dj & Ej & Pj). exists dj. rewrite SL. split.
      * rewrite nth_lset by exact Hh. destruct (Nat.eqb_spec (slot t (hash (tl (nth j l [])) mod length t) dj) h) as [F|]; [congruence|exact Ej].
      * intros d' Hd'. rewrite SL. apply NE. apply Pj. exact Hd'.
Qed.
Lemma indexed_ext t l l' k : indexed t l k -> (forall j, (j < k)%nat -> tl (nth j l' []) = tl (nth j l [])) -> indexed t l' k.
Proof. intros (I1 & I2 & I3) H. split; [exact I1|]. split; [exact I2|]. intros j Hj. rewrite (H j Hj). apply I3. exact Hj. Qed.

(** ** the first loop *)
(** every row is implied by a parallel one with at most the same constant term *)
Definition covers (l l' : list (list Z)) : Prop := forall r, In r l -> exists r', In r' l' /\ tl r' = tl r /\ hd 0 r' <= hd 0 r.
Lemma covers_refl l : covers l l. Proof. intros r H. exists r. split; [exact H|]. split; [reflexivity|lia]. Qed.
Lemma covers_trans a b c : covers a b -> covers b c -> covers a c.
Proof. intros H1 H2 r Hr. destruct (H1 r Hr) as (r1 & A & B & C). destruct (H2 r1 A) as (r2 & D & E & F). exists r2. split; [exact D|]. split; [congruence|lia]. Qed.
Lemma nonneg_parallel v r r' : 0 < hd 0 v -> tl r' = tl r -> hd 0 r' <= hd 0 r -> nonneg_on v r' -> nonneg_on v r.
Proof. intros Hv E L. unfold nonneg_on. rewrite (dot_hd_tl r), (dot_hd_tl r'), E. nia. Qed.
Lemma covers_sem v l l' : 0 < hd 0 v -> covers l l' -> Forall (nonneg_on v) l' -> Forall (nonneg_on v) l.
Proof. intros Hv C F. apply Forall_forall. intros r Hr. destruct (C r Hr) as (r' & A & B & D). apply (nonneg_parallel v r r' Hv B D). apply (proj1 (Forall_forall _ _) F). exact A. Qed.
Lemma Forall_incl {A} (P : A -> Prop) l l' : incl l' l -> Forall P l -> Forall P l'.
Proof. rewrite !Forall_forall. intros I H x Hx. apply H, I, Hx. Qed.

Definition distinct (l : list (list Z)) (k : nat) : Prop := forall i j, (i < j < k)%nat -> tl (nth i l []) <> tl (nth j l []).

Lemma dup_loop_ok n : forall fuel t l k p, rows_of (S n) l -> (k <= length l)%nat -> (length l < length t)%nat -> indexed t l k -> distinct l k -> (length l - k < fuel)%nat ->
  exists t' l' p', dup_loop hash fuel t l k p = Ok (t', l', p') /\ length t' = length t /\ (length l' <= length l)%nat /\ indexed t' l' (length l') /\ distinct l' (length l') /\
    incl l' l /\ covers l l' /\ (p' = true <-> p = true \/ (length l' < length l)%nat) /\ (length l' = length l -> l' = l) /\ (1 <= k -> 1 <= length l')%nat.
Proof.
  induction fuel as [|fuel IH]; intros t l k p R Hk Ht I D F; [lia|]. cbn [dup_loop]. destruct (Nat.leb_spec (length l) k) as [L|L].
  { exists t, l, p. assert (k = length l) by lia. subst k. split; [reflexivity|]. split; [reflexivity|]. split; [lia|]. split; [exact I|]. split; [exact D|]. split; [apply incl_refl|]. split; [apply covers_refl|]. split; [|split; [auto|lia]]. split; [auto|]. intros [?|?]; [assumption|lia]. }
  assert (LT : forall j, (j < length l)%nat -> length (tl (nth j l [])) = n).
  { intros j Hj. pose proof (rows_nth _ _ j R Hj) as E. destruct (nth j l []); cbn in *; lia. }
  destruct (hash_index_ok t l k k (tl (nth k l [])) n I ltac:(lia) ltac:(intros; apply LT; lia) ltac:(apply LT; exact L)) as (h & -> & Hh & M).
  destruct (nth h t None) as [j|] eqn:EJ.
  - destruct M as (Hj & _ & Et). set (l1 := if hd 0 (nth k l []) <? hd 0 (nth j l []) then lswap l k j else l).
    assert (P1 : Permutation l1 l) by (unfold l1; destruct (_ <? _); [apply lswap_perm; lia|reflexivity]).
    assert (L1 : length l1 = length l) by (apply Permutation_length; exact P1).
    assert (T1 : forall i, tl (nth i l1 []) = tl (nth i l [])).
    { intros i. unfold l1. destruct (_ <? _); [|reflexivity]. rewrite nth_lswap by lia. destruct (Nat.eqb_spec i j) as [->|]; [symmetry; exact Et|]. destruct (Nat.eqb_spec i k) as [->|]; [exact Et|reflexivity]. }
    assert (C1 : hd 0 (nth j l1 []) <= hd 0 (nth k l1 [])).
    { unfold l1. destruct (Z.ltb_spec (hd 0 (nth k l [])) (hd 0 (nth j l []))); [|lia]. rewrite !nth_lswap by lia. rewrite Nat.eqb_refl. destruct (Nat.eqb_spec k j); [lia|]. rewrite Nat.eqb_refl. lia. }
    assert (L2 : length (drop_swap l1 k) = (length l - 1)%nat) by (rewrite drop_swap_length; lia).
    pose proof (drop_swap_perm l1 k ltac:(lia)) as P2.
    assert (T2 : forall i, (i < k)%nat -> nth i (drop_swap l1 k) [] = nth i l1 []) by (intros i Hi; rewrite nth_drop_swap by lia; destruct (Nat.eqb_spec i k); [lia|reflexivity]).
    destruct (IH t (drop_swap l1 k) k true) as (t' & l' & p' & E & A1 & A2 & A3 & A4 & A5 & A6 & A7 & _ & A9).
    + unfold rows_of. assert (Forall (fun r => length r = S n) (nth k l1 [] :: drop_swap l1 k)) as X; [|inversion X; assumption]. apply (Forall_perm _ _ _ P2). apply (Forall_perm _ _ _ P1). exact R.
    + lia.
    + lia.
    + apply (indexed_ext t l); [exact I|]. intros i Hi. rewrite T2 by exact Hi. apply T1.
    + intros a b Hab. rewrite !T2 by lia. rewrite !T1. apply D. exact Hab.
    + lia.
    + exists t', l', p'. split; [exact E|]. split; [exact A1|]. split; [lia|]. split; [exact A3|]. split; [exact A4|]. split.
      * intros r Hr. apply A5 in Hr. apply (Permutation_in r P1). apply (Permutation_in r P2). right. exact Hr.
      * split; [|split; [|split; [lia|exact A9]]].
        -- apply (covers_trans l (drop_swap l1 k)); [|exact A6]. intros r Hr. apply (Permutation_in r (Permutation_sym P1)) in Hr. apply (Permutation_in r (Permutation_sym P2)) in Hr. destruct Hr as [<-|Hr].
           ++ exists (nth j l1 []). split; [rewrite <- T2 by exact Hj; apply nth_In; lia|]. split; [rewrite !T1; exact Et|exact C1].
           ++ exists r. split; [exact Hr|]. split; [reflexivity|lia].
        -- split; intros _; [right; lia|]. apply A7. left. reflexivity.
  - destruct M as (Mn & Md). destruct (IH (lset t h (Some k)) l (S k) p) as (t' & l' & p' & E & A1 & A2 & A3 & A4 & A5 & A6 & A7 & A8 & A9).
    + exact R.
    + lia.
    + rewrite lset_length. exact Ht.
    + apply indexed_insert; assumption.
    + intros a b Hab. destruct (Nat.eq_dec b k) as [->|]; [apply Mn; lia|apply D; lia].
    + lia.
    + exists t', l', p'. rewrite lset_length in A1. split; [exact E|]. split; [exact A1|]. split; [exact A2|]. split; [exact A3|]. split; [exact A4|]. split; [exact A5|]. split; [exact A6|]. split; [exact A7|]. split; [exact A8|]. intros _. apply A9. lia.
Qed.

(** ** the second loop *)
(** same constraints, and the integer divisions remain correct *)
Definition kept (b b' : bmap) : Prop :=
  shape b b' /\ wf b' /\ (denoms (b_div b) -> denoms (b_div b')) /\ (acyclic b -> acyclic b') /\
  (forall v, 0 < hd 0 v -> (system (b_eq b) (b_ineq b) v <-> system (b_eq b') (b_ineq b') v)) /\
  (forall v, hd 0 v = 1 -> length v = (1 + total b)%nat -> system (b_eq b) (b_ineq b) v -> divisions (b_div b) (1 + nvar b) v -> divisions (b_div b') (1 + nvar b) v).
Lemma kept_refl b : wf b -> kept b b.
Proof. intros W. split; [apply shape_refl|]. split; [exact W|]. split; [auto|]. split; [auto|]. split; [intros; reflexivity|auto]. Qed.
Lemma kept_trans a b c : kept a b -> kept b c -> kept a c.
Proof.
  intros (A1 & A2 & A3 & A4 & A5 & A6) (B1 & B2 & B3 & B4 & B5 & B6). split; [eapply shape_trans; eauto|]. split; [exact B2|]. split; [auto|]. split; [auto|].
  destruct (shape_nvar _ _ A1) as [N T]. split.
  - intros v Hv. rewrite (A5 v Hv). apply B5. exact Hv.
  - intros v Hv Lv S1 D. rewrite N, T in B6. apply B6; auto. apply A5; [lia|exact S1].
Qed.
(** the same local variables and definitions, other constraints *)
Lemma acyclic_ext b b' : nvar b' = nvar b -> b_div b' = b_div b -> acyclic b -> acyclic b'.
Proof. intros N E (rank & H). exists rank. unfold ndiv. rewrite N, E. exact H. Qed.
Lemma kept_rows b le li nd : wf b -> rows_of (1 + total b) le -> rows_of (1 + total b) li ->
  (forall v, 0 < hd 0 v -> (system (b_eq b) (b_ineq b) v <-> system le li v)) ->
  kept b (mkb (b_param b) (b_in b) (b_out b) le li (b_div b) (b_rat b) (b_empty b) nd).
Proof.
  intros (W1 & W2 & W3) R1 R2 H. split; [repeat split|]. split; [split; [exact R1|split; [exact R2|exact W3]]|]. split; [auto|]. split; [apply acyclic_ext; reflexivity|]. split; [exact H|]. cbn. auto.
Qed.
Lemma kept_points b b' : kept b b' -> forall q, length q = (1 + nvar b)%nat -> 0 < hd 0 q -> (points b q <-> points b' q).
Proof.
  intros ((A1 & A2 & A3 & A4 & A5 & A6) & _ & _ & _ & H & _) q Lq Hq. unfold points, member, described. rewrite A6, A4.
  assert (X : forall e, 0 < hd 0 (q ++ e)) by (destruct q; [cbn in Lq; lia|intros; exact Hq]).
  split; intros (E & e & Le & Se); (split; [exact E|]; exists e; split; [exact Le|]; apply (H _ (X e)); exact Se).
Qed.
Lemma kept_implied b b' : kept b b' -> implied b -> implied b'.
Proof.
  intros (A & _ & _ & _ & H1 & H2) Im v Lv Hv Sv. destruct (shape_nvar _ _ A) as [N T]. rewrite T in Lv. rewrite N. assert (S1 : system (b_eq b) (b_ineq b) v) by (apply H1; [lia|exact Sv]).
  apply H2; auto.
Qed.

Lemma list_sum_ge f n j : (j < n)%nat -> (f j <= list_sum (map f (seq 0 n)))%nat.
Proof.
  intros H. assert (In (f j) (map f (seq 0 n))) by (apply in_map, in_seq; lia). revert H0. generalize (map f (seq 0 n)). induction l as [|x l IH]; [easy|]. change (list_sum (x :: l)) with (x + list_sum l)%nat. intros [->|E]; [lia|]. specialize (IH E). lia.
Qed.

Lemma ok_to_set_ok b div ineq : ok_to_set_div_from_bound b div ineq = true ->
  forall j, (j < ndiv b)%nat -> j <> div -> hd 0 (nth j (b_div b) []) <> 0 -> nth (2 + nvar b + div) (nth j (b_div b) []) 0 = 0.
Proof.
  intros H j Hj Hne Hd. apply andb_true_iff in H as [_ H]. rewrite forallb_forall in H. specialize (H j ltac:(apply in_seq; lia)).
  destruct (Nat.eqb_spec div j); [lia|]. destruct (Z.eqb_spec (hd 0 (nth j (b_div b) [])) 0); [lia|]. cbn [orb] in H. destruct (Z.eqb_spec (nth (2 + nvar b + div) (nth j (b_div b) []) 0) 0); [assumption|discriminate].
Qed.
Lemma nth_tl {A} (l : list A) i d : nth i (tl l) d = nth (S i) l d.
Proof. destruct l; [destruct i; reflexivity|reflexivity]. Qed.

(** [r] and [s] are opposite with sum of constants [0 < sum < c] *)
Lemma set_div_ok b div r s : wf b -> (div < ndiv b)%nat -> (r < length (b_ineq b))%nat -> (s < length (b_ineq b))%nat ->
  let c := nth (1 + nvar b + div) (nth r (b_ineq b) []) 0 in
  (forall v, dot (tl (nth s (b_ineq b) [])) v = - dot (tl (nth r (b_ineq b) [])) v) ->
  hd 0 (nth r (b_ineq b) []) + hd 0 (nth s (b_ineq b) []) < c -> 0 < c ->
  (forall j, (j < ndiv b)%nat -> j <> div -> hd 0 (nth j (b_div b) []) <> 0 -> nth (2 + nvar b + div) (nth j (b_div b) []) 0 = 0) ->
  kept b (set_div_from_lower_bound b div r).
Proof.
  intros (W1 & W2 & W3) Hd Hr Hs c Op Sm Pc Ok. unfold set_div_from_lower_bound. fold c. set (e := seq_neg (nth r (b_ineq b) [])).
  pose proof (rows_nth _ _ r W2 Hr) as Lr. assert (Le : length e = (1 + total b)%nat) by (unfold e, seq_neg; rewrite map_length; exact Lr).
  set (row := c :: zupd (zupd e 0 (hd 0 e + c - 1)) (1 + nvar b + div) 0).
  assert (Lrow : length row = (2 + total b)%nat) by (unfold row; cbn [length]; rewrite !zupd_length; lia).
  assert (ND : ndiv (set_div b (lset (b_div b) div row)) = ndiv b) by (unfold ndiv; cbn; apply lset_length).
  split; [repeat split; exact ND|]. split.
  { unfold wf, total. rewrite ND. cbn. fold (nvar b). split; [exact W1|]. split; [exact W2|]. unfold rows_of. apply (proj2 (Forall_lset _ _ _ _ Hd)). split; [exact Lrow|]. apply (proj1 (Forall_at _ _ [] _ Hd)). exact W3. }
  split. { intros D. cbn. unfold denoms. apply (proj2 (Forall_lset _ _ _ _ Hd)). split; [cbn; lia|]. apply (proj1 (Forall_at _ _ [] _ Hd)). exact D. }
  split.
  { intros (rank & H). exists (fun i => if Nat.eqb i div then S (list_sum (map rank (seq 0 (ndiv b)))) else rank i). intros k j Hk Hj. rewrite ND in Hk, Hj. cbn [b_div set_div].
    change (nvar (set_div b (lset (b_div b) div row))) with (nvar b). rewrite nth_lset by exact Hd. destruct (Nat.eqb_spec k div) as [->|Nk].
    - intros _ Nz. destruct (Nat.eqb_spec j div) as [->|Nj].
      + exfalso. apply Nz. unfold row. change (2 + nvar b + div)%nat with (S (1 + nvar b + div)). cbn [nth]. rewrite nth_zupd, zupd_length, Nat.eqb_refl. destruct (Nat.ltb_spec (1 + nvar b + div) (length e)) as [|X]; [reflexivity|]. unfold total in Le. lia.
      + apply Nat.lt_succ_r. apply list_sum_ge. exact Hj.
    - intros Hz Nz. destruct (Nat.eqb_spec j div) as [->|Nj]; [|apply H; assumption]. exfalso. apply Nz. apply Ok; assumption. }
  split; [intros; reflexivity|]. intros v Hv Lv (_ & Sv) Dv k Hk. cbn [b_div set_div] in *. rewrite lset_length in Hk. rewrite nth_lset by exact Hd. destruct (Nat.eqb_spec k div) as [->|]; [|apply Dv; exact Hk].
  right. unfold row. cbn [hd tl]. rewrite dot_zupd by (rewrite zupd_length; unfold total in Le; lia). rewrite nth_zupd.
  replace (Nat.eqb (1 + nvar b + div) 0) with false by (symmetry; apply Nat.eqb_neq; lia). cbn [andb]. rewrite dot_zupd by lia. unfold e. rewrite dot_seq_neg, !nth_seq_neg. fold c.
  assert (E0 : nth 0 v 0 = 1) by (destruct v; [cbn in Hv; lia|exact Hv]). rewrite E0.
  assert (H0 : hd 0 (seq_neg (nth r (b_ineq b) [])) = - nth 0 (nth r (b_ineq b) []) 0) by (destruct (nth r (b_ineq b) []); reflexivity). rewrite H0.
  pose proof (proj1 (Forall_nth_iff _ _ []) Sv r Hr) as N1. pose proof (proj1 (Forall_nth_iff _ _ []) Sv s Hs) as N2. unfold nonneg_on in N1, N2.
  rewrite (dot_hd_tl (nth r (b_ineq b) [])) in N1 |- *. rewrite (dot_hd_tl (nth s (b_ineq b) [])) in N2. rewrite Op in N2. rewrite Hv in *.
  set (x := dot (tl (nth r (b_ineq b) [])) (tl v)) in *. set (y := nth (1 + nvar b + div) v 0). lia.
Qed.

Lemma check_div_ok b k l sum : wf b -> (k < length (b_ineq b))%nat -> (l < length (b_ineq b))%nat ->
  tl (nth l (b_ineq b) []) = seq_neg (tl (nth k (b_ineq b) [])) -> sum = hd 0 (nth k (b_ineq b) []) + hd 0 (nth l (b_ineq b) []) -> 0 < sum ->
  forall n i, (i + n <= ndiv b)%nat ->
  kept b (fst (check_div_loop n b k l sum i)) /\ b_ineq (fst (check_div_loop n b k l sum i)) = b_ineq b.
Proof.
  intros W Hk Hl Et Es Ps. induction n as [|n IH]; intros i Hi; cbn [check_div_loop fst]; [split; [apply kept_refl; exact W|reflexivity]|].
  set (c := nth (1 + nvar b + i) (nth k (b_ineq b) []) 0) in *. destruct (Z.eqb_spec c 0) as [|Nc]; [apply IH; lia|]. destruct (Z.leb_spec (Z.abs c) (Z.abs sum)) as [|Lc]; [apply IH; lia|].
  destruct (better_div_constraint b i k && ok_to_set_div_from_bound b i k) eqn:E; cbn [fst]; [|split; [apply kept_refl; exact W|reflexivity]].
  apply andb_true_iff in E as [_ E]. split; [|reflexivity]. destruct (Z.ltb_spec 0 c) as [P|P].
  - apply (set_div_ok b i k l); auto; try lia.
    + intros v. rewrite Et. apply dot_seq_neg.
    + apply (ok_to_set_ok b i k). exact E.
  - assert (Ec : nth (1 + nvar b + i) (nth l (b_ineq b) []) 0 = - c).
    { unfold c. change (1 + nvar b + i)%nat with (S (nvar b + i)). rewrite <- !nth_tl, Et, nth_seq_neg. reflexivity. }
    apply (set_div_ok b i l k); auto; try lia.
    + intros v. rewrite Et, dot_seq_neg. lia.
    + apply (ok_to_set_ok b i k). exact E.
Qed.

Lemma check_flag b k l sum : forall n i, snd (check_div_loop n b k l sum i) = false -> fst (check_div_loop n b k l sum i) = b.
Proof. induction n as [|n IH]; intros i; cbn [check_div_loop]; [reflexivity|]. destruct (_ =? 0); [apply IH|]. destruct (_ <=? _); [apply IH|]. destruct (_ && _); [discriminate|reflexivity]. Qed.
Lemma check_ineq b k l sum : forall n i, b_ineq (fst (check_div_loop n b k l sum i)) = b_ineq b.
Proof. induction n as [|n IH]; intros i; cbn [check_div_loop]; [reflexivity|]. destruct (_ =? 0); [apply IH|]. destruct (_ <=? _); [apply IH|]. destruct (_ && _); reflexivity. Qed.
Lemma opp_loop_shrinks detect : forall fuel t b k p b' p', opp_loop hash fuel detect t b k p = Ok (b', p') -> (length (b_ineq b') <= length (b_ineq b))%nat.
Proof.
  induction fuel as [|fuel IH]; intros t b k p b' p'; cbn [opp_loop]; [discriminate|]. destruct (Nat.leb _ _); [intros [= <- <-]; lia|]. destruct (hash_index _ _ _ _ _); try discriminate.
  destruct (nth _ t None); [|apply IH]. cbn zeta. destruct (_ <? _).
  - destruct detect; [|apply IH]. unfold check_for_div_constraints. match goal with |- context [check_div_loop ?a ?b0 ?c ?d ?e ?f] => pose proof (check_ineq b0 c d e a f) as C; destruct (check_div_loop a b0 c d e f) as [b1 p1] end.
    cbn [fst] in C. intros E. apply IH in E. rewrite C in E. exact E.
  - destruct (_ =? 0); intros [= <- <-].
    + unfold inequality_to_equality, drop_inequality. cbn [b_ineq set_nd set_eq set_ineq]. rewrite !drop_swap_length. lia.
    + unfold set_to_empty. destruct (_ && _); cbn; lia.
Qed.

(** the opposite inequalities have a positive sum of constant terms *)
Definition apart (l : list (list Z)) (k : nat) : Prop :=
  forall i j, (i < k)%nat -> (i < j < length l)%nat -> tl (nth j l []) = seq_neg (tl (nth i l [])) -> 0 < hd 0 (nth i l []) + hd 0 (nth j l []).

Lemma distinct_nodup l : distinct l (length l) -> NoDup (map (@tl Z) l).
Proof.
  intros D. apply (NoDup_nth _ []). rewrite map_length. intros i j Hi Hj E. rewrite !(map_nth (@tl Z) l []) in E.
  destruct (Nat.lt_trichotomy i j) as [L|[?|L]]; [|assumption|].
  - exfalso. apply (D i j); [lia|exact E].
  - exfalso. apply (D j i); [lia|congruence].
Qed.
Lemma nodup_perm (l l' : list (list Z)) x : Permutation (x :: l') l -> NoDup (map (@tl Z) l) -> NoDup (map (@tl Z) l').
Proof. intros P N. apply (Permutation_map (@tl Z)) in P. apply (Permutation_NoDup (Permutation_sym P)) in N. inversion N; assumption. Qed.

(** [r] and the rows of [l] *)
Definition outcome (b b' : bmap) (p p' : bool) : Prop :=
  (b_empty b' = true /\ same_space b b' /\ wf b' /\ (b_ineq b' = [] /\ ndiv b' = O) /\ (forall v, 0 < hd 0 v -> ~ system (b_eq b) (b_ineq b) v)) \/
  (kept b b' /\ (length (b_ineq b') < length (b_ineq b) /\ p' = true \/ b_ineq b' = b_ineq b /\ apart (b_ineq b') (length (b_ineq b')) /\ (p = true -> p' = true) /\ (p' = false -> b' = b))%nat).

Lemma opp_loop_ok detect : forall fuel t b k p, wf b -> (0 < length (b_ineq b))%nat -> (k < length (b_ineq b))%nat -> (length (b_ineq b) < length t)%nat -> b_empty b = false ->
  indexed t (b_ineq b) (length (b_ineq b)) -> distinct (b_ineq b) (length (b_ineq b)) -> apart (b_ineq b) k -> (length (b_ineq b) - k < fuel)%nat ->
  exists b' p', opp_loop hash fuel detect t b k p = Ok (b', p') /\ NoDup (map (@tl Z) (b_ineq b')) /\ outcome b b' p p' /\ (detect = false -> p' = true -> p = true \/ (length (b_ineq b') < length (b_ineq b)))%nat.
Proof.
  induction fuel as [|fuel IH]; intros t b k p W N0 Hk Ht Em I D A F; [lia|]. cbn [opp_loop]. destruct (Nat.leb_spec (length (b_ineq b)) (k + 1)) as [L|L].
  { exists b, p. split; [reflexivity|]. split; [apply distinct_nodup; exact D|]. split; [|auto]. right. split; [apply kept_refl; exact W|]. right. split; [reflexivity|]. split; [|auto].
    intros i j Hi Hj Et. apply A; [lia|exact Hj|exact Et]. }
  assert (LT : forall j, (j < length (b_ineq b))%nat -> length (tl (nth j (b_ineq b) [])) = total b).
  { intros j Hj. pose proof (rows_nth _ _ j (proj1 (proj2 W)) Hj) as E. destruct (nth j (b_ineq b) []); cbn in *; lia. }
  destruct (hash_index_ok t (b_ineq b) (length (b_ineq b)) k (seq_neg (tl (nth k (b_ineq b) []))) (total b) I Ht LT ltac:(unfold seq_neg; rewrite map_length; apply LT; exact Hk)) as (h & -> & Hh & M).
  destruct (nth h t None) as [l|] eqn:EJ.
  2:{ apply IH; auto; try lia. intros i j Hi Hj Et. destruct (Nat.eq_dec i k) as [->|]; [|apply A; [lia|exact Hj|exact Et]]. exfalso. apply (proj1 M j); [lia|lia|exact Et]. }
  destruct M as (Hl & Nl & Et). set (sum := hd 0 (nth k (b_ineq b) []) + hd 0 (nth l (b_ineq b) [])). cbn zeta.
  destruct (Z.ltb_spec 0 sum) as [Ps|Ps].
  - assert (A' : apart (b_ineq b) (S k)).
    { intros i j Hi Hj E2. destruct (Nat.eq_dec i k) as [->|]; [|apply A; [lia|exact Hj|exact E2]]. assert (j = l); [|subst j; unfold sum in Ps; lia].
      destruct (Nat.lt_trichotomy j l) as [X|[X|X]]; [exfalso; apply (D j l); [lia|congruence]|exact X|exfalso; apply (D l j); [lia|congruence]]. }
    destruct detect.
    2:{ apply IH; auto; lia. }
    destruct (check_div_ok b k l sum W Hk Hl Et eq_refl Ps (ndiv b) 0 ltac:(lia)) as [K Ei]. unfold check_for_div_constraints.
    pose proof (fun sum => check_flag b k l sum) as CF. specialize (CF sum (ndiv b) 0%nat).
    destruct (check_div_loop (ndiv b) b k l sum 0) as [b1 p1]. cbn [fst snd] in K, Ei, CF.
    destruct (IH t b1 (S k) (p || p1)%bool) as (b' & p' & E & ND & O & _); rewrite ?Ei; auto; try lia.
    + apply K.
    + destruct K as ((_ & _ & _ & _ & _ & X) & _). congruence.
    + exists b', p'. split; [exact E|]. split; [exact ND|]. split; [|discriminate]. destruct O as [(O1 & O2 & O3 & O3b & O4)|(O1 & O2)].
      * left. split; [exact O1|]. split; [destruct K as ((X1 & X2 & X3 & X4 & X5 & X6) & _); destruct O2 as (Y1 & Y2 & Y3 & Y4); repeat split; congruence|]. split; [exact O3|]. split; [exact O3b|].
        intros v Hv Sv. apply (O4 v Hv). apply K; assumption.
      * right. split; [apply (kept_trans b b1 b' K O1)|]. rewrite Ei in O2. destruct O2 as [O2|(O2 & O3 & O4 & O5)]; [left; exact O2|right]. split; [exact O2|]. split; [exact O3|]. split.
        -- intros ->. apply O4. reflexivity.
        -- intros ->. rewrite (O5 eq_refl). apply CF. destruct p1; [|reflexivity]. assert (X : (p || true)%bool = true) by (destruct p; reflexivity). specialize (O4 X). discriminate.
  - assert (DT : forall v, dot (tl (nth l (b_ineq b) [])) v = - dot (tl (nth k (b_ineq b) [])) v) by (intros; rewrite Et; apply dot_seq_neg).
    assert (SD : forall v, dot (nth k (b_ineq b) []) v + dot (nth l (b_ineq b) []) v = sum * hd 0 v).
    { intros v. rewrite (dot_hd_tl (nth k (b_ineq b) [])), (dot_hd_tl (nth l (b_ineq b) [])), DT. unfold sum. ring. }
    destruct (Z.eqb_spec sum 0) as [Zs|Zs].
    + set (l1 := drop_swap (b_ineq b) l). pose proof (drop_swap_perm (b_ineq b) l Hl) as P1. fold l1 in P1. assert (L1 : length l1 = (length (b_ineq b) - 1)%nat) by (unfold l1; rewrite drop_swap_length; reflexivity).
      assert (K1 : nth k l1 [] = nth k (b_ineq b) []) by (unfold l1; rewrite nth_drop_swap by lia; destruct (Nat.eqb_spec k l); [lia|reflexivity]).
      pose proof (drop_swap_perm l1 k ltac:(lia)) as P2. rewrite K1 in P2.
      eexists _, true. split; [reflexivity|]. unfold inequality_to_equality, drop_inequality. cbn [b_ineq b_eq b_div set_nd set_eq set_ineq]. fold l1. rewrite K1. split.
      { apply (nodup_perm l1 _ _ P2). apply (nodup_perm _ _ _ P1). apply distinct_nodup. exact D. }
      split; [|intros _ _; right; cbn; rewrite drop_swap_length; lia]. right. split; [|left; cbn; rewrite drop_swap_length; split; [lia|reflexivity]]. destruct W as (W1 & W2 & W3).
      apply (Forall_perm _ _ _ (Permutation_sym P1)) in W2 as W2'. inversion W2' as [|? ? _ R1]; subst. apply (Forall_perm _ _ _ (Permutation_sym P2)) in R1 as R2. inversion R2 as [|? ? R3 R4]; subst.
      apply (kept_rows b (nth k (b_ineq b) [] :: b_eq b) (drop_swap l1 k) false); [repeat split; assumption|constructor; assumption|exact R4|].
      intros v Hv. unfold system. rewrite Forall_cons_iff. rewrite <- (Forall_perm _ _ _ P1), Forall_cons_iff. rewrite <- (Forall_perm _ _ _ P2), Forall_cons_iff. specialize (SD v). unfold zero_on, nonneg_on in *. rewrite Zs in SD.
      split; [intros (X1 & X2 & X3 & X4)|intros ((X1 & X2) & X3)]; repeat split; auto; lia.
    + exists (set_to_empty b), p. split; [reflexivity|]. unfold set_to_empty at 1. rewrite Em. cbn [andb]. split; [constructor|]. split; [|auto]. left. split; [apply set_to_empty_flag|].
      split; [unfold set_to_empty; rewrite Em; repeat split|]. split; [apply set_to_empty_wf; exact W|]. split; [unfold set_to_empty; rewrite Em; split; reflexivity|].
      intros v Hv (_ & Sv). specialize (SD v). pose proof (proj1 (Forall_nth_iff _ _ []) Sv k Hk) as N1. pose proof (proj1 (Forall_nth_iff _ _ []) Sv l Hl) as N2. unfold nonneg_on in N1, N2. nia.
Qed.

Lemma remove_duplicates_ok b detect : wf b -> b_empty b = false ->
  exists b' p, remove_duplicate_constraints hash b detect = Ok (b', p) /\ NoDup (map (@tl Z) (b_ineq b')) /\
   ((b_empty b' = true /\ same_space b b' /\ wf b' /\ (b_ineq b' = [] /\ ndiv b' = O) /\ (forall v, 0 < hd 0 v -> ~ system (b_eq b) (b_ineq b) v)) \/
    (kept b b' /\ (p = false -> b' = b /\ apart (b_ineq b) (length (b_ineq b))))) /\
   (detect = false -> p = true -> (length (b_ineq b') < length (b_ineq b))%nat).
Proof.
  intros W Em. unfold remove_duplicate_constraints. destruct (Nat.leb_spec (length (b_ineq b)) 1) as [L|L].
  { exists b, false. split; [reflexivity|]. split; [apply distinct_nodup; intros i j H; lia|]. split; [|discriminate]. right. split; [apply kept_refl; exact W|]. intros _. split; [reflexivity|]. intros i j Hi Hj. lia. }
  set (n := length (b_ineq b)) in *. pose proof (index_size_gt n ltac:(lia)) as IS. set (t0 := repeat (@None nat) (index_size n)). assert (L0 : length t0 = index_size n) by apply repeat_length.
  set (h := (hash (tl (nth 0 (b_ineq b) [])) mod length t0)%nat). assert (Hh : (h < length t0)%nat) by (apply Nat.mod_upper_bound; lia).
  assert (E0 : forall x, nth x t0 None = None) by (intros x; unfold t0; destruct (Nat.lt_ge_cases x (index_size n)); [apply nth_repeat|apply nth_overflow; rewrite repeat_length; lia]).
  assert (I0 : indexed t0 (b_ineq b) 0). { split; [apply filled_repeat|]. split; [intros x j X; rewrite E0 in X; discriminate|intros j Hj; lia]. }
  assert (I1 : indexed (lset t0 h (Some O)) (b_ineq b) 1).
  { apply (indexed_insert t0 _ 0); auto. exists O. split; [|intros d' Hd'; lia]. unfold slot. rewrite Nat.add_0_r. fold h. symmetry. apply Nat.mod_small. exact Hh. }
  destruct (dup_loop_ok (total b) (S n) (lset t0 h (Some O)) (b_ineq b) 1 false) as (t & l & p & E & A1 & A2 & A3 & A4 & A5 & A6 & A7 & A8 & A9).
  - apply W.
  - fold n. lia.
  - rewrite lset_length, L0. exact IS.
  - exact I1.
  - intros i j Hij. lia.
  - fold n. lia.
  - cbn zeta. fold t0. fold h. rewrite E. specialize (A9 ltac:(lia)). fold n in A2, A7, A8. rewrite lset_length, L0 in A1.
    assert (K : kept b (set_ineq b l)).
    { destruct W as (W1 & W2 & W3). apply (kept_rows b (b_eq b) l (b_nd b)); [repeat split; assumption|exact W1|apply (Forall_incl _ (b_ineq b)); assumption|].
      intros v Hv. unfold system. split; intros (X1 & X2); (split; [exact X1|]); [apply (Forall_incl _ (b_ineq b)); assumption|apply (covers_sem v _ l Hv A6 X2)]. }
    destruct (opp_loop_ok detect (S n) t (set_ineq b l) 0 p) as (b' & p' & E2 & ND & O & LE); cbn [set_ineq b_ineq b_empty]; auto; try lia.
    + apply K.
    + intros i j Hi. lia.
    + exists b', p'. split; [exact E2|]. split; [exact ND|]. split.
      * destruct O as [O|(O1 & O2)].
        -- left. destruct O as (O1 & O2 & O3 & O3b & O4). split; [exact O1|]. split; [exact O2|]. split; [exact O3|]. split; [exact O3b|]. intros v Hv Sv. apply (O4 v Hv). apply K; assumption.
        -- right. split; [apply (kept_trans _ _ _ K O1)|]. intros Hp. destruct O2 as [[_ X]|(X1 & X2 & X3 & X4)]; [congruence|]. assert (P : p = false) by (destruct p; [rewrite X3 in Hp; [discriminate|reflexivity]|reflexivity]).
           assert (EL : l = b_ineq b). { apply A8. destruct (Nat.eq_dec (length l) n) as [|Nq]; [assumption|]. assert (p = true) by (apply A7; right; lia). congruence. }
           cbn [set_ineq b_ineq] in X1. rewrite X1, EL in X2. split; [rewrite (X4 Hp), EL; destruct b; reflexivity|exact X2].
      * intros Hd Hp. destruct (LE Hd Hp) as [X|X]; cbn [set_ineq b_ineq] in X; [|lia]. apply A7 in X. destruct X as [X|X]; [discriminate|].
        destruct O as [O|(O1 & O2)].
        -- pose proof (opp_loop_shrinks detect (S n) t (set_ineq b l) 0 p b' p' E2) as Y. cbn [set_ineq b_ineq] in Y. lia.
        -- pose proof (opp_loop_shrinks detect (S n) t (set_ineq b l) 0 p b' p' E2) as Y. cbn [set_ineq b_ineq] in Y. lia.
Qed.

Lemma detect_pairs_ok : forall fuel b p, wf b -> b_empty b = false -> (length (b_ineq b) < fuel)%nat ->
  exists b' p', detect_pairs_loop hash fuel b p = Ok (b', p') /\ NoDup (map (@tl Z) (b_ineq b')) /\
   ((b_empty b' = true /\ same_space b b' /\ wf b' /\ (b_ineq b' = [] /\ ndiv b' = O) /\ (forall v, 0 < hd 0 v -> ~ system (b_eq b) (b_ineq b) v)) \/
    (kept b b' /\ apart (b_ineq b') (length (b_ineq b')))).
Proof.
  induction fuel as [|fuel IH]; intros b p W Em F; [lia|]. cbn [detect_pairs_loop]. destruct (remove_duplicates_ok b false W Em) as (b1 & p1 & -> & ND & O & LE). destruct p1.
  - specialize (LE eq_refl eq_refl). destruct O as [O|(K & _)].
    + assert (Z1 : b_ineq b1 = []) by apply O. 
      destruct fuel as [|fuel]; [lia|]. cbn [detect_pairs_loop]. unfold remove_duplicate_constraints. rewrite Z1. cbn [length Nat.leb]. exists b1, true. split; [reflexivity|]. split; [exact ND|]. left. exact O.
    + assert (E1 : b_empty b1 = false) by (destruct K as ((_ & _ & _ & _ & _ & X) & _); congruence).
      destruct (IH b1 true ltac:(apply K) E1 ltac:(lia)) as (b' & p' & E & ND' & O'). exists b', p'. split; [exact E|]. split; [exact ND'|]. destruct O' as [(O1 & O2 & O3 & O3b & O4)|(K' & A)].
      * left. split; [exact O1|]. split; [destruct K as ((X1 & X2 & X3 & X4 & X5 & X6) & _); destruct O2 as (Y1 & Y2 & Y3 & Y4); repeat split; congruence|]. split; [exact O3|]. split; [exact O3b|]. intros v Hv Sv. apply (O4 v Hv). apply K; assumption.
      * right. split; [apply (kept_trans _ _ _ K K')|exact A].
  - exists b1, p. split; [reflexivity|]. split; [exact ND|]. destruct O as [O|(K & A)]; [left; exact O|right]. destruct (A eq_refl) as [-> A']. split; [exact K|exact A'].
Qed.
End Hash.
Section Final.
Variable hash : list Z -> nat.
Lemma empty_points b b' : b_empty b' = true -> (forall v, 0 < hd 0 v -> ~ system (b_eq b) (b_ineq b) v) ->
  forall q, length q = (1 + nvar b)%nat -> 0 < hd 0 q -> (points b q <-> points b' q).
Proof.
  intros E N q Lq Hq. split; [intros (_ & e & _ & S1)|intros (F & _); congruence]. exfalso. apply (N (q ++ e)); [|exact S1]. destruct q; [cbn in Lq; lia|exact Hq].
Qed.
Lemma shape_space b b' : shape b b' -> same_space b b'.
Proof. intros (A1 & A2 & A3 & A4 & A5 & A6). repeat split; assumption. Qed.

Lemma remove_duplicates_points b detect : wf b -> b_empty b = false ->
  exists b' p, remove_duplicate_constraints hash b detect = Ok (b', p) /\ same_space b b' /\ wf b' /\
   (forall q, length q = (1 + nvar b)%nat -> 0 < hd 0 q -> (points b q <-> points b' q)) /\
   NoDup (map (@tl Z) (b_ineq b')) /\
   (b_empty b' = false -> ndiv b' = ndiv b /\ (implied b -> implied b') /\ (acyclic b -> acyclic b') /\ (denoms (b_div b) -> denoms (b_div b'))) /\
   (b_empty b' = false -> p = false -> b' = b /\ forall i j, ((i < j < length (b_ineq b))%nat /\ tl (nth j (b_ineq b) []) = map Z.opp (tl (nth i (b_ineq b) []))) -> 0 < hd 0 (nth i (b_ineq b) []) + hd 0 (nth j (b_ineq b) [])).
Proof.
  intros W Em. destruct (remove_duplicates_ok hash b detect W Em) as (b' & p & E & ND & O & _). exists b', p. split; [exact E|]. destruct O as [(O1 & O2 & O3 & O4 & O5)|(K & A)].
  - split; [exact O2|]. split; [exact O3|]. split; [apply empty_points; assumption|]. split; [exact ND|]. split; intros X; congruence.
  - split; [apply shape_space, K|]. split; [apply K|]. split; [apply kept_points; exact K|]. split; [exact ND|]. split.
    + intros _. split; [apply K|]. split; [apply kept_implied; exact K|]. split; apply K.
    + intros _ Hp. destruct (A Hp) as [-> A']. split; [reflexivity|]. intros i j [Hij Et]. apply A'; [lia|exact Hij|exact Et].
Qed.
Lemma remove_duplicates_empty b detect b' p : wf b -> b_empty b = false -> remove_duplicate_constraints hash b detect = Ok (b', p) -> b_empty b' = true ->
  forall v, 0 < hd 0 v -> ~ system (b_eq b) (b_ineq b) v.
Proof.
  intros W Em E F. destruct (remove_duplicates_ok hash b detect W Em) as (b1 & p1 & E1 & _ & O & _). rewrite E in E1. injection E1 as <- <-. destruct O as [O|(((_ & _ & _ & _ & _ & X) & _) & _)]; [apply O|congruence].
Qed.
Lemma detect_pairs_points b : wf b -> b_empty b = false ->
  exists b' p, detect_inequality_pairs hash b = Ok (b', p) /\ same_space b b' /\ wf b' /\
   (forall q, length q = (1 + nvar b)%nat -> 0 < hd 0 q -> (points b q <-> points b' q)) /\
   NoDup (map (@tl Z) (b_ineq b')) /\ (b_empty b' = false -> ndiv b' = ndiv b /\ (implied b -> implied b')) /\
   (b_empty b' = false -> forall i j, ((i < j < length (b_ineq b'))%nat /\ tl (nth j (b_ineq b') []) = map Z.opp (tl (nth i (b_ineq b') []))) -> 0 < hd 0 (nth i (b_ineq b') []) + hd 0 (nth j (b_ineq b') [])).
Proof.
  intros W Em. destruct (detect_pairs_ok hash (S (length (b_ineq b))) b false W Em ltac:(lia)) as (b' & p & E & ND & O). exists b', p. split; [exact E|]. destruct O as [(O1 & O2 & O3 & O4 & O5)|(K & A)].
  - split; [exact O2|]. split; [exact O3|]. split; [apply empty_points; assumption|]. split; [exact ND|]. split; intros X; congruence.
  - split; [apply shape_space, K|]. split; [apply K|]. split; [apply kept_points; exact K|]. split; [exact ND|]. split.
    + intros _. split; [apply K|apply kept_implied; exact K].
    + intros _ i j [Hij Et]. apply A; [lia|exact Hij|exact Et].
Qed.
End Final.
