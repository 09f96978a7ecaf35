(** What copying constraints along a dimension map means. *)
From Coq Require Import ZArith List Bool Arith Lia.
From Verif Require Import BMapGauss2 BMapNorm SeqSpec SeqModel MatModel SeqProofs BMapModel BMapSpec BMapSem ReorderModel LocalModel BElimModel BElimProofs BElimVars SimpModel SimpSpec SimpBase SimpFinal SetModel SetBase.
Import ListNotations.
Open Scope Z_scope.

Lemma nth_first {A} (l : list A) : forall n k d, (k < n)%nat -> nth k (firstn n l) d = nth k l d.
Proof. induction l as [|x l IH]; intros [|n] [|k] d H; cbn; try reflexivity; try lia. apply IH. lia. Qed.
Definition slice (s n : nat) (l : list Z) : list Z := firstn n (skipn s l).
Lemma slice_length s n l : (s + n <= length l)%nat -> length (slice s n l) = n.
Proof. intros H. unfold slice. rewrite firstn_length, skipn_length. lia. Qed.
Lemma nth_slice s n l k : (k < n)%nat -> nth k (slice s n l) 0 = nth (s + k) l 0.
Proof. intros H. unfold slice. rewrite nth_first by exact H. apply nth_skipn. Qed.
Lemma slice_cons s n l : (s < length l)%nat -> slice s (S n) l = nth s l 0 :: slice (S s) n l.
Proof.
  revert l. induction s as [|s IH]; intros [|x l] H; cbn [length] in H; try lia; [reflexivity|]. unfold slice in *. cbn [skipn nth]. apply IH. lia.
Qed.
Definition entry (e : nat * Z) (r : list Z) : Z := if snd e =? 0 then 0 else if 0 <? snd e then nth (fst e) r 0 else - nth (fst e) r 0.
Lemma copy_nth m r k : nth k (copy_constraint m r) 0 = entry (nth k m (0%nat, 0)) r.
Proof. exact (map_nth (fun e => entry e r) m (0%nat, 0) k). Qed.
Lemma copy_len m r : length (copy_constraint m r) = length m.
Proof. apply map_length. Qed.
Lemma lset_len {A} (l : list A) : forall i a, length (lset l i a) = length l.
Proof. induction l as [|x l IH]; intros [|i] a; cbn; auto. Qed.
Lemma nth_lset_gen {A} (l : list A) : forall i a k d, (i < length l)%nat -> nth k (lset l i a) d = if Nat.eqb k i then a else nth k l d.
Proof.
  induction l as [|x l IH]; intros [|i] a [|k] d H; cbn [length lset nth] in *; try lia; try reflexivity. rewrite IH by lia. reflexivity.
Qed.
Lemma dm_range_len : forall n m d s i, length (dm_range m d 1 s 1 n i 1) = length m.
Proof. induction n as [|n IH]; intros m d s i; cbn [dm_range]; [reflexivity|]. rewrite IH, lset_len. reflexivity. Qed.
Lemma nth_dm_range : forall n m d s i k, (1 + d + i + n <= length m)%nat ->
  nth k (dm_range m d 1 s 1 n i 1) (0%nat, 0) = if Nat.leb (1 + d + i) k && Nat.ltb k (1 + d + i + n) then ((1 + s + (k - 1 - d))%nat, 1) else nth k m (0%nat, 0).
Proof.
  induction n as [|n IH]; intros m d s i k H; cbn [dm_range].
  - destruct (Nat.leb_spec (1 + d + i) k), (Nat.ltb_spec k (1 + d + i + 0)); cbn [andb]; try reflexivity; lia.
  - rewrite IH by (rewrite lset_len; lia). rewrite nth_lset_gen by lia.
    destruct (Nat.leb_spec (1 + d + S i) k), (Nat.ltb_spec k (1 + d + S i + n)), (Nat.leb_spec (1 + d + i) k), (Nat.ltb_spec k (1 + d + i + S n)); cbn [andb]; try lia; try reflexivity;
    destruct (Nat.eqb_spec k (1 + d + 1 * i)); try lia; try reflexivity. f_equal. lia.
Qed.
Lemma copy_lset m r p e : (p < length m)%nat -> copy_constraint (lset m p e) r = zupd (copy_constraint m r) p (entry e r).
Proof.
  intros H. apply (nth_ext _ _ 0 0); [rewrite copy_len, lset_len, zupd_length, copy_len; reflexivity|]. intros k Hk. rewrite copy_nth, nth_lset_gen by exact H. rewrite nth_zupd, copy_nth, copy_len.
  destruct (Nat.eqb_spec k p); subst; cbn [andb]; [|reflexivity]. destruct (Nat.ltb_spec p (length m)); [reflexivity|lia].
Qed.
Lemma dot_dm_range r w : forall n m d s i, (1 + d + i + n <= length m)%nat -> length w = length m -> (1 + s + i + n <= length r)%nat ->
  (forall k, (1 + d + i <= k < 1 + d + i + n)%nat -> snd (nth k m (0%nat, 0)) = 0) ->
  dot (copy_constraint (dm_range m d 1 s 1 n i 1) r) w = dot (copy_constraint m r) w + dot (slice (1 + s + i) n r) (slice (1 + d + i) n w).
Proof.
  induction n as [|n IH]; intros m d s i H Lw Lr ZR; cbn [dm_range]; [unfold slice; cbn [firstn dot]; lia|].
  rewrite IH; [|rewrite lset_len; lia|rewrite lset_len; lia|lia|].
  - rewrite copy_lset by lia. rewrite dot_zupd by (rewrite copy_len; lia). rewrite copy_nth. unfold entry at 2. replace (1 + d + 1 * i)%nat with (1 + d + i)%nat by lia. rewrite (ZR (1 + d + i)%nat) by lia. cbn [Z.eqb].
    rewrite (slice_cons (1 + s + i) n r) by lia. rewrite (slice_cons (1 + d + i) n w) by lia. cbn [dot]. unfold entry. cbn [fst snd Z.eqb Z.ltb Z.compare]. replace (1 + s + 1 * i)%nat with (1 + s + i)%nat by lia. replace (S (1 + s + i)) with (1 + s + S i)%nat by lia. replace (S (1 + d + i)) with (1 + d + S i)%nat by lia. ring.
  - intros k Hk. rewrite nth_lset_gen by lia. destruct (Nat.eqb_spec k (1 + d + 1 * i)); [lia|]. apply ZR. lia.
Qed.
Lemma dm_block_len m s n d : length (dm_block m s n d) = length m.
Proof. apply dm_range_len. Qed.
Lemma nth_dm_block m s n d k : (1 + d + n <= length m)%nat ->
  nth k (dm_block m s n d) (0%nat, 0) = if Nat.leb (1 + d) k && Nat.ltb k (1 + d + n) then ((1 + s + (k - 1 - d))%nat, 1) else nth k m (0%nat, 0).
Proof. intros H. unfold dm_block. rewrite nth_dm_range by lia. rewrite Nat.add_0_r. reflexivity. Qed.
Lemma nth_dm_out m s n d k : (1 + d + n <= length m)%nat -> (k < 1 + d \/ 1 + d + n <= k)%nat -> nth k (dm_block m s n d) (0%nat, 0) = nth k m (0%nat, 0).
Proof.
  intros H K. rewrite nth_dm_block by exact H. destruct (Nat.leb_spec (1 + d) k), (Nat.ltb_spec k (1 + d + n)); cbn [andb]; try reflexivity; lia.
Qed.
Lemma dot_dm_block r w m s n d : (1 + d + n <= length m)%nat -> length w = length m -> (1 + s + n <= length r)%nat ->
  (forall k, (1 + d <= k < 1 + d + n)%nat -> snd (nth k m (0%nat, 0)) = 0) ->
  dot (copy_constraint (dm_block m s n d) r) w = dot (copy_constraint m r) w + dot (slice (1 + s) n r) (slice (1 + d) n w).
Proof. intros H Lw Lr ZR. unfold dm_block. rewrite dot_dm_range; try lia; [rewrite !Nat.add_0_r; reflexivity|intros k Hk; apply ZR; lia]. Qed.
Lemma dm_alloc_len t : length (dm_alloc t) = S t.
Proof. unfold dm_alloc. cbn [length]. rewrite repeat_length. reflexivity. Qed.
Lemma nth_dm_alloc t k : nth k (dm_alloc t) (0%nat, 0) = if Nat.eqb k 0 then (0%nat, 1) else (0%nat, 0).
Proof.
  unfold dm_alloc. destruct k; [reflexivity|]. cbn [nth Nat.eqb]. destruct (Nat.lt_ge_cases k t); [apply nth_repeat|apply nth_overflow; rewrite repeat_length; lia].
Qed.
Lemma dot_dm_alloc t r w : length w = S t -> dot (copy_constraint (dm_alloc t) r) w = hd 0 r * hd 0 w.
Proof.
  destruct w as [|x w]; [discriminate|]. intros _. unfold copy_constraint, dm_alloc. cbn [map snd fst Z.eqb Z.ltb Z.compare dot hd]. rewrite dot_zero; [|intros y Hy; apply in_map_iff in Hy as (e & <- & He); apply repeat_spec in He; subst e; reflexivity]. destruct r; cbn [nth hd]; ring.
Qed.

(** four consecutive blocks of a row *)
Lemma dot_cat r v1 v2 : dot r (v1 ++ v2) = dot (firstn (length v1) r) v1 + dot (skipn (length v1) r) v2.
Proof.
  revert r. induction v1 as [|x v1 IH]; intros r; cbn [app length firstn skipn dot]; [destruct r; reflexivity|]. destruct r as [|y r]; cbn [firstn skipn dot app]; [reflexivity|]. rewrite IH. ring.
Qed.
Definition view4 (n1 d1 n2 d2 n3 d3 n4 d4 : nat) (w : list Z) : list Z :=
  hd 0 w :: slice (1 + d1) n1 w ++ slice (1 + d2) n2 w ++ slice (1 + d3) n3 w ++ slice (1 + d4) n4 w.
Lemma dot_view4 r w n1 d1 n2 d2 n3 d3 n4 d4 : (1 + d1 + n1 <= length w)%nat -> (1 + d2 + n2 <= length w)%nat -> (1 + d3 + n3 <= length w)%nat -> (1 + d4 + n4 <= length w)%nat ->
  length r = (1 + n1 + n2 + n3 + n4)%nat ->
  dot r (view4 n1 d1 n2 d2 n3 d3 n4 d4 w) = hd 0 r * hd 0 w + dot (slice 1 n1 r) (slice (1 + d1) n1 w) + dot (slice (1 + n1) n2 r) (slice (1 + d2) n2 w) + dot (slice (1 + n1 + n2) n3 r) (slice (1 + d3) n3 w) + dot (slice (1 + n1 + n2 + n3) n4 r) (slice (1 + d4) n4 w).
Proof.
  intros H1 H2 H3 H4 Lr. unfold view4. destruct r as [|x r]; [discriminate Lr|]. cbn [dot hd]. rewrite !dot_cat. rewrite !slice_length by lia. rewrite !skipn_plus. unfold slice. cbn [length] in Lr. cbn [skipn Nat.add].
  replace (n2 + n1)%nat with (n1 + n2)%nat by lia. replace (n3 + (n1 + n2))%nat with (n1 + n2 + n3)%nat by lia. rewrite (firstn_all2 (n := n4) (skipn (n1 + n2 + n3) r)) by (rewrite skipn_length; lia). ring.
Qed.
Lemma view4_length n1 d1 n2 d2 n3 d3 n4 d4 w : (1 + d1 + n1 <= length w)%nat -> (1 + d2 + n2 <= length w)%nat -> (1 + d3 + n3 <= length w)%nat -> (1 + d4 + n4 <= length w)%nat ->
  length (view4 n1 d1 n2 d2 n3 d3 n4 d4 w) = (1 + n1 + n2 + n3 + n4)%nat.
Proof. intros. unfold view4. cbn [length]. rewrite !app_length, !slice_length by lia. lia. Qed.
Lemma view4_last n1 d1 n2 d2 n3 d3 n4 d4 w k : (1 + d1 + n1 <= length w)%nat -> (1 + d2 + n2 <= length w)%nat -> (1 + d3 + n3 <= length w)%nat -> (k < n4)%nat ->
  nth (1 + (n1 + n2 + n3) + k) (view4 n1 d1 n2 d2 n3 d3 n4 d4 w) 0 = nth (1 + d4 + k) w 0.
Proof.
  intros H1 H2 H3 Hk. unfold view4. cbn [Nat.add nth]. rewrite app_nth2 by (rewrite slice_length; lia). rewrite slice_length by lia. rewrite app_nth2 by (rewrite slice_length; lia). rewrite slice_length by lia. rewrite app_nth2 by (rewrite slice_length; lia). rewrite slice_length by lia.
  rewrite nth_slice by lia. f_equal. lia.
Qed.
(** the dimension map with four blocks of the parameters, the input, the output
    and the local variables of [b] *)
Definition map4 (t : nat) (b : bmap) (d1 d2 d3 d4 : nat) : dim_map := dm_div (dm_out (dm_in (dm_param (dm_alloc t) b d1) b d2) b d3) b d4.
Definition vw (b : bmap) (d1 d2 d3 d4 : nat) : list Z -> list Z := view4 (b_param b) d1 (b_in b) d2 (b_out b) d3 (ndiv b) d4.
Definition inside (t n d : nat) : Prop := (d + n <= t)%nat.
Definition apart (n d n' d' : nat) : Prop := (d + n <= d' \/ d' + n' <= d \/ n = 0 \/ n' = 0)%nat.
Section Map4.
Variables (t : nat) (b : bmap) (d1 d2 d3 d4 : nat).
Hypothesis F1 : inside t (b_param b) d1.
Hypothesis F2 : inside t (b_in b) d2.
Hypothesis F3 : inside t (b_out b) d3.
Hypothesis F4 : inside t (ndiv b) d4.
Hypothesis A12 : apart (b_param b) d1 (b_in b) d2.
Hypothesis A13 : apart (b_param b) d1 (b_out b) d3.
Hypothesis A14 : apart (b_param b) d1 (ndiv b) d4.
Hypothesis A23 : apart (b_in b) d2 (b_out b) d3.
Hypothesis A24 : apart (b_in b) d2 (ndiv b) d4.
Hypothesis A34 : apart (b_out b) d3 (ndiv b) d4.
Let m := map4 t b d1 d2 d3 d4.
Lemma map4_len : length m = S t.
Proof. unfold m, map4, dm_div, dm_out, dm_in, dm_param. rewrite !dm_block_len, dm_alloc_len. reflexivity. Qed.
Lemma map4_nth k : nth k m (0%nat, 0) =
  if Nat.leb (1 + d4) k && Nat.ltb k (1 + d4 + ndiv b) then ((1 + nvar b + (k - 1 - d4))%nat, 1)
  else if Nat.leb (1 + d3) k && Nat.ltb k (1 + d3 + b_out b) then ((1 + (b_param b + b_in b) + (k - 1 - d3))%nat, 1)
  else if Nat.leb (1 + d2) k && Nat.ltb k (1 + d2 + b_in b) then ((1 + b_param b + (k - 1 - d2))%nat, 1)
  else if Nat.leb (1 + d1) k && Nat.ltb k (1 + d1 + b_param b) then ((1 + 0 + (k - 1 - d1))%nat, 1)
  else if Nat.eqb k 0 then (0%nat, 1) else (0%nat, 0).
Proof.
  unfold inside in *. unfold m, map4, dm_div, dm_out, dm_in, dm_param. rewrite !nth_dm_block, nth_dm_alloc by (rewrite ?dm_block_len, dm_alloc_len; lia). reflexivity.
Qed.
Ltac bools := repeat match goal with |- context [Nat.leb ?a ?b] => destruct (Nat.leb_spec a b) | |- context [Nat.ltb ?a ?b] => destruct (Nat.ltb_spec a b) | |- context [Nat.eqb ?a ?b] => destruct (Nat.eqb_spec a b) end; cbn [andb snd fst]; try lia.
Lemma map4_dot r w : length r = (1 + total b)%nat -> length w = S t -> dot (copy_constraint m r) w = dot r (vw b d1 d2 d3 d4 w).
Proof.
  intros Lr Lw. unfold inside, apart in *. unfold vw. unfold total, nvar in Lr. rewrite dot_view4 by lia. unfold m, map4, dm_div, dm_out, dm_in, dm_param, nvar.
  rewrite dot_dm_block; [|rewrite !dm_block_len, dm_alloc_len; lia|rewrite !dm_block_len, dm_alloc_len; lia|lia|].
  2:{ intros k Hk. rewrite !nth_dm_out by (rewrite ?dm_block_len, ?dm_alloc_len; lia). rewrite nth_dm_alloc. destruct (Nat.eqb_spec k 0); [lia|reflexivity]. }
  rewrite dot_dm_block; [|rewrite !dm_block_len, dm_alloc_len; lia|rewrite !dm_block_len, dm_alloc_len; lia|lia|].
  2:{ intros k Hk. rewrite !nth_dm_out by (rewrite ?dm_block_len, ?dm_alloc_len; lia). rewrite nth_dm_alloc. destruct (Nat.eqb_spec k 0); [lia|reflexivity]. }
  rewrite dot_dm_block; [|rewrite !dm_block_len, dm_alloc_len; lia|rewrite !dm_block_len, dm_alloc_len; lia|lia|].
  2:{ intros k Hk. rewrite !nth_dm_out by (rewrite ?dm_block_len, ?dm_alloc_len; lia). rewrite nth_dm_alloc. destruct (Nat.eqb_spec k 0); [lia|reflexivity]. }
  rewrite dot_dm_block; [|rewrite dm_alloc_len; lia|rewrite dm_alloc_len; lia|lia|].
  2:{ intros k Hk. rewrite nth_dm_alloc. destruct (Nat.eqb_spec k 0); [lia|reflexivity]. }
  rewrite dot_dm_alloc by exact Lw. cbn [Nat.add]. ring.
Qed.
Lemma map4_div r j : length r = (1 + total b)%nat -> (j < ndiv b)%nat -> nth (1 + d4 + j) (copy_constraint m r) 0 = nth (1 + nvar b + j) r 0.
Proof. intros Lr Hj. rewrite copy_nth, map4_nth. destruct (Nat.leb_spec (1 + d4) (1 + d4 + j)), (Nat.ltb_spec (1 + d4 + j) (1 + d4 + ndiv b)); cbn [andb]; try lia. unfold entry. cbn [snd fst Z.eqb Z.ltb Z.compare]. f_equal. lia. Qed.
Lemma map4_zero r k : (d1 + b_param b <= k \/ k < d1)%nat -> (d2 + b_in b <= k \/ k < d2)%nat -> (d3 + b_out b <= k \/ k < d3)%nat -> (d4 + ndiv b <= k \/ k < d4)%nat ->
  nth (1 + k) (copy_constraint m r) 0 = 0.
Proof. intros. unfold inside in *. rewrite copy_nth. unfold m, map4, dm_div, dm_out, dm_in, dm_param. rewrite !nth_dm_out by (rewrite ?dm_block_len, ?dm_alloc_len; lia). rewrite nth_dm_alloc. reflexivity. Qed.
Lemma vw_ok w : length w = S t -> length (vw b d1 d2 d3 d4 w) = (1 + total b)%nat /\ hd 0 (vw b d1 d2 d3 d4 w) = hd 0 w /\ (forall k, (k < ndiv b)%nat -> nth (1 + nvar b + k) (vw b d1 d2 d3 d4 w) 0 = nth (1 + d4 + k) w 0).
Proof.
  intros Lw. unfold inside, vw in *. split; [rewrite view4_length by lia; unfold total, nvar; lia|]. split; [reflexivity|]. intros k Hk. unfold nvar. apply view4_last; lia.
Qed.
End Map4.
