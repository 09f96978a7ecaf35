(** Lemmas about reorderings of the elements of lists. *)
From Coq Require Import ZArith List Bool Lia Arith.
From Verif Require Import SeqSpec SeqProofs MatModel BMapModel BMapLists BMapSpec BMapSem SpaceModel ReorderModel ReorderSpec.
Import ListNotations.
Open Scope nat_scope.

Lemma lset_length {A} (l : list A) i a : length (lset l i a) = length l.
Proof. revert i. induction l as [|x l IH]; intros [|i]; cbn; auto. Qed.
Lemma map_lset {A B} (f : A -> B) l i a : map f (lset l i a) = lset (map f l) i (f a).
Proof. revert i. induction l as [|x l IH]; intros [|i]; cbn; auto. now rewrite IH. Qed.
Lemma scatter_length src pos : forall dst i, length (scatter dst src pos i) = length dst.
Proof. induction pos as [|p t IH]; intros dst i; cbn; [reflexivity|]. now rewrite IH, lset_length. Qed.

(** the dot product with an updated list *)
Lemma dot_lset (l w : list Z) p a : p < length l -> length l = length w -> nth p l 0%Z = 0%Z ->
  dot (lset l p a) w = (dot l w + a * nth p w 0)%Z.
Proof.
  revert w p. induction l as [|x l IH]; intros [|y w] [|p] Hp L Z0; cbn in *; try lia.
  rewrite IH; lia.
Qed.
Lemma nth_lset_ne {A} (l : list A) i j a d : i <> j -> nth j (lset l i a) d = nth j l d.
Proof. revert i j. induction l as [|x l IH]; intros [|i] [|j] H; cbn; try congruence; auto. Qed.

Lemma skipn_cons_nth (l : list Z) i : i < length l -> skipn i l = nth i l 0%Z :: skipn (S i) l.
Proof. revert i. induction l as [|x l IH]; intros [|i] H; cbn [length] in H; try lia; [reflexivity|]. cbn [skipn nth]. rewrite IH by lia. reflexivity. Qed.
Lemma dot_scatter src w : forall pos dst i, length dst = length w -> NoDup pos -> Forall (fun p => p < length w /\ nth p dst 0%Z = 0%Z) pos ->
  length src = i + length pos ->
  dot (scatter dst src pos i) w = (dot dst w + dot (skipn i src) (map (fun p => nth p w 0) pos))%Z.
Proof.
  induction pos as [|p t IH]; intros dst i L N F E; cbn [scatter map].
  - cbn in E. rewrite skipn_all2 by lia. cbn. lia.
  - inversion N as [|? ? N1 N2]; subst. inversion F as [|? ? [F1 F2] F3]; subst. cbn [length] in E.
    rewrite IH; [|rewrite lset_length; exact L|exact N2| |lia].
    + rewrite dot_lset by (auto; lia).
      rewrite (skipn_cons_nth src i) by lia. cbn [dot]. lia.
    + rewrite Forall_forall in *. intros q Hq. destruct (F3 q Hq) as [A B]. split; [exact A|]. rewrite nth_lset_ne; [exact B|]. intros ->. contradiction.
Qed.

(** ** dimension maps *)
Definition entry (src : list Z) (e : nat * Z) : Z :=
  if Z.eqb (snd e) 0 then 0%Z else if Z.ltb 0 (snd e) then nth (fst e) src 0%Z else (- nth (fst e) src 0)%Z.
Lemma copy_set c src pos : forall m h i, copy_constraint (dm_set (h :: m) pos i) (c :: src) =
  entry (c :: src) h :: scatter (copy_constraint m (c :: src)) src pos i.
Proof.
  induction pos as [|p t IH]; intros m h i; cbn [dm_set scatter]; [reflexivity|].
  cbn [Nat.add lset]. rewrite IH. f_equal. f_equal. unfold copy_constraint. rewrite map_lset. reflexivity.
Qed.
Lemma copy_alloc n src : map (entry src) (repeat (0, 0%Z) n) = repeat 0%Z n.
Proof. induction n; cbn; [reflexivity|]. now rewrite IHn. Qed.
Lemma dm_set_cons pos : forall h m i, exists m', dm_set (h :: m) pos i = h :: m' /\ length m' = length m.
Proof.
  induction pos as [|p t IH]; intros h m i; cbn [dm_set]; [eauto|]. cbn [Nat.add lset].
  destruct (IH h (lset m p (1 + i, 1%Z)) (S i)) as (m' & E & L). exists m'. split; [exact E|]. now rewrite L, lset_length.
Qed.
Lemma map_seq_nth (f : nat -> nat) (l : list Z) o n : length l = o + n -> (forall i, f i = o + i) -> map (fun i => nth (f i) l 0%Z) (seq 0 n) = skipn o l.
Proof.
  intros L E. apply (nth_ext _ _ 0%Z 0%Z); [rewrite map_length, seq_length, skipn_length; lia|]. intros i Hi. rewrite map_length, seq_length in Hi.
  rewrite (nth_indep _ 0%Z (nth (f 0) l 0%Z)) by (rewrite map_length, seq_length; exact Hi).
  rewrite (map_nth (fun i => nth (f i) l 0%Z)), seq_nth by exact Hi. rewrite nth_skipn, E. f_equal.
Qed.
(** the copy of a constraint of a basic map *)
Lemma copy_ok r b c row : length row = nvar b + ndiv b ->
  copy_constraint (dm_extend (dm_from r) b) (c :: row) =
  c :: scatter (repeat 0%Z (dim_all (r_space r))) row (r_pos r) 0 ++ skipn (nvar b) row.
Proof.
  intros L. unfold dm_extend, copy_constraint. rewrite map_app. fold (copy_constraint (dm_from r) (c :: row)).
  unfold dm_from, dm_alloc. rewrite copy_set. cbn [entry fst snd Z.eqb Z.ltb Z.compare nth app]. f_equal. f_equal.
  - unfold copy_constraint. f_equal. apply (copy_alloc (dim_all (r_space r)) (c :: row)).
  - rewrite map_map. cbv beta. cbn [fst snd Z.eqb Z.ltb Z.compare]. change (map (fun x => nth (1 + nvar b + x) (c :: row) 0%Z) (seq 0 (ndiv b)) = skipn (nvar b) row). rewrite (map_seq_nth (fun i => 1 + nvar b + i) (c :: row) (1 + nvar b) (ndiv b)); [reflexivity|cbn; lia|auto].
Qed.
(** the reordered point *)
Definition pull (pos : list nat) (w : list Z) : list Z := map (fun p => nth p w 0%Z) pos.
Definition good (r : reordering) (n : nat) : Prop := NoDup (r_pos r) /\ Forall (fun p => p < n) (r_pos r).
Lemma dot_scatter0 pos n src w : length w = n -> NoDup pos -> Forall (fun p => p < n) pos -> length src = length pos ->
  dot (scatter (repeat 0%Z n) src pos 0) w = dot src (pull pos w).
Proof.
  intros Lw N F L. rewrite dot_scatter.
  - cbn [skipn]. rewrite dot_repeat0. reflexivity.
  - now rewrite repeat_length.
  - exact N.
  - rewrite Forall_forall in *. intros p Hp. split; [rewrite Lw; auto|apply nth_repeat].
  - exact L.
Qed.
Lemma scatter_firstn src k : forall pos dst i, i + length pos <= k -> scatter dst (firstn k src) pos i = scatter dst src pos i.
Proof.
  induction pos as [|p t IH]; intros dst i H; cbn [scatter]; [reflexivity|]. cbn [length] in H. rewrite IH by lia. f_equal. f_equal.
  clear - H. revert i k H. induction src as [|x l IH]; intros i k H; [now rewrite firstn_nil|]. destruct k; [lia|]. destruct i; cbn; [reflexivity|]. apply IH. lia.
Qed.
Lemma dot_copy r b c row d w e : length row = nvar b + ndiv b -> r_src r = nvar b -> good r (dim_all (r_space r)) -> length w = dim_all (r_space r) ->
  dot (copy_constraint (dm_extend (dm_from r) b) (c :: row)) (d :: w ++ e) = dot (c :: row) (d :: pull (r_pos r) w ++ e).
Proof.
  intros L S [N F] Lw. rewrite copy_ok by exact L. cbn [dot]. f_equal. unfold r_src in S.
  assert (Lf : length (firstn (nvar b) row) = length (r_pos r)) by (rewrite firstn_length; lia).
  assert (Lp : length (pull (r_pos r) w) = length (r_pos r)) by (unfold pull; apply map_length).
  rewrite dot_app2 by (rewrite scatter_length, repeat_length; lia).
  rewrite <- (firstn_skipn (nvar b) row) at 3. rewrite dot_app2 by lia.
  f_equal. rewrite <- (scatter_firstn row (nvar b)) by (cbn; lia). now apply dot_scatter0.
Qed.
