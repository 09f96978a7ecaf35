(** Integer matrices as functions: finite sums and products.  Auxiliary facts
    used in the proofs about isl_mat.c. *)
From Coq Require Import ZArith List Bool Lia Arith.
Import ListNotations.
Open Scope Z_scope.

Fixpoint sumn (n : nat) (f : nat -> Z) : Z :=
  match n with O => 0 | S n' => sumn n' f + f n' end.
Notation fm := (nat -> nat -> Z) (only parsing).
Definition Id (i j : nat) : Z := if Nat.eqb i j then 1 else 0.
Definition mmul (n : nat) (A B : fm) : fm := fun i j => sumn n (fun k => A i k * B k j).

Lemma sumn_ext n f g : (forall k, (k < n)%nat -> f k = g k) -> sumn n f = sumn n g.
Proof. induction n; intros H; cbn; [reflexivity|]. rewrite IHn, H by (intros; auto; lia). reflexivity. Qed.
Lemma sumn_0 n f : (forall k, (k < n)%nat -> f k = 0) -> sumn n f = 0.
Proof. induction n; intros H; cbn; [reflexivity|]. rewrite IHn, H by (intros; auto; lia). reflexivity. Qed.
Lemma sumn_add n f g : sumn n (fun k => f k + g k) = sumn n f + sumn n g.
Proof. induction n; cbn; [reflexivity|]. rewrite IHn. ring. Qed.
Lemma sumn_mul n c f : sumn n (fun k => c * f k) = c * sumn n f.
Proof. induction n; cbn; [ring|]. rewrite IHn. ring. Qed.
Lemma sumn_mul_r n c f : sumn n (fun k => f k * c) = sumn n f * c.
Proof. induction n; cbn; [ring|]. rewrite IHn. ring. Qed.
Lemma sumn_swap n m f : sumn n (fun i => sumn m (fun j => f i j)) = sumn m (fun j => sumn n (fun i => f i j)).
Proof.
  induction n; cbn; [symmetry; apply sumn_0; auto|]. rewrite IHn, <- sumn_add. reflexivity.
Qed.
Lemma sumn_one n i f : (i < n)%nat -> (forall k, (k < n)%nat -> k <> i -> f k = 0) -> sumn n f = f i.
Proof.
  induction n; intros Hi H; [lia|]. cbn. destruct (Nat.eq_dec i n) as [->|Hn].
  - rewrite sumn_0; [ring|]. intros; apply H; lia.
  - rewrite IHn, (H n) by (intros; try apply H; lia). ring.
Qed.
(** two sums that differ in one or two places *)
Lemma sumn_diff1 n i f g : (i < n)%nat -> (forall k, (k < n)%nat -> k <> i -> f k = g k) ->
  sumn n f = sumn n g + (f i - g i).
Proof.
  intros Hi H. assert (E : sumn n (fun k => f k + -1 * g k) = f i - g i).
  { rewrite (sumn_one n i) by (intros; try rewrite H; auto; lia). ring. }
  rewrite sumn_add, sumn_mul in E. lia.
Qed.
Lemma sumn_diff2 n i j f g : (i < n)%nat -> (j < n)%nat -> i <> j ->
  (forall k, (k < n)%nat -> k <> i -> k <> j -> f k = g k) ->
  sumn n f = sumn n g + (f i - g i) + (f j - g j).
Proof.
  intros Hi Hj Hij H.
  rewrite (sumn_diff1 n i f (fun k => if Nat.eqb k i then g k else f k)); [|exact Hi|].
  2:{ intros k Hk Hn. destruct (Nat.eqb_spec k i); congruence. }
  rewrite (sumn_diff1 n j (fun k => if Nat.eqb k i then g k else f k) g); [|exact Hj|].
  2:{ intros k Hk Hn. destruct (Nat.eqb_spec k i) as [->|]; [reflexivity|]. apply H; assumption. }
  cbn. rewrite Nat.eqb_refl. destruct (Nat.eqb_spec j i); [congruence|]. ring.
Qed.
Lemma sumn_split n m f : sumn (n + m) f = sumn n f + sumn m (fun k => f (n + k)%nat).
Proof.
  induction m; [rewrite Nat.add_0_r; cbn; ring|]. rewrite Nat.add_succ_r. cbn. rewrite IHm. ring.
Qed.

Lemma mmul_assoc n m A B C i j : mmul m (mmul n A B) C i j = mmul n A (mmul m B C) i j.
Proof.
  unfold mmul. rewrite (sumn_ext m _ (fun k => sumn n (fun l => A i l * B l k * C k j))).
  2:{ intros. rewrite <- sumn_mul_r. reflexivity. }
  rewrite sumn_swap. apply sumn_ext. intros l _. rewrite <- sumn_mul. apply sumn_ext. intros. ring.
Qed.
Lemma mmul_ext n A A' B B' i j : (forall k, (k < n)%nat -> A i k = A' i k) -> (forall k, (k < n)%nat -> B k j = B' k j) ->
  mmul n A B i j = mmul n A' B' i j.
Proof. intros HA HB. apply sumn_ext. intros k Hk. rewrite HA, HB by exact Hk. reflexivity. Qed.
Lemma mmul_Id_r n A i j : (j < n)%nat -> mmul n A Id i j = A i j.
Proof.
  intros Hj. unfold mmul. rewrite (sumn_one n j _ Hj).
  - unfold Id. rewrite Nat.eqb_refl. ring.
  - intros k _ Hk. unfold Id. destruct (Nat.eqb_spec k j); [congruence|ring].
Qed.
Lemma mmul_Id_l n A i j : (i < n)%nat -> mmul n Id A i j = A i j.
Proof.
  intros Hi. unfold mmul. rewrite (sumn_one n i _ Hi).
  - unfold Id. rewrite Nat.eqb_refl. ring.
  - intros k _ Hk. unfold Id. destruct (Nat.eqb_spec i k); [congruence|ring].
Qed.
Lemma mmul_scale_l n c A B i j : mmul n (fun i k => c * A i k) B i j = c * mmul n A B i j.
Proof. unfold mmul. rewrite <- sumn_mul. apply sumn_ext. intros. ring. Qed.
Lemma mmul_scale_r n c A B i j : mmul n A (fun k j => c * B k j) i j = c * mmul n A B i j.
Proof. unfold mmul. rewrite <- sumn_mul. apply sumn_ext. intros. ring. Qed.
Definition tr (A : fm) : fm := fun i j => A j i.
Lemma mmul_tr n A B i j : mmul n (tr B) (tr A) i j = mmul n A B j i.
Proof. unfold mmul, tr. apply sumn_ext. intros. ring. Qed.

(** matrix times vector *)
Definition mvec (n : nat) (A : fm) (x : nat -> Z) : nat -> Z := fun i => sumn n (fun k => A i k * x k).
Lemma mvec_mmul n m A B x i : mvec m (mmul n A B) x i = mvec n A (mvec m B x) i.
Proof. exact (mmul_assoc n m A B (fun k _ => x k) i O). Qed.
Lemma mvec_ext n A A' x x' i : (forall k, (k < n)%nat -> A i k = A' i k) -> (forall k, (k < n)%nat -> x k = x' k) ->
  mvec n A x i = mvec n A' x' i.
Proof. intros HA HB. apply sumn_ext. intros k Hk. rewrite HA, HB by exact Hk. reflexivity. Qed.
Lemma mvec_Id n x i : (i < n)%nat -> mvec n Id x i = x i.
Proof. intros Hi. exact (mmul_Id_l n (fun k _ => x k) i O Hi). Qed.
Lemma mvec_scale n c A x i : mvec n (fun i k => c * A i k) x i = c * mvec n A x i.
Proof. exact (mmul_scale_l n c A (fun k _ => x k) i O). Qed.

(** [U P = P U = s I] *)
Definition invp (n : nat) (U P : fm) (s : Z) : Prop :=
  (forall i j, (i < n)%nat -> (j < n)%nat -> mmul n U P i j = s * Id i j) /\
  (forall i j, (i < n)%nat -> (j < n)%nat -> mmul n P U i j = s * Id i j).
Lemma invp_sym n U P s : invp n U P s -> invp n P U s.
Proof. intros [A B]. split; assumption. Qed.
Lemma Id_sym i j : Id i j = Id j i.
Proof. unfold Id. rewrite Nat.eqb_sym. reflexivity. Qed.
Lemma invp_tr n U P s : invp n U P s -> invp n (tr P) (tr U) s.
Proof.
  intros [A B]. split; intros i j Hi Hj; rewrite mmul_tr, Id_sym; auto.
Qed.
Lemma invp_ext n U P U' P' s : (forall i j, (i < n)%nat -> (j < n)%nat -> U i j = U' i j) ->
  (forall i j, (i < n)%nat -> (j < n)%nat -> P i j = P' i j) -> invp n U P s -> invp n U' P' s.
Proof.
  intros HU HP [A B]. split; intros i j Hi Hj.
  - rewrite <- (A i j Hi Hj). apply mmul_ext; intros; symmetry; auto.
  - rewrite <- (B i j Hi Hj). apply mmul_ext; intros; symmetry; auto.
Qed.
Lemma invp_Id n : invp n Id Id 1.
Proof. split; intros i j Hi Hj; rewrite mmul_Id_l by exact Hi; ring. Qed.

(** column [j] := [a] column [j] + [b] column [i] *)
Definition colcomb (a b : Z) (i j : nat) (U : fm) : fm :=
  fun r c => if Nat.eqb c j then a * U r j + b * U r i else U r c.
Definition rowadj (a b : Z) (i j : nat) (P : fm) : fm :=
  fun r c => if Nat.eqb r j then P j c else if Nat.eqb r i then a * P i c - b * P j c else a * P r c.
Lemma invp_comb n U P s a b i j : (i < n)%nat -> (j < n)%nat -> i <> j -> invp n U P s ->
  invp n (colcomb a b i j U) (rowadj a b i j P) (a * s).
Proof.
  intros Hi Hj Hij [A B]. split; intros r c Hr Hc.
  - unfold mmul. rewrite (sumn_diff2 n i j _ (fun k => a * (U r k * P k c)) Hi Hj Hij).
    + rewrite sumn_mul. change (sumn n (fun k => U r k * P k c)) with (mmul n U P r c). rewrite A by assumption.
      unfold colcomb, rowadj. rewrite !Nat.eqb_refl. destruct (Nat.eqb_spec i j); [congruence|].
      ring.
    + intros k Hk Hki Hkj. unfold colcomb, rowadj. destruct (Nat.eqb_spec k j); [congruence|].
      destruct (Nat.eqb_spec k i); [congruence|]. ring.
  - (* expand by linearity *)
    assert (E : forall r0, mmul n (fun r k => if Nat.eqb r j then P j k else if Nat.eqb r i then a * P i k - b * P j k else a * P r k) U r0 c =
               if Nat.eqb r0 j then mmul n P U j c else if Nat.eqb r0 i then a * mmul n P U i c - b * mmul n P U j c else a * mmul n P U r0 c).
    { intros r0. unfold mmul. destruct (Nat.eqb_spec r0 j) as [->|]; [reflexivity|].
      destruct (Nat.eqb_spec r0 i) as [->|].
      - rewrite (sumn_ext n _ (fun k => a * (P i k * U k c) + - b * (P j k * U k c))) by (intros; ring).
        rewrite sumn_add, !sumn_mul. ring.
      - rewrite (sumn_ext n _ (fun k => a * (P r0 k * U k c))) by (intros; ring). rewrite sumn_mul. ring. }
    assert (F : forall X c0, mmul n X (colcomb a b i j U) r c0 =
                   if Nat.eqb c0 j then a * mmul n X U r j + b * mmul n X U r i else mmul n X U r c0).
    { intros X c0. unfold mmul, colcomb. destruct (Nat.eqb_spec c0 j) as [->|]; [|reflexivity].
      rewrite (sumn_ext n _ (fun k => a * (X r k * U k j) + b * (X r k * U k i))) by (intros; ring).
      rewrite sumn_add, !sumn_mul. ring. }
    rewrite F. unfold rowadj.
    assert (E' : forall c1, (c1 < n)%nat -> mmul n (fun r k => if Nat.eqb r j then P j k else if Nat.eqb r i then a * P i k - b * P j k else a * P r k) U r c1 =
               if Nat.eqb r j then s * Id j c1 else if Nat.eqb r i then a * (s * Id i c1) - b * (s * Id j c1) else a * (s * Id r c1)).
    { intros c1 Hc1. unfold mmul. destruct (Nat.eqb_spec r j) as [->|]; [apply (B j c1 Hj Hc1)|].
      destruct (Nat.eqb_spec r i) as [->|].
      - rewrite <- (B i c1 Hi Hc1), <- (B j c1 Hj Hc1). unfold mmul.
        rewrite (sumn_ext n _ (fun k => a * (P i k * U k c1) + - b * (P j k * U k c1))) by (intros; ring).
        rewrite sumn_add, !sumn_mul. ring.
      - rewrite <- (B r c1 Hr Hc1). unfold mmul.
        rewrite (sumn_ext n _ (fun k => a * (P r k * U k c1))) by (intros; ring). rewrite sumn_mul. ring. }
    rewrite !E' by assumption. unfold Id. clear E E' F A B.
    destruct (Nat.eqb_spec c j) as [->|Hcj].
    + rewrite !Nat.eqb_refl. destruct (Nat.eqb_spec r j) as [->|Hrj].
      * destruct (Nat.eqb_spec j i); [congruence|]. ring.
      * destruct (Nat.eqb_spec r i) as [->|]; [|ring]. 
        destruct (Nat.eqb_spec j i); [congruence|]. destruct (Nat.eqb_spec i j); [congruence|]. ring.
    + destruct (Nat.eqb_spec j c); [congruence|]. destruct (Nat.eqb_spec r j) as [->|Hrj].
      * destruct (Nat.eqb_spec j c); [congruence|]. ring.
      * destruct (Nat.eqb_spec r i) as [->|]; ring.
Qed.
(** column [j] := a column [j] *)
Definition colscale (a : Z) (j : nat) (U : fm) : fm := fun r c => if Nat.eqb c j then a * U r j else U r c.
Definition rowscale (a : Z) (j : nat) (P : fm) : fm := fun r c => if Nat.eqb r j then a * P j c else P r c.
Lemma invp_opp n U P s j : (j < n)%nat -> invp n U P s -> invp n (colscale (-1) j U) (rowscale (-1) j P) s.
Proof.
  intros Hj [A B]. split; intros r c Hr Hc.
  - rewrite <- (A r c Hr Hc). unfold mmul. apply sumn_ext. intros k Hk. unfold colscale, rowscale.
    destruct (Nat.eqb_spec k j) as [->|]; ring.
  - transitivity ((if Nat.eqb r j then -1 else 1) * (if Nat.eqb c j then -1 else 1) * mmul n P U r c).
    + unfold mmul. rewrite <- sumn_mul. apply sumn_ext. intros k Hk. unfold colscale, rowscale.
      destruct (Nat.eqb_spec r j) as [->|], (Nat.eqb_spec c j) as [->|]; ring.
    + rewrite (B r c Hr Hc). unfold Id.
      destruct (Nat.eqb_spec r j) as [->|], (Nat.eqb_spec c j) as [->|]; try rewrite Nat.eqb_refl; try ring.
      * destruct (Nat.eqb_spec j c); [congruence|ring].
      * destruct (Nat.eqb_spec r j); [congruence|ring].
Qed.
Definition swp (i j k : nat) : nat := if Nat.eqb k i then j else if Nat.eqb k j then i else k.
Lemma swp_lt i j k n : (i < n)%nat -> (j < n)%nat -> (k < n)%nat -> (swp i j k < n)%nat.
Proof. unfold swp. destruct (Nat.eqb k i), (Nat.eqb k j); auto. Qed.
Lemma swp_invol i j k : swp i j (swp i j k) = k.
Proof.
  unfold swp. destruct (Nat.eqb_spec k i) as [->|].
  - destruct (Nat.eqb_spec j i); [congruence|]. rewrite Nat.eqb_refl. reflexivity.
  - destruct (Nat.eqb_spec k j) as [->|]; [rewrite Nat.eqb_refl; reflexivity|].
    destruct (Nat.eqb_spec k i), (Nat.eqb_spec k j); congruence.
Qed.
Lemma Id_swp i j r c : Id (swp i j r) (swp i j c) = Id r c.
Proof.
  unfold Id. destruct (Nat.eqb_spec (swp i j r) (swp i j c)) as [E|E], (Nat.eqb_spec r c); try congruence.
  apply (f_equal (swp i j)) in E. rewrite !swp_invol in E. congruence.
Qed.
Lemma sumn_swp n i j f : (i < n)%nat -> (j < n)%nat -> sumn n (fun k => f (swp i j k)) = sumn n f.
Proof.
  intros Hi Hj. destruct (Nat.eq_dec i j) as [->|Hij].
  - apply sumn_ext. intros k _. unfold swp. destruct (Nat.eqb_spec k j) as [->|]; reflexivity.
  - rewrite (sumn_diff2 n i j _ f Hi Hj Hij).
    + unfold swp. rewrite !Nat.eqb_refl. destruct (Nat.eqb_spec j i); [congruence|]. ring.
    + intros k Hk Hki Hkj. unfold swp. destruct (Nat.eqb_spec k i), (Nat.eqb_spec k j); congruence.
Qed.
Lemma invp_swp n U P s i j : (i < n)%nat -> (j < n)%nat -> invp n U P s ->
  invp n (fun r c => U r (swp i j c)) (fun r c => P (swp i j r) c) s.
Proof.
  intros Hi Hj [A B]. split; intros r c Hr Hc.
  - rewrite <- (A r c Hr Hc). unfold mmul. apply (sumn_swp n i j (fun k => U r k * P k c) Hi Hj).
  - rewrite <- (Id_swp i j r c). rewrite <- (B _ _ (swp_lt i j r n Hi Hj Hr) (swp_lt i j c n Hi Hj Hc)). reflexivity.
Qed.

(** consequences *)
Lemma invp_vec n U P s x : invp n U P s -> forall i, (i < n)%nat -> mvec n P (mvec n U x) i = s * x i.
Proof.
  intros [_ B] i Hi. rewrite <- mvec_mmul. rewrite (mvec_ext n (mmul n P U) (fun i j => s * Id i j) x x); auto.
  rewrite mvec_scale, mvec_Id by exact Hi. reflexivity.
Qed.
