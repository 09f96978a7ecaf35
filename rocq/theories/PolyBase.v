(** Basic facts about polynomials. *)
From Coq Require Import ZArith List Bool QArith Arith Lia Setoid Morphisms.
From Verif Require Import SeqModel MatModel ValModel BMapModel BMapLists LocalModel PolyModel PolySpec.
Import ListNotations.
Open Scope Q_scope.

Lemma poly_ind' (P : poly -> Prop) : (forall n d, P (Cst n d)) -> (forall v l, Forall P l -> P (Rec v l)) -> forall p, P p.
Proof.
  intros HC HR. fix IH 1. intros [n d|v l]; [apply HC|apply HR].
  induction l as [|a t IHl]; constructor; [apply IH|exact IHl].
Qed.

(** ** values *)
Fixpoint horner (z : Q) (l : list Q) : Q := match l with [] => 0 | a :: t => a + z * horner z t end.
Definition vals (x : nat -> Q) (l : list poly) : list Q := map (pval x) l.
Lemma pval_rec x v l : pval x (Rec v l) = horner (x v) (vals x l).
Proof. cbn [pval]. induction l as [|a t IH]; cbn; [reflexivity|]. now rewrite IH. Qed.
Lemma horner_app z l m : horner z (l ++ m) == horner z l + pw z (length l) * horner z m.
Proof. induction l as [|a t IH]; cbn; [ring|]. rewrite IH. ring. Qed.
Lemma horner_zeros z n : horner z (repeat 0 n) == 0.
Proof. induction n as [|n IH]; cbn; [reflexivity|]. rewrite IH. ring. Qed.
Lemma pw_add z m n : pw z (m + n) == pw z m * pw z n.
Proof. induction m as [|m IH]; cbn; [ring|]. rewrite IH. ring. Qed.
Lemma vals_app x l m : vals x (l ++ m) = vals x l ++ vals x m.
Proof. apply map_app. Qed.
Lemma vals_length x l : length (vals x l) = length l.
Proof. apply map_length. Qed.
Inductive peq : list Q -> list Q -> Prop := peq_nil : peq [] [] | peq_cons a b l m : a == b -> peq l m -> peq (a :: l) (b :: m).
Lemma horner_peq z l m : peq l m -> horner z l == horner z m.
Proof. induction 1 as [|a b l m E H IH]; cbn; [reflexivity|]. now rewrite E, IH. Qed.
Lemma horner_ext z z' l : z == z' -> horner z l == horner z' l.
Proof. intros E. induction l as [|a t IH]; cbn; [reflexivity|]. now rewrite IH, E. Qed.

(** ** orders *)
Lemma ordered_rec b v l : ordered b (Rec v l) <->
  (v < b)%nat /\ (2 <= length l)%nat /\ p_is_zero (last l p_zero) = false /\ Forall (ordered v) l.
Proof.
  cbn [ordered]. assert (X : forall l, (fix go l := match l with [] => True | a :: t => ordered v a /\ go t end) l <-> Forall (ordered v) l).
  { clear. induction l as [|a t IH]; cbn; [split; auto|]. rewrite IH. split; [intros []; constructor; auto|]. inversion 1; auto. }
  rewrite X. tauto.
Qed.
Lemma finite_rec v l : finite (Rec v l) <-> Forall finite l.
Proof. cbn [finite]. induction l as [|a t IH]; cbn; [split; auto|]. rewrite IH. split; [intros []; constructor; auto|]. inversion 1; auto. Qed.
Lemma reduced_rec v l : reduced (Rec v l) <-> Forall reduced l.
Proof. cbn [reduced]. induction l as [|a t IH]; cbn; [split; auto|]. rewrite IH. split; [intros []; constructor; auto|]. inversion 1; auto. Qed.
Lemma ordered_mono b b' p : (b <= b')%nat -> ordered b p -> ordered b' p.
Proof. intros H. destruct p as [n d|v l]; [auto|]. rewrite !ordered_rec. intuition lia. Qed.
Lemma ordered_finite p : forall b, ordered b p -> finite p.
Proof.
  induction p as [n d|v l IH] using poly_ind'; intros b H; [exact H|]. apply ordered_rec in H as (_ & _ & _ & F). apply finite_rec.
  rewrite Forall_forall in *. intros a Ha. eapply IH; eauto.
Qed.
Lemma finite_not_nan p : finite p -> p_is_nan p = false.
Proof. destruct p as [n d|v l]; cbn; [|reflexivity]. intros. destruct (Z.eqb_spec d 0); [lia|]. apply andb_false_r. Qed.
Lemma finite_not_inf p : finite p -> p_is_infty p = false /\ p_is_neginfty p = false.
Proof. destruct p as [n d|v l]; cbn; [|auto]. intros. destruct (Z.eqb_spec d 0); [lia|]. now rewrite !andb_false_r. Qed.
Lemma is_zero_val x p : p_is_zero p = true -> pval x p == 0.
Proof. destruct p as [n d|]; cbn; [|discriminate]. rewrite andb_true_iff. intros [H _]. apply Z.eqb_eq in H. subst. reflexivity. Qed.
Lemma is_zero_depth p : p_is_zero p = true -> depth p = 0%nat.
Proof. destruct p; [reflexivity|discriminate]. Qed.
Lemma is_one_val x p : p_is_one p = true -> pval x p == 1.
Proof.
  destruct p as [n d|]; cbn; [|discriminate]. rewrite andb_true_iff. intros [H H']. apply Z.eqb_eq in H. apply Z.ltb_lt in H'. subst.
  unfold Qeq. cbn. rewrite Z2Pos.id by lia. lia.
Qed.
Lemma pvar_bound b p : ordered b p -> (pvar p < Z.of_nat b)%Z.
Proof. destruct p as [n d|v l]; [cbn; lia|]. rewrite ordered_rec. cbn. lia. Qed.
Lemma ordered_at b p w : ordered b p -> (pvar p < Z.of_nat w)%Z -> ordered w p.
Proof. destruct p as [n d|v l]; [cbn; auto|]. rewrite !ordered_rec. cbn [pvar]. intuition lia. Qed.

Lemma depth_in v l a : List.In a l -> (depth a < depth (Rec v l))%nat.
Proof.
  cbn [depth]. induction l as [|b t IH]; [intros []|]. intros [->|H]; cbn; [lia|]. specialize (IH H). cbn in IH. lia.
Qed.

(** ** constants *)
Lemma cst_reduce_spec n d : (0 < d)%Z -> exists n' d', cst_reduce n d = Cst n' d' /\ (0 < d')%Z /\ Z.gcd n' d' = 1%Z /\ (n # Z.to_pos d == n' # Z.to_pos d').
Proof.
  intros Hd. unfold cst_reduce. assert (G := Z.gcd_nonneg n d). assert (G0 : Z.gcd n d <> 0%Z) by (intros E; apply Z.gcd_eq_0_r in E; lia).
  destruct (Z.eqb_spec (Z.gcd n d) 0); [lia|]. cbn [negb andb]. destruct (Z.eqb_spec (Z.gcd n d) 1) as [E|E]; cbn [negb].
  - exists n, d. split; [reflexivity|]. split; [exact Hd|]. split; [exact E|reflexivity].
  - unfold divexact. destruct (Z.gcd_divide_l n d) as [a Ha]. destruct (Z.gcd_divide_r n d) as [c Hc].
    set (g := Z.gcd n d) in *. exists (n / g)%Z, (d / g)%Z. split; [reflexivity|].
    assert (An : (n / g = a)%Z) by (rewrite Ha at 1; apply Z.div_mul; lia).
    assert (Cn : (d / g = c)%Z) by (rewrite Hc at 1; apply Z.div_mul; lia).
    assert (Hcp : (0 < c)%Z) by nia. split; [lia|]. split.
    + apply Z.gcd_div_gcd; [lia|reflexivity].
    + rewrite An, Cn. unfold Qeq. cbn. rewrite !Z2Pos.id by lia. rewrite Ha at 1. rewrite Hc at 1. ring.
Qed.
Lemma cst_val x n d : pval x (Cst n d) = n # Z.to_pos d.
Proof. reflexivity. Qed.
Lemma sum_cst_spec n1 d1 n2 d2 x : (0 < d1)%Z -> (0 < d2)%Z -> exists n d, sum_cst n1 d1 n2 d2 = Cst n d /\ (0 < d)%Z /\ Z.gcd n d = 1%Z /\
  pval x (Cst n d) == pval x (Cst n1 d1) + pval x (Cst n2 d2).
Proof.
  intros H1 H2. unfold sum_cst. destruct (Z.eqb_spec d1 d2) as [<-|E].
  - destruct (cst_reduce_spec (n1 + n2) d1 H1) as (n & d & A & B & C & D). exists n, d. split; [exact A|]. split; [exact B|]. split; [exact C|].
    rewrite !cst_val, <- D. unfold Qeq. cbn. rewrite !Pos2Z.inj_mul, !Z2Pos.id by lia. ring.
  - destruct (cst_reduce_spec (n1 * d2 + n2 * d1) (d1 * d2)) as (n & d & A & B & C & D); [lia|]. exists n, d. split; [exact A|]. split; [exact B|]. split; [exact C|].
    rewrite !cst_val, <- D. unfold Qeq. cbn. rewrite !Pos2Z.inj_mul, !Z2Pos.id by lia. ring.
Qed.
Lemma mul_cst_spec n1 d1 n2 d2 x : (0 < d1)%Z -> (0 < d2)%Z -> exists n d, mul_cst n1 d1 n2 d2 = Cst n d /\ (0 < d)%Z /\ Z.gcd n d = 1%Z /\
  pval x (Cst n d) == pval x (Cst n1 d1) * pval x (Cst n2 d2).
Proof.
  intros H1 H2. unfold mul_cst. destruct (cst_reduce_spec (n1 * n2) (d1 * d2)) as (n & d & A & B & C & D); [lia|]. exists n, d. split; [exact A|]. split; [exact B|]. split; [exact C|].
  rewrite !cst_val, <- D. unfold Qeq. cbn. rewrite !Pos2Z.inj_mul, !Z2Pos.id by lia. ring.
Qed.
Lemma cst_zero n d : (0 < d)%Z -> p_is_zero (Cst n d) = Z.eqb n 0.
Proof. intros H. cbn. rewrite (proj2 (Z.ltb_lt _ _) H). apply andb_true_r. Qed.
Lemma cst_zero_val n d x : (0 < d)%Z -> (p_is_zero (Cst n d) = true <-> pval x (Cst n d) == 0).
Proof. intros H. rewrite cst_zero by exact H. rewrite Z.eqb_eq, cst_val. unfold Qeq. cbn. lia. Qed.

(** ** lists *)
Lemma lset_mid {A} (u : list A) a w s : lset (u ++ a :: w) (length u) s = u ++ s :: w.
Proof. induction u as [|b t IH]; cbn; [reflexivity|]. now rewrite IH. Qed.
Lemma nth_error_mid {A} (l : list A) i : (i < length l)%nat -> exists u a w, l = u ++ a :: w /\ length u = i /\ nth_error l i = Some a.
Proof.
  intros H. destruct (nth_error l i) as [a|] eqn:E; [|apply nth_error_None in E; lia].
  apply nth_error_split in E as (u & w & E & L). exists u, a, w. auto.
Qed.
Lemma firstn_mid {A} (u : list A) w : firstn (length u) (u ++ w) = u.
Proof. rewrite firstn_app, Nat.sub_diag, firstn_all. cbn. apply app_nil_r. Qed.
Lemma last_app_cons {A} (u : list A) a w d : last (u ++ a :: w) d = last (a :: w) d.
Proof. induction u as [|b t IH]; [reflexivity|]. cbn [app]. rewrite <- IH. cbn. destruct (t ++ a :: w) eqn:E; [destruct t; discriminate|reflexivity]. Qed.
