(** Moments and levels. *)
From Coq Require Import ZArith List Bool Arith Lia ZifyBool.
From Verif Require Import MatModel FlowModel FlowSpec.
Import ListNotations.
Open Scope Z_scope.

(** what after_at_level expresses: [x] comes before [y] *)
Definition lev_rel (l : nat) (x y : vec) : Prop :=
  if Nat.odd l then firstn (Nat.div2 l) y = firstn (Nat.div2 l) x
  else firstn (Nat.div2 l - 1) y = firstn (Nat.div2 l - 1) x /\ nth (Nat.div2 l - 1) x 0 < nth (Nat.div2 l - 1) y 0.
Lemma level_nonneg : forall p q, 0 <= level p q.
Proof. induction p as [|b p IH]; intros [|c q]; cbn [level]; try lia. destruct (b =? c); [|destruct (b <? c); lia]. destruct p; [lia|]. specialize (IH q). lia. Qed.
Lemma lt_at_cons2 k b v t c u t' : lt_at (S (S k)) (b :: v :: t) (c :: u :: t') <-> b = c /\ v = u /\ lt_at k t t'.
Proof.
  unfold lt_at. cbn [length firstn nth]. split.
  - intros (H1 & H2 & [= <- <- H3] & H4). repeat split; auto; lia.
  - intros (-> & -> & H1 & H2 & -> & H4). repeat split; auto; lia.
Qed.
Lemma lt_at_0 b t c t' : lt_at 0 (b :: t) (c :: t') <-> b < c.
Proof. unfold lt_at. cbn [length firstn nth]. split; [tauto|]. intros H. repeat split; auto; lia. Qed.
Lemma lt_at_1 b v t c u t' : lt_at 1 (b :: v :: t) (c :: u :: t') <-> b = c /\ v < u.
Proof. unfold lt_at. cbn [length firstn nth]. split; [intros (_ & _ & [= <-] & H); auto|]. intros (-> & H). repeat split; auto; lia. Qed.
Lemma time_cons b p v x : p <> [] -> time (b :: p) (v :: x) = b :: v :: time p x.
Proof. destruct p; [congruence|reflexivity]. Qed.
Lemma lev_rel_S l v x u y : (1 <= l)%nat -> (lev_rel (S (S l)) (v :: x) (u :: y) <-> v = u /\ lev_rel l x y).
Proof.
  intros Hl. unfold lev_rel. cbn [Nat.div2]. change (Nat.odd (S (S l))) with (Nat.odd l). destruct (Nat.odd l) eqn:O.
  - cbn [firstn]. split; [intros [= -> H]; auto|intros (-> & ->); reflexivity].
  - replace (S (Nat.div2 l) - 1)%nat with (S (Nat.div2 l - 1)).
    + cbn [firstn nth]. split; [intros ([= -> H] & H2); auto|intros (-> & -> & H); auto].
    + destruct l as [|[|l]]; [lia|discriminate|]. cbn [Nat.div2]. lia.
Qed.
Lemma can_S L l : 0 <= L -> (1 <= l)%nat -> can_precede_at_level (2 + L) (S (S l)) = can_precede_at_level L l.
Proof. intros HL Hl. unfold can_precede_at_level. change (Nat.odd (S (S l))) with (Nat.odd l). destruct (Nat.odd l); destruct (Z.ltb_spec (2 + L) (Z.of_nat (S (S l)))), (Z.ltb_spec L (Z.of_nat l)), (Z.ltb_spec (Z.of_nat (S (S l))) (2 + L)), (Z.ltb_spec (Z.of_nat l) L); cbn; try reflexivity; lia. Qed.
Lemma apart_cons b p c q : apart (b :: p) (c :: q) -> b = c -> apart p q.
Proof.
  intros (i & H1 & H2 & H3 & H4) ->. destruct i as [|i]; [cbn in H4; congruence|]. exists i. cbn in H1, H2, H3, H4. injection H3 as H3. repeat split; auto; lia.
Qed.
Lemma apart_nil p : ~ apart p [].
Proof. intros (i & _ & H & _). cbn in H. lia. Qed.
Lemma apart_nil_l p : ~ apart [] p.
Proof. intros (i & H & _). cbn in H. lia. Qed.
(** [x] at position [p] is executed before [y] at position [q], at level [l] *)
Lemma precede_level : forall p q x y l, apart p q \/ p = q -> length p = S (length x) -> q <> [] -> (length q <= S (length y))%nat -> (1 <= l)%nat ->
  (can_precede_at_level (level p q) l = true /\ lev_rel l x y <-> lt_at (l - 1) (time p x) (time q y)) /\
  (can_precede_at_level (level p q) l = true -> if Nat.odd l then (Nat.div2 l <= length x)%nat /\ (Nat.div2 l < length q)%nat else (Nat.div2 l - 1 < length x)%nat /\ (Nat.div2 l < length q)%nat).
Proof.
  induction p as [|b p IH]; intros q x y l Ha Hx Hq Hy Hl; [discriminate|]. destruct q as [|c q]; [congruence|]. cbn [level]. destruct (Z.eqb_spec b c) as [->|Nb].
  - destruct p as [|b' p].
    + assert (q = []) as -> by (destruct Ha as [Ha|[= Ha]]; [apply apart_cons in Ha; [destruct (apart_nil_l _ Ha)|reflexivity]|congruence]).
      assert (E : can_precede_at_level 0 l = false) by (unfold can_precede_at_level; destruct (Z.ltb_spec 0 (Z.of_nat l)); [reflexivity|lia]). rewrite E. split; [|discriminate].
      split; [intros [H _]; discriminate|]. cbn [time]. intros (_ & H2 & _ & H4). cbn [length] in H2. replace (l - 1)%nat with 0%nat in H4 by lia. cbn in H4. lia.
    + assert (Ha' : apart (b' :: p) q \/ b' :: p = q) by (destruct Ha as [Ha|[= Ha]]; [left; apply (apart_cons c (b' :: p) c q Ha eq_refl)|right; exact Ha]).
      assert (Nq : q <> []) by (intros ->; destruct Ha' as [Ha'|Ha']; [apply (apart_nil _ Ha')|discriminate]).
      destruct x as [|v x]; [discriminate|]. destruct y as [|u y]; [cbn in Hy; destruct q; [congruence|cbn in Hy; lia]|].
      rewrite !time_cons by (auto; discriminate). set (p1 := b' :: p) in *. set (L := level p1 q) in *. pose proof (level_nonneg p1 q) as HL. fold L in HL.
      destruct l as [|[|[|l]]]; [lia| | |].
      * assert (E : can_precede_at_level (2 + L) 1 = false) by (unfold can_precede_at_level; destruct (Z.ltb_spec (2 + L) (Z.of_nat 1)); [reflexivity|]; destruct (Z.ltb_spec (Z.of_nat 1) (2 + L)); [reflexivity|lia]).
        rewrite E. split; [|discriminate]. cbn [Nat.sub]. rewrite lt_at_0. split; [intros [H _]; discriminate|lia].
      * assert (E : can_precede_at_level (2 + L) 2 = true) by (unfold can_precede_at_level; destruct (Z.ltb_spec (2 + L) (Z.of_nat 2)); [lia|reflexivity]).
        rewrite E. cbn [Nat.sub]. rewrite lt_at_1. unfold lev_rel. cbn. split; [tauto|]. intros _. destruct q; [congruence|]. cbn. lia.
      * specialize (IH q x y (S l) Ha'). cbn [length] in Hx, Hy. destruct IH as (IH1 & IH2); auto; [lia|lia|]. fold L in IH1, IH2.
        rewrite can_S by lia. rewrite lev_rel_S by lia. replace (S (S (S l)) - 1)%nat with (S (S (S l - 1))) by lia. rewrite lt_at_cons2, <- IH1. split; [tauto|].
        intros H. specialize (IH2 H). change (Nat.odd (S (S (S l)))) with (Nat.odd (S l)). destruct (Nat.odd (S l)) eqn:O; change (Nat.div2 (S (S (S l)))) with (S (Nat.div2 (S l))) in *; cbn [length]; [lia|]. lia.
  - assert (T1 : exists t, time (b :: p) x = b :: t) by (destruct p; [exists []; reflexivity|]; destruct x; eexists; reflexivity). assert (T2 : exists t, time (c :: q) y = c :: t) by (destruct q; [exists []; reflexivity|]; destruct y; eexists; reflexivity).
    destruct T1 as (t1 & ->), T2 as (t2 & ->). destruct l as [|[|l]]; [lia| |].
    + cbn [Nat.sub]. rewrite lt_at_0. destruct (Z.ltb_spec b c) as [Hb|Hb].
      * unfold can_precede_at_level, lev_rel. cbn. split; [tauto|]. intros _. lia.
      * unfold can_precede_at_level. cbn. split; [|discriminate]. split; [intros [H _]; discriminate|lia].
    + assert (E : can_precede_at_level (if b <? c then 1 else 0) (S (S l)) = false) by (unfold can_precede_at_level; destruct (b <? c); destruct (Z.ltb_spec (if b <? c then 1 else 0) (Z.of_nat (S (S l)))); destruct (_ <? Z.of_nat (S (S l))) eqn:X; auto; lia).
      rewrite E. split; [|discriminate]. split; [intros [H _]; discriminate|]. intros (_ & _ & H & _). cbn in H. congruence.
Qed.

(** the order of moments *)
Lemma firstn_le {A} (i j : nat) (u v : list A) : (i <= j)%nat -> firstn j u = firstn j v -> firstn i u = firstn i v.
Proof. intros H E. rewrite <- (Nat.min_l i j) by lia. rewrite <- !firstn_firstn, E. reflexivity. Qed.
Lemma nth_eq (i j : nat) (u v : list Z) : (i < j)%nat -> firstn j u = firstn j v -> nth i u 0 = nth i v 0.
Proof.
  revert j u v. induction i as [|i IH]; intros [|j] [|a u] [|b v] H E; cbn in E |- *; try lia; try discriminate; auto; injection E as E1 E2; auto.
  - apply (IH j); [lia|exact E2].
Qed.
Lemma firstn_len {A} (k : nat) (u v : list A) : firstn k u = firstn k v -> (k <= length u)%nat -> (k <= length v)%nat.
Proof. intros E H. assert (X : length (firstn k u) = length (firstn k v)) by congruence. rewrite !firstn_length in X. lia. Qed.
Lemma lt_at_uniq i j u v : lt_at i u v -> lt_at j u v -> i = j.
Proof. intros (_ & _ & A1 & A2) (_ & _ & B1 & B2). destruct (lt_eq_lt_dec i j) as [[H|H]|H]; [|exact H|]. - pose proof (nth_eq i j u v H B1). lia. - pose proof (nth_eq j i u v H A1). lia. Qed.
Lemma lt_at_trans i j u v w : lt_at i u v -> lt_at j v w -> lt_at (Nat.min i j) u w.
Proof.
  intros (A1 & A2 & A3 & A4) (B1 & B2 & B3 & B4). set (m := Nat.min i j). unfold lt_at. split; [lia|]. split; [lia|]. split.
  - rewrite (firstn_le m i u v), (firstn_le m j v w); auto; lia.
  - destruct (lt_eq_lt_dec i j) as [[H|H]|H].
    + replace m with i by lia. rewrite <- (nth_eq i j v w); auto.
    + subst j. replace m with i by lia. lia.
    + replace m with j by lia. rewrite (nth_eq j i u v); auto.
Qed.
Lemma lt_at_irr i u : ~ lt_at i u u.
Proof. intros (_ & _ & _ & H). lia. Qed.
Lemma earlier_trans u v w : earlier u v -> earlier v w -> earlier u w.
Proof. intros (i & H1) (j & H2). exists (Nat.min i j). apply (lt_at_trans i j u v w); assumption. Qed.
Lemma earlier_irr u : ~ earlier u u.
Proof. intros (i & H). apply (lt_at_irr i u H). Qed.
Lemma earlier_asym u v : earlier u v -> ~ earlier v u.
Proof. intros H1 H2. apply (earlier_irr u), (earlier_trans u v u); assumption. Qed.
(** the one that precedes at an outer level comes first *)
Lemma outer_first i j u v t : lt_at i u t -> lt_at j v t -> (i < j)%nat -> lt_at i u v.
Proof. intros (A1 & A2 & A3 & A4) (B1 & B2 & B3 & B4) H. split; [exact A1|]. split; [lia|]. split; [rewrite A3; symmetry; apply (firstn_le i j); auto; lia|]. rewrite (nth_eq i j v t); auto. Qed.
(** two moments that precede a third at the same level agree up to that level *)
Lemma same_level i k u v t : lt_at i u t -> lt_at i v t -> lt_at k u v -> (i <= k)%nat.
Proof.
  intros (A1 & A2 & A3 & A4) (B1 & B2 & B3 & B4) (C1 & C2 & C3 & C4). destruct (Nat.le_gt_cases i k) as [H|H]; [exact H|]. assert (E : firstn i u = firstn i v) by congruence. pose proof (nth_eq k i u v H E). lia.
Qed.
Lemma time_length : forall p x, length p = S (length x) -> length (time p x) = (2 * length x + 1)%nat.
Proof. induction p as [|b [|b' p] IH]; intros x H; [discriminate| |]. - destruct x; [reflexivity|discriminate]. - destruct x as [|v x]; [discriminate|]. rewrite time_cons by discriminate. cbn [length] in *. rewrite IH by (cbn [length]; lia). lia. Qed.
Lemma earlier_cons2 b v t u t' : earlier t t' -> v = u -> earlier (b :: v :: t) (b :: u :: t').
Proof. intros (i & H) ->. exists (S (S i)). apply lt_at_cons2. auto. Qed.
Lemma earlier_0 b t c t' : b < c -> earlier (b :: t) (c :: t').
Proof. intros H. exists 0%nat. apply lt_at_0, H. Qed.
Lemma earlier_1 b v t u t' : v < u -> earlier (b :: v :: t) (b :: u :: t').
Proof. intros H. exists 1%nat. apply lt_at_1. auto. Qed.
(** different instances are executed at different moments *)
Lemma time_total : forall p q x y, apart p q \/ p = q -> length p = S (length x) -> length q = S (length y) ->
  earlier (time p x) (time q y) \/ earlier (time q y) (time p x) \/ (p = q /\ x = y).
Proof.
  induction p as [|b p IH]; intros q x y Ha Hx Hy; [discriminate|]. destruct q as [|c q]; [discriminate|].
  assert (T1 : exists t, time (b :: p) x = b :: t) by (destruct p; [exists []; reflexivity|]; destruct x; eexists; reflexivity). assert (T2 : exists t, time (c :: q) y = c :: t) by (destruct q; [exists []; reflexivity|]; destruct y; eexists; reflexivity).
  destruct (Z.lt_trichotomy b c) as [Hb|[Hb|Hb]].
  - left. destruct T1 as (t1 & ->), T2 as (t2 & ->). apply earlier_0, Hb.
  - subst c. assert (Ha' : apart p q \/ p = q) by (destruct Ha as [Ha|[= Ha]]; [left; apply (apart_cons b p b q Ha eq_refl)|right; exact Ha]).
    destruct p as [|b' p].
    + assert (q = []) as -> by (destruct Ha' as [Ha'|Ha']; [destruct (apart_nil_l _ Ha')|auto]). right. right. destruct x, y; try discriminate. auto.
    + assert (Nq : q <> []) by (intros ->; destruct Ha' as [Ha'|Ha']; [apply (apart_nil _ Ha')|discriminate]). destruct x as [|v x]; [discriminate|]. destruct y as [|u y]; [destruct q; [congruence|discriminate]|].
      rewrite !time_cons by (auto; discriminate). destruct (Z.lt_trichotomy v u) as [Hv|[Hv|Hv]].
      * left. apply earlier_1, Hv.
      * subst u. destruct (IH q x y Ha') as [H|[H|(H1 & H2)]]; [cbn in *; lia|cbn in *; lia| | |].
        -- left. apply earlier_cons2; auto.
        -- right. left. apply earlier_cons2; auto.
        -- right. right. split; congruence.
      * right. left. apply earlier_1, Hv.
  - right. left. destruct T1 as (t1 & ->), T2 as (t2 & ->). apply earlier_0, Hb.
Qed.
(** the order of the instances of the same statement *)
Lemma lexlt_time : forall p x y, length p = S (length x) -> length p = S (length y) -> (lexlt x y <-> earlier (time p x) (time p y)).
Proof.
  induction p as [|b p IH]; intros x y Hx Hy; [discriminate|]. destruct p as [|b' p].
  - destruct x, y; try discriminate. cbn. split; [tauto|apply earlier_irr].
  - destruct x as [|v x]; [discriminate|]. destruct y as [|u y]; [discriminate|]. rewrite !time_cons by discriminate. cbn [lexlt]. rewrite (IH x y) by (cbn in *; lia). split.
    + intros [H|(-> & H)]; [apply earlier_1, H|apply earlier_cons2; auto].
    + intros (i & H). destruct i as [|[|i]]; [apply lt_at_0 in H; lia|apply lt_at_1 in H; tauto|]. apply lt_at_cons2 in H. right. split; [tauto|]. exists i. tauto.
Qed.
Lemma time_app : forall p s e, length p = S (length s) -> time p (s ++ e) = time p s.
Proof. induction p as [|b [|b' p] IH]; intros s e H; [discriminate|reflexivity|]. destruct s as [|v s]; [discriminate|]. cbn [app]. rewrite !time_cons by discriminate. rewrite IH; [reflexivity|cbn in *; lia]. Qed.
