(** Giving a list of affine expressions the same integer divisions. *)
From Coq Require Import ZArith List Bool QArith Arith Lia ZifyBool Setoid.
From Verif Require Import SeqModel SeqSpec SeqProofs MatModel ValModel LocalModel LocalSpec LocalProofs BMapModel BMapLists SpaceModel SpaceSpec PolySpec QpModel QpSpec QpProofs AffModel AffSpec AffBase AffNorm AffProofs AffArith AffPull.
Import ListNotations.
Open Scope Z_scope.

(** ** the order on the rows *)
Definition fr (r : list Z) (j : nat) : Z := nth j r 0.
Definition is_last (f : nat -> Z) (l : nat) : Prop := f l <> 0 /\ forall q, (l < q)%nat -> f q = 0.
Definition rlt (f g : nat -> Z) : Prop := exists la lb, is_last f la /\ is_last g lb /\ ((la < lb)%nat \/ (la = lb /\ exists p, (forall q, (q < p)%nat -> f q = g q) /\ f p < g p)).
Lemma last_unique f a b : is_last f a -> is_last f b -> a = b.
Proof. intros (A & A') (B & B'). destruct (Nat.lt_trichotomy a b) as [H|[H|H]]; [specialize (A' b H); lia|exact H|specialize (B' a H); lia]. Qed.
Lemma rlt_trans f g h : rlt f g -> rlt g h -> rlt f h.
Proof.
  intros (la & lb & A & B & H1) (lb' & lc & B' & C & H2). pose proof (last_unique _ _ _ B B'). subst lb'. exists la, lc. split; [exact A|]. split; [exact C|].
  destruct H1 as [H1|(E1 & p & P1 & P2)], H2 as [H2|(E2 & q & Q1 & Q2)]; try (left; lia). right. split; [lia|]. exists (Nat.min p q). split.
  - intros x Hx. rewrite P1, Q1 by lia. reflexivity.
  - destruct (Nat.lt_trichotomy p q) as [H|[H|H]].
    + replace (Nat.min p q) with p by lia. rewrite <- (Q1 p H). exact P2.
    + subst q. rewrite Nat.min_id. lia.
    + replace (Nat.min p q) with q by lia. rewrite (P1 q H). exact Q2.
Qed.
Lemma rlt_ext f g f' g' : (forall j, f' j = f j) -> (forall j, g' j = g j) -> rlt f g -> rlt f' g'.
Proof.
  intros E1 E2 (la & lb & (A & A') & (B & B') & H). exists la, lb. split; [split; [rewrite E1; exact A|intros q Hq; rewrite E1; apply A'; exact Hq]|]. split; [split; [rewrite E2; exact B|intros q Hq; rewrite E2; apply B'; exact Hq]|].
  destruct H as [H|(E & p & P1 & P2)]; [left; exact H|right]. split; [exact E|]. exists p. split; [intros q Hq; rewrite E1, E2; apply P1; exact Hq|rewrite E1, E2; exact P2].
Qed.
Lemma lex_rlt l m : lex l m -> length l = length m -> exists p, (forall q, (q < p)%nat -> fr l q = fr m q) /\ fr l p < fr m p.
Proof.
  induction 1 as [x y l m H|x l m H IH]; intros L.
  - exists 0%nat. split; [intros q Hq; lia|exact H].
  - cbn in L. destruct (IH ltac:(lia)) as (p & P1 & P2). exists (S p). split; [intros [|q] Hq; [reflexivity|apply P1; lia]|exact P2].
Qed.
Lemma rlt_lex l : forall m p, length l = length m -> (forall q, (q < p)%nat -> fr l q = fr m q) -> fr l p < fr m p -> lex l m.
Proof.
  induction l as [|x l IH]; intros [|y m] p L P1 P2; cbn in L; try lia. destruct p as [|p]; [apply lex_here; exact P2|].
  pose proof (P1 0%nat ltac:(lia)) as E. unfold fr in E. cbn in E. subst y. apply lex_next. apply (IH m p); [lia| |exact P2]. intros q Hq. apply (P1 (S q)). lia.
Qed.
Lemma last_nz_is r l : is_last (fr r) l -> last_nz r = Z.of_nat l.
Proof. intros (A & B). unfold fr in A. pose proof (last_nz_ge r l A). pose proof (last_nz_lt r (S l) ltac:(intros j Hj; apply B; lia)). lia. Qed.
Lemma last_ex r : nth 0 r 0 <> 0 -> exists l, is_last (fr r) l.
Proof. intros H. pose proof (last_non_zero_ok r) as B. destruct (seq_last_non_zero r) as [k|]; [|exfalso; apply H; apply B]. exists k. destruct B as (_ & B & C). split; [exact B|exact C]. Qed.
Lemma cmp_lt ri rj i j n nc : nth 0 ri 0 <> 0 -> nth 0 rj 0 <> 0 -> length ri = length rj -> rlt (fr ri) (fr rj) -> cmp_row ri rj i j n nc < 0.
Proof.
  intros Ni Nj L (la & lb & A & B & H). rewrite cmp_known by assumption. rewrite (last_nz_is _ _ A), (last_nz_is _ _ B). destruct H as [H|(E & p & P1 & P2)].
  - destruct (Z.eqb_spec (Z.of_nat la) (Z.of_nat lb)); cbn [negb]; lia.
  - subst lb. rewrite Z.eqb_refl. cbn [negb]. apply (proj1 (seq_cmp_ok ri rj L)). apply (rlt_lex ri rj p L P1 P2).
Qed.
Lemma cmp_lt_rlt ri rj i j n nc : nth 0 ri 0 <> 0 -> nth 0 rj 0 <> 0 -> length ri = length rj -> cmp_row ri rj i j n nc < 0 -> rlt (fr ri) (fr rj).
Proof.
  intros Ni Nj L. rewrite cmp_known by assumption. destruct (last_ex ri Ni) as (la & A). destruct (last_ex rj Nj) as (lb & B). rewrite (last_nz_is _ _ A), (last_nz_is _ _ B). intros H. exists la, lb. split; [exact A|]. split; [exact B|].
  destruct (Z.eqb_spec (Z.of_nat la) (Z.of_nat lb)) as [E|E]; cbn [negb] in H; [right; split; [lia|]; apply lex_rlt; [exact (proj1 (proj1 (seq_cmp_ok ri rj L)) H)|exact L]|left; lia].
Qed.
Lemma cmp_gt_rlt ri rj i j n nc : nth 0 ri 0 <> 0 -> nth 0 rj 0 <> 0 -> length ri = length rj -> 0 < cmp_row ri rj i j n nc -> rlt (fr rj) (fr ri).
Proof.
  intros Ni Nj L. rewrite cmp_known by assumption. destruct (last_ex ri Ni) as (la & A). destruct (last_ex rj Nj) as (lb & B). rewrite (last_nz_is _ _ A), (last_nz_is _ _ B). intros H. exists lb, la. split; [exact B|]. split; [exact A|].
  destruct (Z.eqb_spec (Z.of_nat la) (Z.of_nat lb)) as [E|E]; cbn [negb] in H; [right; split; [lia|]; apply lex_rlt; [exact (proj1 (proj2 (proj2 (seq_cmp_ok ri rj L))) H)|lia]|left; lia].
Qed.
(** ** expanding rows *)
Definition expands (c : nat) (e : list nat) (f g : nat -> Z) : Prop :=
  (forall p, (p < c)%nat -> g p = f p) /\ (forall i, (i < length e)%nat -> g (c + nth i e 0)%nat = f (c + i)%nat) /\
  (forall p, (c <= p)%nat -> (forall i, (i < length e)%nat -> p <> (c + nth i e 0)%nat) -> g p = 0) /\ (forall i, (length e <= i)%nat -> f (c + i)%nat = 0).
Definition phi (c : nat) (e : list nat) (p : nat) : nat := if Nat.ltb p c then p else (c + nth (p - c) e 0)%nat.
Lemma find_pos e p : (exists i, (i < length e)%nat /\ p = nth i e 0%nat) \/ (forall i, (i < length e)%nat -> p <> nth i e 0%nat).
Proof.
  induction e as [|a t IH]; [right; intros i Hi; cbn in Hi; lia|]. destruct (Nat.eq_dec p a) as [->|N]; [left; exists 0%nat; cbn; split; [lia|reflexivity]|].
  destruct IH as [(i & Hi & E)|H]; [left; exists (S i); cbn; split; [lia|exact E]|right; intros [|i] Hi; cbn in *; [exact N|apply H; lia]].
Qed.
Lemma phi_val c e f g p : expands c e f g -> (p < c + length e)%nat -> g (phi c e p) = f p.
Proof. intros (A & B & _) H. unfold phi. destruct (Nat.ltb_spec p c) as [Hp|Hp]; [apply A; exact Hp|]. rewrite B by lia. f_equal. lia. Qed.
Lemma phi_mono c e p q : increasing e -> (p < q)%nat -> (q < c + length e)%nat -> (phi c e p < phi c e q)%nat.
Proof. intros I H Hq. unfold phi. destruct (Nat.ltb_spec p c), (Nat.ltb_spec q c); try lia. pose proof (I (p - c)%nat (q - c)%nat ltac:(lia) ltac:(lia)). lia. Qed.
Lemma phi_cover c e x : (exists p, (p < c + length e)%nat /\ x = phi c e p) \/ (forall f g, expands c e f g -> g x = 0).
Proof.
  destruct (Nat.ltb_spec x c) as [Hx|Hx]; [left; exists x; split; [lia|]; unfold phi; destruct (Nat.ltb_spec x c); [reflexivity|lia]|].
  destruct (find_pos e (x - c)) as [(i & Hi & E)|H].
  - left. exists (c + i)%nat. split; [lia|]. unfold phi. destruct (Nat.ltb_spec (c + i) c); [lia|]. replace (c + i - c)%nat with i by lia. lia.
  - right. intros f g (_ & _ & Z0 & _). apply Z0; [exact Hx|]. intros i Hi E. apply (H i Hi). lia.
Qed.
Lemma phi_last c e f g l : increasing e -> expands c e f g -> is_last f l -> is_last g (phi c e l).
Proof.
  intros I X (A & B). assert (Hl : (l < c + length e)%nat). { destruct (Nat.ltb_spec l (c + length e)) as [H|H]; [exact H|]. exfalso. apply A. destruct X as (_ & _ & _ & Z0). replace l with (c + (l - c))%nat by lia. apply Z0. lia. }
  split; [rewrite (phi_val _ _ _ _ _ X Hl); exact A|]. intros q Hq. destruct (phi_cover c e q) as [(p & Hp & ->)|H]; [|exact (H _ _ X)].
  rewrite (phi_val _ _ _ _ _ X Hp). apply B. destruct (Nat.lt_trichotomy l p) as [Y|[Y|Y]]; [exact Y|subst; lia|pose proof (phi_mono c e p l I Y Hl); lia].
Qed.
Lemma rlt_expand c e f g f' g' : increasing e -> expands c e f f' -> expands c e g g' -> rlt f g -> rlt f' g'.
Proof.
  intros I X Y (la & lb & A & B & H). exists (phi c e la), (phi c e lb). split; [exact (phi_last _ _ _ _ _ I X A)|]. split; [exact (phi_last _ _ _ _ _ I Y B)|].
  assert (Hb : (lb < c + length e)%nat). { destruct (Nat.ltb_spec lb (c + length e)) as [Hl|Hl]; [exact Hl|]. exfalso. apply (proj1 B). destruct Y as (_ & _ & _ & Z0). replace lb with (c + (lb - c))%nat by lia. apply Z0. lia. }
  destruct H as [H|(E & p & P1 & P2)]; [left; apply phi_mono; assumption|right]. split; [congruence|].
  assert (Hp : (p < c + length e)%nat). { destruct (Nat.ltb_spec p (c + length e)) as [Hl|Hl]; [exact Hl|]. exfalso. destruct X as (_ & _ & _ & Z1). destruct Y as (_ & _ & _ & Z2). replace p with (c + (p - c))%nat in P2 by lia. rewrite Z1, Z2 in P2 by lia. lia. }
  exists (phi c e p). split; [|rewrite (phi_val _ _ _ _ _ X Hp), (phi_val _ _ _ _ _ Y Hp); exact P2].
  intros q Hq. destruct (phi_cover c e q) as [(x & Hx & ->)|Z0]; [|rewrite (Z0 _ _ X), (Z0 _ _ Y); reflexivity].
  rewrite (phi_val _ _ _ _ _ X Hx), (phi_val _ _ _ _ _ Y Hx). apply P1. destruct (Nat.lt_trichotomy x p) as [T|[T|T]]; [exact T|subst; lia|pose proof (phi_mono c e p x I T Hx); lia].
Qed.
Lemma expands_compose c e e' f g h : increasing e' -> (forall i, (i < length e)%nat -> (nth i e 0 < length e')%nat) -> expands c e f g -> expands c e' g h -> expands c (map (fun i => nth i e' 0%nat) e) f h.
Proof.
  intros I B (A1 & A2 & A3 & A4) (C1 & C2 & C3 & C4). assert (N : forall i, (i < length e)%nat -> nth i (map (fun i => nth i e' 0%nat) e) 0%nat = nth (nth i e 0%nat) e' 0%nat).
  { intros i Hi. rewrite (nth_indep _ 0%nat (nth 0%nat e' 0%nat)) by (rewrite map_length; exact Hi). apply (map_nth (fun i => nth i e' 0%nat)). }
  split; [intros p Hp; rewrite C1, A1 by exact Hp; reflexivity|]. rewrite map_length. split; [intros i Hi; rewrite N by exact Hi; rewrite C2 by (apply B; exact Hi); apply A2; exact Hi|]. split; [|exact A4].
  intros p Hp H. destruct (find_pos e' (p - c)) as [(k & Hk & E)|Z0]; [|apply C3; [exact Hp|intros i Hi X; apply (Z0 i Hi); lia]].
  replace p with (c + nth k e' 0)%nat by lia. rewrite C2 by exact Hk. apply A3; [lia|]. intros i Hi X. apply (H i Hi). rewrite N by exact Hi. replace (nth i e 0%nat) with k by lia. lia.
Qed.
(** ** lists of integer divisions that are contained in each other *)
Definition embeds (d : nat) (M L : mat) (e : list nat) : Prop :=
  length e = length M /\ increasing e /\ (forall i, (i < length M)%nat -> (nth i e 0 < length L)%nat) /\
  (forall i, (i < length M)%nat -> expands (2 + d) e (fr (nth i M [])) (fr (nth (nth i e 0%nat) L []))) /\
  (forall i j, (i < length L)%nat -> (j < length M)%nat -> (forall k, (k < j)%nat -> (nth k e 0 < i)%nat) -> (i < nth j e 0)%nat -> rlt (fr (nth i L [])) (fr (nth (nth j e 0%nat) L []))).
Lemma least_pos e x n : (n < length e)%nat -> (x <= nth n e 0)%nat -> exists k, (k <= n)%nat /\ (x <= nth k e 0)%nat /\ forall k', (k' < k)%nat -> (nth k' e 0 < x)%nat.
Proof.
  intros Hn Hx. induction n as [|n IH]; [exists 0%nat; split; [lia|]; split; [exact Hx|intros; lia]|]. destruct (Nat.le_gt_cases x (nth n e 0%nat)) as [H|H].
  - destruct (IH ltac:(lia) H) as (k & A & B & C). exists k. split; [lia|]. split; [exact B|exact C].
  - destruct (Nat.le_gt_cases x (nth 0 e 0%nat)) as [H0|H0]; [exists 0%nat; split; [lia|]; split; [exact H0|intros; lia]|].
    assert (G : forall m, (m <= S n)%nat -> (exists k, (k < m)%nat /\ (x <= nth k e 0)%nat /\ forall k', (k' < k)%nat -> (nth k' e 0 < x)%nat) \/ forall k', (k' < m)%nat -> (nth k' e 0 < x)%nat).
    { induction m as [|m IHm]; intros Hm; [right; intros; lia|]. destruct (IHm ltac:(lia)) as [(k & A & B)|R]; [left; exists k; split; [lia|exact B]|]. destruct (Nat.le_gt_cases x (nth m e 0%nat)) as [Y|Y].
      - left. exists m. split; [lia|]. split; [exact Y|exact R].
      - right. intros k' Hk'. destruct (Nat.eq_dec k' m) as [->|]; [exact Y|apply R; lia]. }
    destruct (G (S n) ltac:(lia)) as [(k & A & B & C)|R]; [exists k; split; [lia|]; split; [exact B|exact C]|]. exists (S n). split; [lia|]. split; [exact Hx|exact R].
Qed.
Lemma embeds_trans d M L N e e' : embeds d M L e -> embeds d L N e' -> embeds d M N (map (fun i => nth i e' 0%nat) e).
Proof.
  intros (L1 & I1 & B1 & X1 & T1) (L2 & I2 & B2 & X2 & T2).
  assert (NN : forall i, (i < length M)%nat -> nth i (map (fun i => nth i e' 0%nat) e) 0%nat = nth (nth i e 0%nat) e' 0%nat).
  { intros i Hi. rewrite (nth_indep _ 0%nat (nth 0%nat e' 0%nat)) by (rewrite map_length; lia). apply (map_nth (fun i => nth i e' 0%nat)). }
  assert (MO : forall a b, (b < length L)%nat -> (nth a e' 0 < nth b e' 0)%nat -> (a < length L)%nat -> (a < b)%nat). { intros a b Hb Hlt Ha. destruct (Nat.lt_trichotomy a b) as [H|[H|H]]; [exact H|subst; lia|pose proof (I2 b a H ltac:(lia)); lia]. }
  split; [rewrite map_length; exact L1|]. split; [|split; [|split]].
  - intros i j Hij Hj. rewrite map_length in Hj. rewrite !NN by lia. apply I2; [apply I1; lia|]. rewrite L2. apply B1. lia.
  - intros i Hi. rewrite NN by exact Hi. apply B2. apply B1. exact Hi.
  - intros i Hi. rewrite NN by exact Hi. apply (expands_compose _ e e' _ (fr (nth (nth i e 0%nat) L []))); [exact I2|intros k Hk; rewrite L2; apply B1; lia|apply X1; exact Hi|apply X2; apply B1; exact Hi].
  - intros i j Hi Hj Hk Hlt. rewrite NN in * by exact Hj. pose proof (B1 j Hj) as Bj. destruct (least_pos e' i (nth j e 0%nat) ltac:(lia) ltac:(lia)) as (k & K1 & K2 & K3).
    assert (LK : (k < nth j e 0)%nat -> rlt (fr (nth (nth k e' 0%nat) N [])) (fr (nth (nth (nth j e 0%nat) e' 0%nat) N []))).
    { intros Hkj. apply (rlt_expand (2 + d) e' (fr (nth k L [])) (fr (nth (nth j e 0%nat) L []))); [exact I2|apply X2; lia|apply X2; lia|]. apply T1; [lia|exact Hj| |exact Hkj].
      intros s Hs. specialize (Hk s Hs). rewrite NN in Hk by lia. apply MO; [lia| |apply B1; lia]. lia. }
    destruct (Nat.eq_dec i (nth k e' 0%nat)) as [->|N1].
    + apply LK. destruct (Nat.eq_dec k (nth j e 0%nat)) as [->|]; lia.
    + assert (R : rlt (fr (nth i N [])) (fr (nth (nth k e' 0%nat) N []))) by (apply T2; [exact Hi|lia|exact K3|lia]).
      destruct (Nat.eq_dec k (nth j e 0%nat)) as [->|N2]; [exact R|]. apply (rlt_trans _ _ _ R). apply LK. lia.
Qed.
Lemma nth_seq0 n i : (i < n)%nat -> nth i (seq 0 n) 0%nat = i.
Proof. intros H. rewrite seq_nth by exact H. reflexivity. Qed.
Lemma embeds_refl d M : wf_divs d M -> embeds d M M (seq 0 (length M)).
Proof.
  intros W. split; [apply seq_length|]. split; [intros i j Hij Hj; rewrite seq_length in Hj; rewrite !nth_seq0 by lia; exact Hij|]. split; [intros i Hi; rewrite nth_seq0 by exact Hi; exact Hi|]. split.
  - intros i Hi. rewrite nth_seq0 by exact Hi. split; [reflexivity|]. rewrite seq_length. split; [intros k Hk; rewrite nth_seq0 by exact Hk; reflexivity|]. destruct (W i Hi) as (Lr & _ & Z0). unfold fr. split.
    + intros p Hp H. destruct (Nat.ltb_spec (p - (2 + d)) (length M)) as [Hl|Hl]; [exfalso; apply (H (p - (2 + d))%nat Hl); rewrite nth_seq0 by exact Hl; lia|]. apply nth_overflow. lia.
    + intros k Hk. apply nth_overflow. lia.
  - intros i j Hi Hj H Hlt. rewrite nth_seq0 in Hlt by exact Hj. specialize (H i Hlt). rewrite nth_seq0 in H by exact Hi. lia.
Qed.
(** ** expand_row *)
Lemma expand_row_nth w c row exp : (c <= length row)%nat -> (c <= w)%nat -> increasing exp -> (forall i, (i < length exp)%nat -> (c + nth i exp 0 < w)%nat) -> forall m, (m <= length exp)%nat ->
  let f := fold_left (fun r i => zupd r (c + nth i exp 0%nat) (nth (c + i) row 0)) (seq 0 m) (firstn c row ++ repeat 0 (w - c)) in
  length f = w /\ (forall p, (p < c)%nat -> nth p f 0 = nth p row 0) /\ (forall i, (i < m)%nat -> nth (c + nth i exp 0%nat) f 0 = nth (c + i) row 0) /\
  (forall p, (c <= p)%nat -> (forall i, (i < m)%nat -> p <> (c + nth i exp 0)%nat) -> nth p f 0 = 0).
Proof.
  intros Hr Hw I B. induction m as [|m IH]; intros Hm.
  - cbn [seq fold_left]. assert (Lf : length (firstn c row) = c) by (apply firstn_length_le; exact Hr). split; [rewrite app_length, repeat_length, Lf; lia|]. split; [|split; [intros; lia|]].
    + intros p Hp. rewrite app_nth1 by lia. rewrite nth_firstn. destruct (Nat.ltb_spec p c); [reflexivity|lia].
    + intros p Hp _. rewrite app_nth2 by lia. apply nth_repeat.
  - rewrite seq_S, fold_left_app. cbn [Nat.add fold_left]. destruct IH as (L & P1 & P2 & P3); [lia|]. set (f := fold_left _ (seq 0 m) _) in *. cbv zeta. pose proof (B m ltac:(lia)) as Bm.
    split; [rewrite zupd_length; exact L|]. split; [|split].
    + intros p Hp. rewrite nth_zupd. destruct (Nat.eqb_spec p (c + nth m exp 0%nat)%nat); [lia|]. cbn [andb]. apply P1. exact Hp.
    + intros i Hi. rewrite nth_zupd. destruct (Nat.eq_dec i m) as [->|N]; [rewrite Nat.eqb_refl; destruct (Nat.ltb_spec (c + nth m exp 0%nat) (length f)); [reflexivity|lia]|].
      pose proof (I i m ltac:(lia) ltac:(lia)). destruct (Nat.eqb_spec (c + nth i exp 0%nat) (c + nth m exp 0%nat)); [lia|]. cbn [andb]. apply P2. lia.
    + intros p Hp H. rewrite nth_zupd. destruct (Nat.eqb_spec p (c + nth m exp 0%nat)%nat) as [->|N]; [exfalso; apply (H m); [lia|reflexivity]|]. cbn [andb]. apply P3; [exact Hp|]. intros i Hi. apply H. lia.
Qed.
Lemma expand_row_expands d M s e w n : div_row d n s (nth s M []) -> (s < n)%nat -> (2 + d <= w)%nat -> length e = n -> increasing e -> (forall i, (i < s)%nat -> (2 + d + nth i e 0 < w)%nat) ->
  expands (2 + d) e (fr (nth s M [])) (fr (expand_row w (2 + d) M s (firstn s e))) /\ length (expand_row w (2 + d) M s (firstn s e)) = w.
Proof.
  intros (L & N & Z0) Hs Hw Le I B. assert (Ls : length (firstn s e) = s) by (rewrite firstn_length; lia). assert (NF : forall i, (i < s)%nat -> nth i (firstn s e) 0%nat = nth i e 0%nat) by (intros i Hi; rewrite nth_firstn; destruct (Nat.ltb_spec i s); [reflexivity|lia]).
  unfold expand_row. destruct (expand_row_nth w (2 + d) (nth s M []) (firstn s e) ltac:(lia) Hw (increasing_firstn _ _ I) ltac:(intros i Hi; rewrite NF by lia; apply B; lia) s ltac:(lia)) as (A1 & A2 & A3 & A4). cbv zeta in *.
  set (f := fold_left _ _ _) in *. split; [|exact A1]. unfold fr. split; [exact A2|]. split; [|split].
  - intros i Hi. destruct (Nat.ltb_spec i s) as [H|H]; [rewrite <- (NF i H); apply A3; exact H|]. rewrite (Z0 (2 + d + i)%nat) by lia. apply A4; [lia|]. intros k Hk E. rewrite NF in E by exact Hk. pose proof (I k i ltac:(lia) Hi). lia.
  - intros p Hp H. apply A4; [exact Hp|]. intros i Hi. rewrite NF by exact Hi. apply H. lia.
  - intros i Hi. apply Z0. lia.
Qed.
Lemma expands_unique c e f g g' : expands c e f g -> expands c e f g' -> forall p, g p = g' p.
Proof.
  intros (A1 & A2 & A3 & _) (B1 & B2 & B3 & _) p. destruct (Nat.ltb_spec p c) as [Hp|Hp]; [rewrite A1, B1 by exact Hp; reflexivity|]. destruct (find_pos e (p - c)) as [(i & Hi & E)|H].
  - replace p with (c + nth i e 0)%nat by lia. rewrite A2, B2 by exact Hi. reflexivity.
  - rewrite A3, B3; [reflexivity|exact Hp| |exact Hp|]; intros i Hi X; apply (H i Hi); lia.
Qed.
(** ** isl_merge_divs *)
Definition betw (w d : nat) (M div : mat) (e : list nat) : Prop := forall i j, (i < length div)%nat -> (j < length M)%nat -> (forall k, (k < j)%nat -> (k < length e)%nat /\ (nth k e 0 < i)%nat) -> ((j < length e)%nat -> (i < nth j e 0)%nat) ->
  rlt (fr (nth i div [])) (fr (expand_row w (2 + d) M j (firstn j e))).
Lemma betw_place w d M div e r : placed w d M div e -> betw w d M div e -> betw w d M (div ++ [r]) (e ++ [length div]).
Proof.
  intros (L & I & P) H i j Hi Hj H1 H2. rewrite app_length in Hi, H1, H2. cbn [length] in *. assert (N1 : forall k, (k < length e)%nat -> nth k (e ++ [length div]) 0%nat = nth k e 0%nat) by (intros k Hk; apply app_nth1; exact Hk).
  assert (N2 : nth (length e) (e ++ [length div]) 0%nat = length div) by (rewrite app_nth2, Nat.sub_diag by lia; reflexivity).
  assert (Hje : (j <= length e)%nat). { destruct (Nat.le_gt_cases j (length e)) as [X|X]; [exact X|]. destruct (H1 (length e) X) as (_ & Y). rewrite N2 in Y. lia. }
  assert (F : firstn j (e ++ [length div]) = firstn j e) by (rewrite firstn_app; replace (j - length e)%nat with 0%nat by lia; cbn [firstn]; apply app_nil_r). rewrite F.
  assert (Hil : (i < length div)%nat). { destruct (Nat.eq_dec j (length e)) as [->|Ne]; [rewrite N2 in H2; specialize (H2 ltac:(lia)); lia|]. specialize (H2 ltac:(lia)). rewrite N1 in H2 by lia. destruct (P j ltac:(lia)). lia. }
  rewrite app_nth1 by exact Hil. apply H; [exact Hil|exact Hj| |].
  - intros k Hk. destruct (H1 k Hk) as (A & B). rewrite N1 in B by lia. split; [lia|exact B].
  - intros Hl. rewrite <- N1 by exact Hl. apply H2. lia.
Qed.
Lemma betw_other w d M div e r : placed w d M div e -> betw w d M div e -> ((length e < length M)%nat -> rlt (fr r) (fr (expand_row w (2 + d) M (length e) e))) -> betw w d M (div ++ [r]) e.
Proof.
  intros (L & I & P) H Hr i j Hi Hj H1 H2. rewrite app_length in Hi. cbn [length] in Hi. destruct (Nat.eq_dec i (length div)) as [->|N].
  - rewrite app_nth2, Nat.sub_diag by lia. cbn [nth]. destruct (Nat.lt_trichotomy j (length e)) as [X|[->|X]].
    + destruct (P j X) as (Y & _). specialize (H2 X). lia.
    + rewrite firstn_all. apply Hr. exact Hj.
    + destruct (H1 (length e) X) as (Y & _). lia.
  - rewrite app_nth1 by lia. apply H; [lia|exact Hj|exact H1|exact H2].
Qed.
Lemma merge_loop_betw d M1 M2 : wf_divs d M1 -> wf_divs d M2 -> known M1 -> known M2 -> let n := (length M1 + length M2)%nat in let w := (2 + d + n)%nat in
  forall fuel div e1 e2, (length M1 - length e1 + (length M2 - length e2) < fuel)%nat -> (length div <= length e1 + length e2)%nat ->
  placed w d M1 div e1 -> placed w d M2 div e2 -> LocalProofs.rows_ok True w d div -> betw w d M1 div e1 -> betw w d M2 div e2 ->
  exists div' e1' e2', merge_loop fuel w (2 + d) M1 M2 div e1 e2 = Ok (div', e1', e2') /\ placed w d M1 div' e1' /\ placed w d M2 div' e2' /\ LocalProofs.rows_ok True w d div' /\
    length e1' = length M1 /\ length e2' = length M2 /\ (length div' <= n)%nat /\ betw w d M1 div' e1' /\ betw w d M2 div' e2'.
Proof.
  intros W1 W2 K1 K2 n w. induction fuel as [|f IH]; intros div e1 e2 Hf Hd P1 P2 R T1 T2; [lia|]. cbn [merge_loop]. pose proof P1 as (L1 & _). pose proof P2 as (L2 & _).
  destruct (Nat.ltb_spec (length e1) (length M1)) as [H1|H1], (Nat.ltb_spec (length e2) (length M2)) as [H2|H2]; cbn [andb].
  - destruct (row_fits True w d M1 n div e1 (fun _ => K1) W1 ltac:(lia) P1 H1 ltac:(lia)) as (A1 & B1 & C1). destruct (row_fits True w d M2 n div e2 (fun _ => K2) W2 ltac:(lia) P2 H2 ltac:(lia)) as (A2 & B2 & C2). cbv zeta in *.
    set (r1 := expand_row w (2 + d) M1 (length e1) e1) in *. set (r2 := expand_row w (2 + d) M2 (length e2) e2) in *. pose proof (proj2 B1 Logic.I) as N1. pose proof (proj2 B2 Logic.I) as N2. set (cmp := cmp_row r1 r2 _ _ _ _).
    destruct (Z.eqb_spec cmp 0) as [E|E]; [|destruct (Z.ltb_spec cmp 0) as [E'|E']].
    + apply cmp_row_zero in E; [|lia]. apply IH; [rewrite !app_length; cbn; lia|rewrite !app_length; cbn; lia|apply placed_snoc; [exact P1|exact H1|reflexivity]|apply placed_snoc; [exact P2|exact H2|exact E]|apply rows_ok_snoc; assumption|apply betw_place; assumption|apply betw_place; assumption].
    + assert (Rl : rlt (fr r1) (fr r2)) by (apply (cmp_lt_rlt r1 r2 (length div) (length div + 1) (1 + length M1 + length M2) w); [exact N1|exact N2|lia|exact E']).
      apply IH; [rewrite !app_length; cbn; lia|rewrite !app_length; cbn; lia|apply placed_snoc; [exact P1|exact H1|reflexivity]|apply placed_weaken; exact P2|apply rows_ok_snoc; assumption|apply betw_place; assumption|apply betw_other; [exact P2|exact T2|intros _; exact Rl]].
    + assert (Rl : rlt (fr r2) (fr r1)) by (apply (cmp_gt_rlt r1 r2 (length div) (length div + 1) (1 + length M1 + length M2) w); [exact N1|exact N2|lia|fold cmp; lia]).
      apply IH; [rewrite !app_length; cbn; lia|rewrite !app_length; cbn; lia|apply placed_weaken; exact P1|apply placed_snoc; [exact P2|exact H2|reflexivity]|apply rows_ok_snoc; assumption|apply betw_other; [exact P1|exact T1|intros _; exact Rl]|apply betw_place; assumption].
  - destruct (row_fits True w d M1 n div e1 (fun _ => K1) W1 ltac:(lia) P1 H1 ltac:(lia)) as (A1 & B1 & C1). cbv zeta in *.
    apply IH; [rewrite !app_length; cbn; lia|rewrite !app_length; cbn; lia|apply placed_snoc; [exact P1|exact H1|reflexivity]|apply placed_weaken; exact P2|apply rows_ok_snoc; assumption|apply betw_place; assumption|apply betw_other; [exact P2|exact T2|intros X; lia]].
  - destruct (row_fits True w d M2 n div e2 (fun _ => K2) W2 ltac:(lia) P2 H2 ltac:(lia)) as (A2 & B2 & C2). cbv zeta in *.
    apply IH; [rewrite !app_length; cbn; lia|rewrite !app_length; cbn; lia|apply placed_weaken; exact P1|apply placed_snoc; [exact P2|exact H2|reflexivity]|apply rows_ok_snoc; assumption|apply betw_other; [exact P1|exact T1|intros X; lia]|apply betw_place; assumption].
  - exists div, e1, e2. split; [reflexivity|]. split; [exact P1|]. split; [exact P2|]. split; [exact R|]. split; [lia|]. split; [lia|]. split; [lia|]. split; assumption.
Qed.
Lemma placed_embeds d w M div e : wf_divs d M -> placed w d M div e -> length e = length M -> LocalProofs.rows_ok True w d div -> betw w d M div e -> (2 + d + length div <= w)%nat -> embeds d M (map (firstn (2 + d + length div)) div) e.
Proof.
  intros W (L & I & P) Le R T Hw. assert (FT : forall k, (k < length div)%nat -> forall j, fr (nth k (map (firstn (2 + d + length div)) div) []) j = fr (nth k div []) j).
  { intros k Hk j. rewrite nth_map_firstn. unfold fr. rewrite nth_firstn. destruct (Nat.ltb_spec j (2 + d + length div)); [reflexivity|]. symmetry. apply R; [exact Hk|lia]. }
  split; [exact Le|]. split; [exact I|]. rewrite map_length. split; [intros i Hi; apply P; lia|]. split.
  - intros i Hi. destruct (P i ltac:(lia)) as (A & B). destruct (expand_row_expands d M i e w (length M) (W i Hi) Hi ltac:(lia) Le I) as ((X1 & X2 & X3 & X4) & _). { intros k Hk. destruct (P k ltac:(lia)). lia. }
    rewrite <- B in X1, X2, X3. split; [intros p Hp; rewrite FT by exact A; apply X1; exact Hp|]. split; [intros k Hk; rewrite FT by exact A; apply X2; exact Hk|]. split; [intros p Hp H; rewrite FT by exact A; apply X3; assumption|exact X4].
  - intros i j Hi Hj H Hlt. destruct (P j ltac:(lia)) as (A & B). apply (rlt_ext (fr (nth i div [])) (fr (nth (nth j e 0%nat) div []))); [apply FT; exact Hi|apply FT; exact A|]. rewrite B. apply T; [exact Hi|exact Hj|intros k Hk; split; [lia|apply H; exact Hk]|intros _; exact Hlt].
Qed.
Lemma merge_embeds d M1 M2 : wf_divs d M1 -> wf_divs d M2 -> known M1 -> known M2 ->
  exists div e1 e2, merge_divs d M1 M2 = Ok (div, e1, e2) /\ embeds d M1 div e1 /\ embeds d M2 div e2.
Proof.
  intros W1 W2 K1 K2. unfold merge_divs. set (n := (length M1 + length M2)%nat). destruct (merge_loop_betw d M1 M2 W1 W2 K1 K2 (1 + n)%nat [] [] []) as (div & e1 & e2 & E & P1 & P2 & R & L1 & L2 & Ln & T1 & T2).
  { cbn. lia. } { cbn. lia. }
  { split; [cbn; lia|]. split; [intros i j Hi Hj; cbn in Hj; lia|intros i Hi; cbn in Hi; lia]. }
  { split; [cbn; lia|]. split; [intros i j Hi Hj; cbn in Hj; lia|intros i Hi; cbn in Hi; lia]. }
  { intros k Hk. cbn in Hk. lia. } { intros i j Hi. cbn in Hi. lia. } { intros i j Hi. cbn in Hi. lia. }
  cbv zeta in *. fold n in E, P1, P2, R, Ln, T1, T2. rewrite E. cbn [LocalModel.bind]. exists (map (firstn (2 + d + length div)) div), e1, e2. split; [reflexivity|]. split; [apply (placed_embeds d (2 + d + n)); try assumption; lia|apply (placed_embeds d (2 + d + n)); try assumption; lia].
Qed.
(** merging with a list of integer divisions that is already included changes nothing *)
Definition pad (w : nat) (r : list Z) : list Z := (r ++ repeat 0 (w - length r))%list.
Lemma nth_pad w r j : nth j (pad w r) 0 = nth j r 0.
Proof. unfold pad. destruct (Nat.ltb_spec j (length r)); [apply app_nth1; lia|]. rewrite app_nth2 by lia. rewrite nth_repeat. symmetry. apply nth_overflow. lia. Qed.
Lemma expand_pad d M L e w j : wf_divs d M -> wf_divs d L -> embeds d M L e -> (2 + d + length L <= w)%nat -> (j < length M)%nat -> expand_row w (2 + d) M j (firstn j e) = pad w (nth (nth j e 0%nat) L []).
Proof.
  intros WM WL (Le & I & B & X & _) Hw Hj. destruct (expand_row_expands d M j e w (length M) (WM j Hj) Hj ltac:(lia) Le I) as (Y & LY). { intros i Hi. specialize (B i ltac:(lia)). lia. }
  pose proof (B j Hj) as Bj. destruct (WL _ Bj) as (LL & _). apply list_eq_nth; [rewrite LY; unfold pad; rewrite app_length, repeat_length; lia|]. intros i _. rewrite nth_pad. exact (expands_unique _ _ _ _ _ Y (X j Hj) i).
Qed.
Lemma remerge_loop d M L e : wf_divs d M -> wf_divs d L -> known M -> known L -> embeds d M L e -> let w := (2 + d + (length L + length M))%nat in
  forall fuel i j, (length L - i + (length M - j) < fuel)%nat -> (i <= length L)%nat -> (j <= length M)%nat -> (forall k, (k < j)%nat -> (nth k e 0 < i)%nat) -> ((j < length M)%nat -> (i <= nth j e 0)%nat) ->
  merge_loop fuel w (2 + d) L M (map (pad w) (firstn i L)) (seq 0 i) (firstn j e) = Ok (map (pad w) L, seq 0 (length L), e).
Proof.
  intros WM WL KM KL EB w. pose proof EB as (Le & I & B & X & T). pose proof (embeds_refl d L WL) as ER. pose proof ER as (Ls & _).
  induction fuel as [|f IH]; intros i j Hf Hi Hj H1 H2; [lia|]. cbn [merge_loop]. assert (Li : length (seq 0 i) = i) by apply seq_length. assert (Lj : length (firstn j e) = j) by (rewrite firstn_length; lia). assert (Ld : length (map (pad w) (firstn i L)) = i) by (rewrite map_length, firstn_length; lia). rewrite Li, Lj, Ld.
  assert (FS : seq 0 i = firstn i (seq 0 (length L))). { rewrite <- (seq_length i 0) at 2. replace (length L) with (i + (length L - i))%nat by lia. rewrite seq_app, firstn_app, Nat.sub_diag, firstn_all, firstn_O, app_nil_r. reflexivity. }
  assert (SI : (i < length L)%nat -> map (pad w) (firstn i L) ++ [pad w (nth i L [])] = map (pad w) (firstn (S i) L) /\ seq 0 i ++ [i] = seq 0 (S i)). { intros Hl. split; [rewrite (firstn_S L []) by exact Hl; rewrite map_app; reflexivity|rewrite seq_S; reflexivity]. }
  assert (SJ : (j < length M)%nat -> nth j e 0%nat = i -> firstn j e ++ [i] = firstn (S j) e). { intros Hl E. rewrite (firstn_S e 0%nat) by lia. rewrite E. reflexivity. }
  assert (R1 : (i < length L)%nat -> expand_row w (2 + d) L i (seq 0 i) = pad w (nth i L [])). { intros Hl. rewrite FS. rewrite (expand_pad d L L (seq 0 (length L)) w i WL WL ER ltac:(unfold w; lia) Hl). rewrite nth_seq0 by exact Hl. reflexivity. }
  destruct (Nat.ltb_spec i (length L)) as [HL|HL].
  - destruct (SI HL) as (S1 & S2). destruct (Nat.ltb_spec j (length M)) as [HM|HM]; cbn [andb].
    + rewrite (R1 HL). rewrite (expand_pad d M L e w j WM WL EB ltac:(unfold w; lia) HM). specialize (H2 HM). pose proof (B j HM) as Bj. destruct (WL i HL) as (Ll1 & _). destruct (WL _ Bj) as (Ll2 & _).
      set (cmp := cmp_row _ _ _ _ _ _). destruct (Nat.eq_dec i (nth j e 0%nat)) as [E|N].
      * assert (Ec : cmp = 0). { unfold cmp. rewrite <- E. rewrite cmp_known by (rewrite nth_pad; apply KL; exact HL). rewrite Z.eqb_refl. cbn [negb]. apply (proj1 (proj2 (seq_cmp_ok _ _ eq_refl))). reflexivity. }
        rewrite Ec. cbn [Z.eqb]. rewrite S1, S2, (SJ HM (eq_sym E)). apply IH; [lia|lia|lia| |].
        -- intros k Hk. destruct (Nat.eq_dec k j) as [->|]; [lia|]. specialize (H1 k ltac:(lia)). lia.
        -- intros Hs. pose proof (I j (S j) ltac:(lia) ltac:(lia)). lia.
      * assert (Ec : cmp < 0). { unfold cmp. apply cmp_lt; [rewrite nth_pad; apply KL; exact HL|rewrite nth_pad; apply KL; exact Bj|unfold pad; rewrite !app_length, !repeat_length; lia|]. apply (rlt_ext (fr (nth i L [])) (fr (nth (nth j e 0%nat) L []))); [intros k; apply nth_pad|intros k; apply nth_pad|]. apply T; [exact HL|exact HM|exact H1|lia]. }
        destruct (Z.eqb_spec cmp 0); [lia|]. destruct (Z.ltb_spec cmp 0); [|lia]. rewrite S1, S2. apply IH; [lia|lia|lia|intros k Hk; specialize (H1 k Hk); lia|intros _; lia].
    + rewrite (R1 HL), S1, S2. apply IH; [lia|lia|lia|intros k Hk; specialize (H1 k Hk); lia|intros; lia].
  - cbn [andb]. destruct (Nat.ltb_spec j (length M)) as [HM|HM]; [specialize (H2 HM); specialize (B j HM); lia|]. assert (i = length L) by lia. subst i. assert (j = length M) by lia. subst j. rewrite !firstn_all2 by lia. reflexivity.
Qed.
Lemma remerge d M L e : wf_divs d M -> wf_divs d L -> known M -> known L -> embeds d M L e -> merge_divs d L M = Ok (L, seq 0 (length L), e).
Proof.
  intros WM WL KM KL EB. unfold merge_divs. pose proof (remerge_loop d M L e WM WL KM KL EB (1 + (length L + length M)) 0 0 ltac:(lia) ltac:(lia) ltac:(lia) ltac:(intros; lia) ltac:(intros; lia)) as H. cbn [firstn map seq] in H. rewrite H. cbn [LocalModel.bind]. f_equal. f_equal. f_equal.
  rewrite map_length, map_map. rewrite <- (map_id L) at 2. apply map_ext_in. intros r Hr. apply (In_nth _ _ []) in Hr as (i & Hi & <-). destruct (WL i Hi) as (Ll & _). unfold pad. rewrite firstn_app, Ll, Nat.sub_diag, firstn_O, app_nil_r. apply firstn_all2. lia.
Qed.
(** ** isl_aff_align_divs *)
Lemma expand_embeds junk f div e1 : wf_aff f -> wf_divs (a_d f) div -> known div -> embeds (a_d f) (a_div f) div e1 -> (forall w, sat (a_d f) div w -> sat (a_d f) (a_div f) (select (a_d f) e1 w)) ->
  exists g, aff_expand_divs junk f div e1 = Ok g /\ a_sp g = a_sp f /\ a_div g = div /\ wf_aff g /\ forall v r, avalue f v r -> avalue g v r.
Proof.
  intros W WD K (Le & I & B & _) HS. destruct (expand_divs_ok junk f div e1 W WD K Le I ltac:(intros i Hi; apply B; lia) HS) as (l' & E & Wg & V). exists (mkaff (a_sp f) div l'). split; [exact E|]. split; [reflexivity|]. split; [reflexivity|]. split; [exact Wg|exact V].
Qed.
Lemma align_divs_ok junk dst src : wf_aff dst -> wf_aff src -> is_equal (a_sp src) (a_sp dst) = true ->
  exists g e1 e2, aff_align_divs junk dst src = Ok g /\ a_sp g = a_sp dst /\ wf_aff g /\ (forall v r, avalue dst v r -> avalue g v r) /\
    embeds (a_d dst) (a_div dst) (a_div g) e1 /\ embeds (a_d dst) (a_div src) (a_div g) e2 /\ ((exists e, embeds (a_d dst) (a_div dst) (a_div src) e) -> a_div g = a_div src).
Proof.
  intros Wd Ws E. assert (Ed : a_d src = a_d dst) by (apply (is_equal_dim _ _ E)). unfold aff_align_divs. rewrite E. cbn [negb]. pose proof Wd as ((WDd & Kd & Ld) & _). pose proof Ws as ((WDs & Ks & Ls) & _). rewrite Ed in *.
  destruct (Nat.eqb_spec (a_n src) 0) as [E0|N0].
  { exists dst, (seq 0 (length (a_div dst))), []. split; [reflexivity|]. split; [reflexivity|]. split; [exact Wd|]. split; [auto|]. split; [apply embeds_refl; exact WDd|]. unfold a_n in E0. destruct (a_div src) as [|r0 t]; [|cbn in E0; lia]. split.
    - split; [reflexivity|]. split; [intros i j Hi Hj; cbn in Hj; lia|]. split; [intros i Hi; cbn in Hi; lia|]. split; [intros i Hi; cbn in Hi; lia|intros i j Hi Hj; cbn in Hj; lia].
    - intros (e & _ & _ & B & _). destruct (a_div dst) as [|r1 t1]; [reflexivity|]. specialize (B 0%nat ltac:(cbn; lia)). cbn in B. lia. }
  destruct (mat_is_equal _ _ _) eqn:EM.
  { assert (EQ : a_div src = a_div dst).
    { pose proof EM as EM'. unfold mat_is_equal in EM'. apply andb_true_iff in EM' as (L1 & _). apply Nat.eqb_eq in L1. apply mat_is_equal_rows in EM as (_ & H1).
      - apply (nth_ext _ _ [] []); [exact L1|]. intros i Hi. specialize (H1 i Hi). destruct (WDs i Hi) as (X & _). destruct (WDd i ltac:(lia)) as (Y & _). rewrite !firstn_all2 in H1 by (unfold a_n; lia). exact H1.
      - intros i Hi. destruct (WDs i Hi) as (X & _). unfold a_n. lia.
      - intros i Hi. destruct (WDd i Hi) as (Y & _). unfold a_n. lia. }
    exists dst, (seq 0 (length (a_div dst))), (seq 0 (length (a_div dst))). split; [reflexivity|]. split; [reflexivity|]. split; [exact Wd|]. split; [auto|]. split; [apply embeds_refl; exact WDd|]. rewrite EQ. split; [apply embeds_refl; exact WDd|reflexivity]. }
  destruct (merge_embeds _ _ _ WDs WDd Ks Kd) as (div & e1 & e2 & Em & E1 & E2). destruct (merge_divs_ok _ _ _ WDs WDd) as (div' & e1' & e2' & Em' & WM & KM & _ & _ & _ & _ & _ & _ & _ & HS). rewrite Em in Em'. inversion Em'; subst div' e1' e2'. clear Em'. rewrite Em. cbn [LocalModel.bind].
  destruct (expand_embeds junk dst div e2 Wd WM (KM Ks Kd) E2 (fun w Hw => proj2 (HS w Hw))) as (g & Eg & Sg & Dg & Wg & Vg).
  exists g, e2, e1. split; [exact Eg|]. split; [exact Sg|]. split; [exact Wg|]. split; [exact Vg|]. rewrite Dg. split; [exact E2|]. split; [exact E1|].
  intros (e & EB). rewrite (remerge _ _ _ _ WDd WDs Kd Ks EB) in Em. inversion Em. reflexivity.
Qed.
(** ** isl_multi_aff_align_divs *)
Lemma is_equal_d f g : is_equal (a_sp f) (a_sp g) = true -> a_d f = a_d g.
Proof. intros E. apply (is_equal_dim _ _ E). Qed.
Lemma align_first_ok junk l : forall f0, wf_aff f0 -> (forall f, List.In f l -> wf_aff f /\ is_equal (a_sp f) (a_sp f0) = true) ->
  exists g e0, align_first junk f0 l = Ok g /\ a_sp g = a_sp f0 /\ wf_aff g /\ (forall v r, avalue f0 v r -> avalue g v r) /\ embeds (a_d f0) (a_div f0) (a_div g) e0 /\ forall f, List.In f l -> exists e, embeds (a_d f0) (a_div f) (a_div g) e.
Proof.
  induction l as [|f l IH]; intros f0 W0 H; cbn [align_first].
  - exists f0, (seq 0 (length (a_div f0))). split; [reflexivity|]. split; [reflexivity|]. split; [exact W0|]. split; [auto|]. split; [apply embeds_refl; apply W0|intros f []].
  - destruct (H f (or_introl eq_refl)) as (Wf & Ef). destruct (align_divs_ok junk f0 f W0 Wf Ef) as (g & e1 & e2 & E & S & Wg & V & E1 & E2 & _). rewrite E. cbn [LocalModel.bind]. assert (Dg : a_d g = a_d f0) by (unfold a_d; rewrite S; reflexivity).
    destruct (IH g Wg) as (h & e & Eh & Sh & Wh & Vh & E0 & HI). { intros x Hx. rewrite S. apply H. right. exact Hx. }
    rewrite Dg in *. exists h, (map (fun i => nth i e 0%nat) e1). split; [exact Eh|]. split; [congruence|]. split; [exact Wh|]. split; [auto|]. split; [apply (embeds_trans _ _ _ _ _ _ E1 E0)|].
    intros x [<-|Hx]; [exists (map (fun i => nth i e 0%nat) e2); apply (embeds_trans _ _ _ _ _ _ E2 E0)|apply HI; exact Hx].
Qed.
Lemma align_rest_ok junk f0 l : wf_aff f0 -> (forall f, List.In f l -> wf_aff f /\ is_equal (a_sp f0) (a_sp f) = true /\ exists e, embeds (a_d f0) (a_div f) (a_div f0) e) ->
  exists l', align_rest junk f0 l = Ok l' /\ Forall2 (fun f g => a_sp g = a_sp f /\ wf_aff g /\ a_div g = a_div f0 /\ forall v r, avalue f v r -> avalue g v r) l l'.
Proof.
  intros W0. induction l as [|f l IH]; intros H; cbn [align_rest]; [exists []; split; [reflexivity|constructor]|].
  destruct (H f (or_introl eq_refl)) as (Wf & Ef & EB). pose proof (is_equal_d _ _ Ef) as Ed. destruct (align_divs_ok junk f f0 Wf W0 Ef) as (g & e1 & e2 & E & S & Wg & V & _ & _ & C). rewrite E. cbn [LocalModel.bind]. destruct IH as (l' & El & F). { intros x Hx. apply H. right. exact Hx. }
  rewrite El. cbn [LocalModel.bind]. exists (g :: l'). split; [reflexivity|]. constructor; [|exact F]. split; [exact S|]. split; [exact Wg|]. split; [apply C; rewrite <- Ed; exact EB|exact V].
Qed.
Lemma maff_align_ok junk m : wf_maff m ->
  exists m', maff_align_divs junk m = Ok m' /\ m_sp m' = m_sp m /\ wf_maff m' /\ aligned m' /\ length (m_p m') = length (m_p m) /\ forall i d v r, (i < length (m_p m))%nat -> avalue (nth i (m_p m) d) v r -> avalue (nth i (m_p m') d) v r.
Proof.
  intros W. pose proof W as (Ws & Ll & HW & HE). unfold maff_align_divs. destruct (m_p m) as [|f0 [|f1 l0]] eqn:EP.
  { exists m. rewrite EP. split; [reflexivity|]. split; [reflexivity|]. split; [exact W|]. split; [intros f g Hf; rewrite EP in Hf; destruct Hf|]. split; [reflexivity|]. auto. }
  { exists m. rewrite EP. split; [reflexivity|]. split; [reflexivity|]. split; [exact W|]. split; [|split; [reflexivity|auto]]. intros f g Hf Hg. rewrite EP in Hf, Hg. destruct Hf as [<-|[]], Hg as [<-|[]]. reflexivity. }
  cbn [skipn]. set (l := f1 :: l0) in *. destruct (HW f0 (or_introl eq_refl)) as (W0 & D0).
  destruct (align_first_ok junk l f0 W0) as (g & e0 & E1 & Sg & Wg & Vg & EB0 & EBl). { intros f Hf. split; [apply HW; right; exact Hf|apply HE; [right; exact Hf|left; reflexivity]]. }
  rewrite E1. cbn [LocalModel.bind]. assert (Dg : a_d g = a_d f0) by (unfold a_d; rewrite Sg; reflexivity).
  destruct (align_rest_ok junk g l Wg) as (l' & E2 & F). { intros f Hf. split; [apply HW; right; exact Hf|]. split; [rewrite Sg; apply HE; [left; reflexivity|right; exact Hf]|rewrite Dg; apply EBl; exact Hf]. }
  rewrite E2. cbn [LocalModel.bind]. eexists. split; [reflexivity|]. cbn [m_sp m_p].
  assert (F' : Forall2 (fun f h => a_sp h = a_sp f /\ wf_aff h /\ a_div h = a_div g /\ forall v r, avalue f v r -> avalue h v r) (f0 :: l) (g :: l')) by (constructor; [|exact F]; split; [exact Sg|]; split; [exact Wg|]; split; [reflexivity|exact Vg]).
  clearbody l. revert F'. generalize (g :: l') as q. generalize dependent (f0 :: l). intros p EP Ll HW HE q F'. clear - Ws Ll HW HE F'.
  assert (LQ : length q = length p) by (clear - F'; induction F' as [|f k p q _ _ IH]; cbn [length]; [reflexivity|rewrite IH; reflexivity]).
  assert (FI : forall h, List.In h q -> exists f, List.In f p /\ a_sp h = a_sp f /\ wf_aff h /\ a_div h = a_div g). { intros h Hh. clear - F' Hh. induction F' as [|f k p q Hfk _ IH]; [destruct Hh|]. destruct Hh as [<-|Hh]; [exists f; split; [left; reflexivity|]; tauto|]. destruct (IH Hh) as (x & A & B). exists x. split; [right; exact A|exact B]. }
  split; [reflexivity|]. split.
  - split; [exact Ws|]. cbn [m_sp m_p]. split; [lia|]. split.
    + intros h Hh. destruct (FI h Hh) as (f & A & B & C & _). split; [exact C|]. destruct (HW f A) as (_ & D). unfold a_d in *. rewrite B. exact D.
    + intros h k Hh Hk. destruct (FI h Hh) as (f & A & B & _). destruct (FI k Hk) as (f' & A' & B' & _). rewrite B, B'. apply HE; assumption.
  - split; [intros h k Hh Hk; cbn [m_p] in Hh, Hk; destruct (FI h Hh) as (? & _ & _ & _ & ->); destruct (FI k Hk) as (? & _ & _ & _ & ->); reflexivity|]. split; [exact LQ|].
    intros i d v r. clear - F'. revert i. induction F' as [|f k p q Hfk _ IH]; intros i Hi; [cbn in Hi; lia|]. destruct i as [|i]; cbn [nth length] in *; [apply Hfk|apply IH; lia].
Qed.
(** ** isl_aff_pullback_multi_aff *)
Lemma pullback_ok junk f m : wf_aff f -> wf_maff m -> has_equal_params (a_sp f) (m_sp m) = true -> has_range_tuples (a_sp f) (m_sp m) = true ->
  exists g, aff_pullback junk f m = Ok g /\ domain (m_sp m) = Some (a_sp g) /\ wf_aff g /\
    forall v xs r, int_point (a_d g) v -> length xs = n_out (m_sp m) -> (forall i, (i < n_out (m_sp m))%nat -> avalue (nth i (m_p m) f) v (nth i xs 0%Q)) ->
      rat_value f (map inject_Z (firstn (1 + nparam (m_sp m)) v) ++ xs) r -> avalue g v r.
Proof.
  intros Wf Wm HP HR. destruct (maff_align_ok junk m Wm) as (m' & E & S & Wm' & Al & Lm & V). pose proof Wm as (_ & Ll & _).
  destruct (pull_ok f m' Wf Wm' Al) as (g & Eg & Dg & Wg & Vg); [rewrite S; exact HP|rewrite S; exact HR|].
  exists g. split; [unfold aff_pullback; rewrite E; cbn [LocalModel.bind]; exact Eg|]. rewrite S in Dg, Vg. split; [exact Dg|]. split; [exact Wg|].
  intros v xs r Hv Hx H Hr. apply (Vg v xs r Hv Hx); [|exact Hr]. intros i Hi. apply V; [lia|]. apply H. exact Hi.
Qed.
