(** Facts about rows of a tableau and about pivoting. *)
From Coq Require Import ZArith List Bool Arith Lia.
From Verif Require Import SeqModel SeqSpec SeqProofs MatModel BMapModel BMapLists BMapGauss2 BElimFM TabModel TabSpec.
Import ListNotations.
Open Scope Z_scope.

Definition wp {A} (r : res A) (Q : A -> Prop) : Prop :=
  match r with Ok a => Q a | Div => True | _ => False end.
Lemma wp_bind {A B} (r : res A) (f : A -> res B) Q : wp r (fun a => wp (f a) Q) -> wp (bind r f) Q.
Proof. destruct r; exact (fun H => H). Qed.
Lemma wp_weak {A} (r : res A) (P Q : A -> Prop) : wp r P -> (forall a, P a -> Q a) -> wp r Q.
Proof. destruct r; cbn; auto. Qed.
Lemma wp_ok {A} (r : res A) (P : A -> Prop) a : wp r P -> r = Ok a -> P a.
Proof. intros H ->. exact H. Qed.

Lemma lset_zupd l : forall i a, lset l i a = zupd l i a.
Proof. induction l as [|x l IH]; intros [|i] a; cbn; try reflexivity. f_equal. apply IH. Qed.
Lemma map_lset {A B} (f : A -> B) l : forall i a, map f (lset l i a) = lset (map f l) i (f a).
Proof. induction l as [|x l IH]; intros [|i] a; cbn; try reflexivity. f_equal. apply IH. Qed.
Lemma nth_map_d {A B} (f : A -> B) l d d' i : (i < length l)%nat -> nth i (map f l) d' = f (nth i l d).
Proof. intros H. rewrite (nth_indep _ d' (f d)) by (rewrite map_length; exact H). apply map_nth. Qed.

(** ** normalization of a row *)
Lemma dot_prop g l l' : length l = length l' -> (forall i, nth i l 0 = g * nth i l' 0) -> forall w, dot l w = g * dot l' w.
Proof.
  revert l'. induction l as [|x l IH]; intros [|y l'] Hl Hn w; cbn in Hl; try lia; [cbn; ring|]. destruct w as [|a w]; [cbn; ring|].
  cbn [dot]. rewrite (IH l'); [|lia|intros i; apply (Hn (S i))]. pose proof (Hn O) as H0. cbn [nth] in H0. rewrite H0. ring.
Qed.
Lemma norm_ok r : nth 0 r 0 <> 0 -> exists g, 0 < g /\ length (seq_normalize r) = length r /\ forall i, nth i r 0 = g * nth i (seq_normalize r) 0.
Proof.
  intros H. destruct (normalize_ok r) as (g & (G & _) & Hl & Hn & _). exists g. split; [|split; assumption].
  assert (g <> 0). { intros E. apply H. rewrite Hn, E. ring. } lia.
Qed.
(** the value of a row on the vector that starts with the opposite of the value
    of its variable *)
Lemma tl_dot r x w : r <> [] -> dot r (- x :: w) = dot (tl r) w - nth 0 r 0 * x.
Proof. destruct r as [|a r]; [congruence|]. intros _. cbn. ring. Qed.

Section Own.
Variables (k : nat) (r : list Z).
Hypothesis Hk : (1 <= k < length r)%nat.
Hypothesis Hd : 0 < nth 0 r 0.
Hypothesis Hp : nth k r 0 <> 0.
Let p := nth k r 0.
Let d := nth 0 r 0.
Let raw := if p <? 0 then zupd (zupd r 0 (- p)) k (- d) else zupd (zupd (seq_neg r) 0 p) k d.

Lemma raw_len : length raw = length r.
Proof. unfold raw. destruct (p <? 0); rewrite !zupd_length; [reflexivity|apply map_length]. Qed.
Lemma raw_0 : nth 0 raw 0 = Z.abs p.
Proof.
  unfold raw. destruct (Z.ltb_spec p 0); rewrite !nth_zupd; rewrite !zupd_length; unfold seq_neg; rewrite ?map_length; rewrite (proj2 (Nat.eqb_neq 0 k)) by lia; cbn [andb];
    replace (Nat.eqb 0 0) with true by reflexivity; rewrite (proj2 (Nat.ltb_lt 0 (length r))) by lia; cbn [andb]; lia.
Qed.
Lemma raw_k : nth k raw 0 = Z.sgn p * d.
Proof.
  unfold raw. destruct (Z.ltb_spec p 0); rewrite nth_zupd; rewrite !zupd_length; unfold seq_neg; rewrite ?map_length; rewrite Nat.eqb_refl;
    rewrite (proj2 (Nat.ltb_lt k (length r))) by lia; cbn [andb]; [rewrite Z.sgn_neg by lia|rewrite Z.sgn_pos by (unfold p in *; lia)]; ring.
Qed.
Lemma raw_j j : j <> O -> j <> k -> nth j raw 0 = - Z.sgn p * nth j r 0.
Proof.
  intros J0 Jk. unfold raw. destruct (Z.ltb_spec p 0); rewrite !nth_zupd; rewrite (proj2 (Nat.eqb_neq j k)) by lia; rewrite (proj2 (Nat.eqb_neq j 0)) by lia; cbn [andb].
  - rewrite Z.sgn_neg by lia. ring.
  - rewrite Z.sgn_pos by (unfold p in *; lia). unfold seq_neg. change 0 with (- 0) at 1. rewrite map_nth. ring.
Qed.
Lemma own_ok : exists g, 0 < g /\ length (pivot_own k r) = length r /\ (forall i, nth i raw 0 = g * nth i (pivot_own k r) 0).
Proof.
  unfold pivot_own. fold p. fold d. fold raw. destruct (nth 0 raw 0 =? 1).
  - exists 1. split; [lia|]. split; [apply raw_len|intros; ring].
  - destruct (norm_ok raw) as (g & G & Hl & Hn); [rewrite raw_0; fold p in Hp; lia|]. exists g. rewrite raw_len in Hl. auto.
Qed.
Lemma own_len : length (pivot_own k r) = length r. Proof. destruct own_ok as (g & _ & H & _). exact H. Qed.
Lemma own_den : 0 < nth 0 (pivot_own k r) 0.
Proof. destruct own_ok as (g & G & _ & H). specialize (H O). rewrite raw_0 in H. fold p in Hp. nia. Qed.
Lemma own_sgn_k : Z.sgn (nth k (pivot_own k r) 0) = Z.sgn p.
Proof.
  destruct own_ok as (g & G & _ & H). specialize (H k). rewrite raw_k in H. apply (f_equal Z.sgn) in H. rewrite !Z.sgn_mul in H.
  rewrite (Z.sgn_pos g), (Z.sgn_pos d) in H by (unfold d; lia). rewrite Z.sgn_sgn in H. lia.
Qed.
Lemma own_j j : j <> O -> j <> k -> exists g, 0 < g /\ - Z.sgn p * nth j r 0 = g * nth j (pivot_own k r) 0.
Proof. intros J0 Jk. destruct own_ok as (g & G & _ & H). exists g. split; [exact G|]. rewrite <- H, raw_j by assumption. reflexivity. Qed.
(** the equation of the pivot row, solved for the variable of the column *)
Lemma own_holds xr xc w : length w = (length r - 1)%nat -> nth (k - 1) w 0 = xc -> nth 0 r 0 * xr = dot (tl r) w ->
  nth 0 (pivot_own k r) 0 * xc = dot (tl (pivot_own k r)) (zupd w (k - 1) xr).
Proof.
  intros Lw Nw E. destruct own_ok as (g & G & Hl & Hn).
  assert (Ne : r <> []) by (destruct r; [cbn in Hk; lia|discriminate]).
  assert (Ne' : pivot_own k r <> []) by (intros X; rewrite X in Hl; cbn in Hl; lia).
  assert (D : dot (pivot_own k r) (- xc :: zupd w (k - 1) xr) = 0).
  { assert (X : g * dot (pivot_own k r) (- xc :: zupd w (k - 1) xr) = 0); [|apply Z.mul_eq_0_r in X; [exact X|lia]].
    rewrite <- (dot_prop g raw _); [|rewrite raw_len; lia|exact Hn].
    assert (B : dot r (- xc :: zupd w (k - 1) xr) = (d + p) * (xr - xc)).
    { rewrite tl_dot by exact Ne. rewrite dot_upd by lia. rewrite Nw. fold d. rewrite <- E. fold d.
      replace (nth (k - 1) (tl r) 0) with p; [ring|]. unfold p. destruct k as [|k']; [lia|]. destruct r; [congruence|]. cbn. rewrite Nat.sub_0_r. reflexivity. }
    assert (W0 : nth 0 (- xc :: zupd w (k - 1) xr) 0 = - xc) by reflexivity.
    assert (Wk : nth k (- xc :: zupd w (k - 1) xr) 0 = xr).
    { destruct k as [|k']; [lia|]. cbn [nth]. replace (S k' - 1)%nat with k' by lia. rewrite nth_zupd, Nat.eqb_refl. rewrite (proj2 (Nat.ltb_lt k' (length w))) by lia. reflexivity. }
    unfold raw. destruct (Z.ltb_spec p 0).
    - rewrite !dot_zupd by (rewrite ?zupd_length; lia). rewrite nth_zupd, (proj2 (Nat.eqb_neq k 0)) by lia. cbn [andb]. rewrite W0, Wk, B. fold p. fold d. ring.
    - rewrite !dot_zupd by (rewrite ?zupd_length; unfold seq_neg; rewrite ?map_length; lia). rewrite nth_zupd, (proj2 (Nat.eqb_neq k 0)) by lia. cbn [andb].
      rewrite W0, Wk, dot_seq_neg, B. rewrite !nth_seq_neg. fold p. fold d. ring. }
  rewrite tl_dot in D by exact Ne'. lia.
Qed.

Section Other.
Variable o : list Z.
Hypothesis Lo : length o = length r.
Hypothesis Do : 0 < nth 0 o 0.
Let pr := pivot_own k r.
Let f := nth k o 0.
Let raw2 := zupd (zupd (map2 (fun x y => x * nth 0 pr 0 + f * y) o pr) 0 (nth 0 o 0 * nth 0 pr 0)) k (f * nth k pr 0).
Lemma raw2_len : length raw2 = length o.
Proof. unfold raw2. rewrite !zupd_length. apply map2_length. unfold pr. rewrite own_len. exact Lo. Qed.
Lemma m2_len : length (map2 (fun x y => x * nth 0 pr 0 + f * y) o pr) = length o.
Proof. apply map2_length. unfold pr. rewrite own_len. exact Lo. Qed.
Lemma raw2_0 : nth 0 raw2 0 = nth 0 o 0 * nth 0 pr 0.
Proof. unfold raw2. rewrite !nth_zupd, !zupd_length, m2_len, (proj2 (Nat.eqb_neq 0 k)) by lia. cbn [andb]. rewrite (proj2 (Nat.ltb_lt 0 (length o))) by lia. reflexivity. Qed.
Lemma raw2_k : nth k raw2 0 = f * nth k pr 0.
Proof. unfold raw2. rewrite nth_zupd, !zupd_length, m2_len, Nat.eqb_refl. rewrite (proj2 (Nat.ltb_lt k (length o))) by lia. reflexivity. Qed.
Lemma other_ok : f <> 0 -> exists g, 0 < g /\ length (pivot_other k pr o) = length o /\ (forall i, nth i raw2 0 = g * nth i (pivot_other k pr o) 0).
Proof.
  intros Hf. unfold pivot_other. fold f. rewrite (proj2 (Z.eqb_neq f 0) Hf). fold raw2. destruct (nth 0 raw2 0 =? 1).
  - exists 1. split; [lia|]. split; [apply raw2_len|intros; ring].
  - destruct (norm_ok raw2) as (g & G & Hl & Hn); [rewrite raw2_0; pose proof own_den; fold pr in H; nia|]. exists g. rewrite raw2_len in Hl. auto.
Qed.
Lemma other_len : length (pivot_other k pr o) = length o.
Proof. destruct (Z.eq_dec f 0) as [E|E]; [|destruct (other_ok E) as (g & _ & H & _); exact H]. unfold pivot_other. fold f. rewrite E. reflexivity. Qed.
Lemma other_den : 0 < nth 0 (pivot_other k pr o) 0.
Proof.
  destruct (Z.eq_dec f 0) as [E|E]; [unfold pivot_other; fold f; rewrite E; exact Do|].
  destruct (other_ok E) as (g & G & _ & H). specialize (H O). rewrite raw2_0 in H. pose proof own_den as X. fold pr in X. nia.
Qed.
Lemma other_sgn_k : Z.sgn (nth k (pivot_other k pr o) 0) = Z.sgn f * Z.sgn p.
Proof.
  destruct (Z.eq_dec f 0) as [E|E]; [unfold pivot_other; fold f; rewrite E; cbn [Z.eqb]; fold f; rewrite E; reflexivity|].
  destruct (other_ok E) as (g & G & _ & H). specialize (H k). rewrite raw2_k in H. apply (f_equal Z.sgn) in H. rewrite !Z.sgn_mul in H.
  rewrite (Z.sgn_pos g) in H by lia. unfold pr in H at 1. rewrite own_sgn_k in H. lia.
Qed.
Lemma other_j j : j <> O -> j <> k -> (j < length r)%nat -> exists g, 0 < g /\ Z.sgn p * (nth j o 0 * p - f * nth j r 0) = g * nth j (pivot_other k pr o) 0.
Proof.
  intros J0 Jk Jl. assert (Pp : 0 < Z.sgn p * p) by (fold p in Hp; destruct p; cbn; lia).
  destruct (Z.eq_dec f 0) as [E|E].
  - exists (Z.sgn p * p). split; [exact Pp|]. unfold pivot_other. fold f. rewrite E. cbn [Z.eqb]. ring.
  - destruct (other_ok E) as (g & G & _ & H). destruct own_ok as (g0 & G0 & Hl & H0). exists (g0 * g). split; [nia|].
    rewrite <- Z.mul_assoc, <- H. unfold raw2. rewrite !nth_zupd, (proj2 (Nat.eqb_neq j k)), (proj2 (Nat.eqb_neq j 0)) by assumption. cbn [andb].
    rewrite (nth_map2 _ o pr _ 0 0 0) by (unfold pr; lia).
    pose proof (H0 O) as X0. pose proof (H0 j) as Xj. rewrite raw_0 in X0. rewrite raw_j in Xj by assumption. fold pr in X0, Xj.
    assert (Ab : Z.abs p = Z.sgn p * p) by (destruct p; cbn; lia). rewrite Ab in X0.
    replace (g0 * (nth j o 0 * nth 0 pr 0 + f * nth j pr 0)) with (nth j o 0 * (g0 * nth 0 pr 0) + f * (g0 * nth j pr 0)) by ring. rewrite <- X0, <- Xj. ring.
Qed.
Lemma other_holds xo xr xc w : length w = (length r - 1)%nat -> nth (k - 1) w 0 = xc -> nth 0 r 0 * xr = dot (tl r) w ->
  nth 0 o 0 * xo = dot (tl o) w ->
  nth 0 (pivot_other k pr o) 0 * xo = dot (tl (pivot_other k pr o)) (zupd w (k - 1) xr).
Proof.
  intros Lw Nw E Eo. pose proof (own_holds xr xc w Lw Nw E) as O. fold pr in O.
  assert (Neo : o <> []) by (intros X; rewrite X in Lo; cbn in Lo; lia).
  assert (Ke : forall x, length x = length o -> nth (k - 1) (tl x) 0 = nth k x 0).
  { intros x Lx. destruct k as [|k']; [lia|]. destruct x as [|a x]; [cbn in Lx; lia|]. cbn. rewrite Nat.sub_0_r. reflexivity. }
  destruct (Z.eq_dec f 0) as [Z|Z].
  - unfold pivot_other. fold f. rewrite Z. cbn [Z.eqb]. rewrite dot_upd by lia. rewrite Ke by reflexivity. fold f. rewrite Z. lia.
  - destruct (other_ok Z) as (g & G & Hl & Hn).
    assert (Ne' : pivot_other k pr o <> []) by (intros X; rewrite X in Hl; cbn in Hl; lia).
    assert (D : dot (pivot_other k pr o) (- xo :: zupd w (k - 1) xr) = 0).
    { assert (X : g * dot (pivot_other k pr o) (- xo :: zupd w (k - 1) xr) = 0); [|apply Z.mul_eq_0_r in X; [exact X|lia]].
      rewrite <- (dot_prop g raw2 _); [|rewrite raw2_len; lia|exact Hn].
      assert (Wk : nth k (- xo :: zupd w (k - 1) xr) 0 = xr).
      { destruct k as [|k']; [lia|]. cbn [nth]. replace (S k' - 1)%nat with k' by lia. rewrite nth_zupd, Nat.eqb_refl. rewrite (proj2 (Nat.ltb_lt k' (length w))) by lia. reflexivity. }
      assert (Lpr : length pr = length o) by (unfold pr; rewrite own_len; lia).
      assert (Nepr : pr <> []) by (intros Y; rewrite Y in Lpr; cbn in Lpr; lia).
      unfold raw2. rewrite !dot_zupd by (rewrite ?zupd_length, ?m2_len; lia). rewrite nth_zupd, (proj2 (Nat.eqb_neq k 0)) by lia. cbn [andb].
      rewrite Wk. cbn [nth].
      rewrite (map2_ext _ (fun x y => nth 0 pr 0 * x + f * y)) by (intros; ring). rewrite dot_map2 by lia.
      rewrite !(tl_dot _ xo) by assumption. rewrite <- O. rewrite dot_upd by lia. rewrite Ke by reflexivity. rewrite Nw, <- Eo.
      rewrite !(nth_map2 _ o pr _ 0 0 0) by lia. fold f. ring. }
    rewrite tl_dot in D by exact Ne'. lia.
Qed.
End Other.
End Own.
