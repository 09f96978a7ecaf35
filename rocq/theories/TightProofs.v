(** Lemmas about definitions on which no earlier theorem depended. *)
From Coq Require Import ZArith List Bool Lia Arith.
From Verif Require Import SeqModel MatModel BMapModel BMapSem BMapLists BMapGauss BMapGauss2 ListModel IdModel.
From Verif Require IntModel.
Import ListNotations.
Open Scope Z_scope.

Lemma to_int_ok u : 0 <= u < 2 ^ 32 -> - 2 ^ 31 <= to_int u < 2 ^ 31 /\ to_int u mod 2 ^ 32 = u.
Proof.
  intros H. unfold to_int. destruct (Z.ltb_spec u (2 ^ 31)).
  - split; [lia|]. apply Z.mod_small; lia.
  - split; [lia|]. rewrite <- (Z.mod_add _ 1) by lia. rewrite Z.mod_small; lia.
Qed.

Lemma digit_bytes_ok d : 0 <= d < 2 ^ 32 ->
  Forall (fun b => 0 <= b < 256) (IntModel.digit_bytes d) /\
  fold_right (fun b a => b + 256 * a) 0 (IntModel.digit_bytes d) = d.
Proof.
  intros H. unfold IntModel.digit_bytes. rewrite !Z.shiftr_div_pow2 by lia. split.
  - repeat constructor; apply Z.mod_pos_bound; lia.
  - cbn [fold_right]. change (2 ^ 8) with 256. change (2 ^ 16) with (256 * 256).
    change (2 ^ 24) with (256 * 256 * 256). rewrite <- !Z.div_div by lia.
    pose proof (Z.div_mod d 256). pose proof (Z.div_mod (d / 256) 256). pose proof (Z.div_mod (d / 256 / 256) 256).
    assert (d / 256 / 256 / 256 < 256).
    { repeat (apply Z.div_lt_upper_bound; [lia|]). lia. }
    assert (0 <= d / 256 / 256 / 256) by (repeat apply Z.div_pos; lia).
    rewrite (Z.mod_small (d / 256 / 256 / 256) 256) by lia. lia.
Qed.

Lemma ptr_bytes_ok n : forall p, 0 <= p < 256 ^ Z.of_nat n ->
  length (ptr_bytes n p) = n /\ Forall (fun b => -128 <= b < 128) (ptr_bytes n p) /\
  fold_right (fun b a => b mod 256 + 256 * a) 0 (ptr_bytes n p) = p.
Proof.
  induction n as [|n IH]; intros p H.
  - cbn in H. cbn. repeat split; auto; lia.
  - rewrite Nat2Z.inj_succ, Z.pow_succ_r in H by lia.
    assert (H' : 0 <= p / 256 < 256 ^ Z.of_nat n).
    { split; [apply Z.div_pos; lia|]. apply Z.div_lt_upper_bound; lia. }
    destruct (IH _ H') as (L & F & S). cbn [ptr_bytes length fold_right].
    pose proof (Z.mod_pos_bound p 256 ltac:(lia)) as B.
    assert (E : signed_char (p mod 256) mod 256 = p mod 256).
    { unfold signed_char. destruct (Z.ltb_spec (p mod 256) 128).
      - apply Z.mod_small; lia.
      - rewrite <- (Z.mod_add _ 1) by lia. rewrite Z.mod_small; lia. }
    rewrite L, S, E. split; [reflexivity|]. split.
    + constructor; auto. unfold signed_char. destruct (Z.ltb_spec (p mod 256) 128); lia.
    + pose proof (Z.div_mod p 256); lia.
Qed.

(** ** set_to_empty *)
Lemma set_to_empty_ok b :
  b_empty (set_to_empty b) = true /\ b_ineq (set_to_empty b) = [] /\ (length (b_eq (set_to_empty b)) <= 1)%nat /\
  (b_empty b = true -> b_eq b = [] -> b_ineq b = [] -> set_to_empty b = b) /\
  (b_eq b ++ b_ineq b <> [] \/ b_empty b = false ->
   b_eq (set_to_empty b) = [1 :: repeat 0 (nvar b)] /\ b_div (set_to_empty b) = []).
Proof.
  unfold set_to_empty. destruct (b_empty b) eqn:E; cbn [andb].
  - destruct (Nat.eqb_spec (length (b_eq b) + length (b_ineq b)) 0) as [Z0|Z0].
    + destruct (b_eq b) as [|? ?] eqn:E1; [|cbn in Z0; lia]. destruct (b_ineq b) as [|? ?] eqn:E2; [|cbn in Z0; lia].
      cbn [length]. split; [exact E|]. split; [reflexivity|]. split; [lia|]. split; [reflexivity|].
      intros [H|H]; [now elim H|discriminate].
    + cbn. repeat split; auto. intros _ E1 E2. rewrite E1, E2 in Z0. now elim Z0.
  - cbn. repeat split; auto. discriminate.
Qed.

(** ** *progress *)
Lemma elim_eqs_same eq pos skip l : forall i, elim_eqs_progress pos skip i l = false -> elim_eqs eq pos skip i l = l.
Proof.
  induction l as [|r l IH]; intros i H; cbn [elim_eqs elim_eqs_progress] in *; [reflexivity|].
  apply orb_false_iff in H as [H1 H2]. rewrite (IH _ H2). f_equal.
  destruct (match skip with Some k => Nat.eqb k i | None => false end); [reflexivity|].
  unfold elim_row. apply negb_false_iff in H1. now rewrite H1.
Qed.
Lemma elim_rows_same eq pos l : existsb (fun r => negb (nth (1 + pos) r 0 =? 0)) l = false -> map (elim_row eq pos) l = l.
Proof.
  induction l as [|r l IH]; intros H; cbn [map existsb] in *; [reflexivity|].
  apply orb_false_iff in H as [H1 H2]. rewrite (IH H2). f_equal.
  unfold elim_row. apply negb_false_iff in H1. now rewrite H1.
Qed.
Lemma elim_divs_same eq pos kd ld l : forall k,
  existsb (fun d => negb (hd 0 d =? 0) && negb (nth (2 + pos) d 0 =? 0)) l = false -> elim_divs eq pos kd ld k l = l.
Proof.
  induction l as [|r l IH]; intros k H; cbn [elim_divs existsb] in *; [reflexivity|].
  apply orb_false_iff in H as [H1 H2]. rewrite (IH _ H2). f_equal.
  unfold elim_div. destruct (hd 0 r =? 0); [reflexivity|]. destruct (nth (2 + pos) r 0 =? 0); [reflexivity|discriminate].
Qed.
Lemma set_same b : set_div (set_ineq (set_eq b (b_eq b)) (b_ineq b)) (b_div b) = b.
Proof. now destruct b. Qed.
Lemma elim_no_progress b pos eq skip kd :
  elim_progress b pos skip = false -> eliminate_var_using_equality b pos eq skip kd = b.
Proof.
  unfold elim_progress. intros H. apply orb_false_iff in H as [H H3]. apply orb_false_iff in H as [H1 H2].
  unfold eliminate_var_using_equality. rewrite elim_eqs_same, elim_rows_same, elim_divs_same by assumption. apply set_same.
Qed.


(** the parts of a basic map other than its equalities *)
Definition rest (b : bmap) := (b_ineq b, b_div b, b_param b, b_in b, b_out b, b_rat b, b_empty b).
Lemma gauss_step_no_progress b done k v b' : gauss_step b done k v = (b', false) -> rest b' = rest b.
Proof.
  unfold gauss_step. cbv zeta.
  set (b1 := if Nat.eqb k done then b else set_eq b (lswap (b_eq b) k done)).
  set (b2 := if nth (1 + v) (nth done (b_eq b1) []) 0 <? 0 then set_eq b1 (BMapModel.lset (b_eq b1) done (seq_neg (nth done (b_eq b1) []))) else b1).
  assert (R : rest b2 = rest b).
  { unfold b2, b1. destruct (Nat.eqb k done); destruct (_ <? 0); reflexivity. }
  destruct (elim_progress b2 v (Some done)) eqn:P.
  - destruct (Nat.leb _ v); [destruct (set_div_from_eq _ _ _)|]; cbn [orb]; discriminate.
  - rewrite (elim_no_progress _ _ _ _ _ P). destruct (Nat.leb _ v).
    + unfold set_div_from_eq. destruct (negb _); [intros [= <-]; exact R|].
      destruct (eq_involves_unknown_divs _ _ _); intros [= <-]; exact R.
    + intros [= <-]. exact R.
Qed.
Lemma gauss_loop_no_progress fuel : forall b p done lv b' d,
  gauss_loop fuel b p done lv = Ok (b', false, d) -> rest b' = rest b /\ p = false.
Proof.
  induction fuel as [|fuel IH]; intros b p done lv b' d H; cbn [gauss_loop] in H; [discriminate|].
  destruct (Nat.leb _ done); [injection H as -> -> _; auto|].
  destruct lv as [|v]; [injection H as -> -> _; auto|].
  destruct (find_eq b done (1 + v)) as [k|]; [|exact (IH _ _ _ _ _ _ H)].
  destruct (gauss_step b done k v) as [b1 p1] eqn:E.
  destruct (IH _ _ _ _ _ _ H) as [R P]. apply orb_false_iff in P as [-> ->].
  rewrite R. split; [|reflexivity]. exact (gauss_step_no_progress _ _ _ _ _ E).
Qed.
Lemma gauss_no_progress b b' : gauss_ordered b = Ok (b', false) -> b_empty b' = true \/ rest b' = rest b.
Proof.
  unfold gauss_ordered. destruct (gauss_loop _ b false 0 (total b)) as [[[b1 p] d]| | |] eqn:E; try discriminate.
  destruct (Nat.eqb _ _); [|destruct (existsb _ _)]; intros [= <- ->].
  - right. exact (proj1 (gauss_loop_no_progress _ _ _ _ _ _ _ E)).
  - left. apply set_to_empty_ok.
  - right. exact (proj1 (gauss_loop_no_progress _ _ _ _ _ _ _ E)).
Qed.

(** ** set_div_from_eq *)
Lemma set_div_from_eq_known b div eq b' : (div < ndiv b)%nat ->
  set_div_from_eq b div eq = (b', true) ->
  forall i, (i < div)%nat -> nth (2 + nvar b + i) (nth div (b_div b') []) 0 <> 0 -> hd 0 (nth i (b_div b) []) <> 0.
Proof.
  unfold set_div_from_eq. intros Hd H i Hi N. destruct (negb _); [discriminate|].
  destruct (eq_involves_unknown_divs b (nth eq (b_eq b) []) div) eqn:E; [discriminate|].
  injection H as <-. cbn [b_div set_div] in N. rewrite nth_lset, Nat.eqb_refl in N by exact Hd.
  intros H0. unfold eq_involves_unknown_divs in E.
  rewrite <- not_true_iff_false in E. apply E, existsb_exists. exists i. split; [apply in_seq; lia|].
  rewrite H0. rewrite Z.eqb_refl, andb_true_r, negb_true_iff, Z.eqb_neq. intros C. apply N.
  replace (2 + nvar b + i)%nat with (S (1 + nvar b + i)) by lia. cbn [nth].
  rewrite nth_zupd. rewrite (proj2 (Nat.eqb_neq (1 + nvar b + i) (S (nvar b + div)))) by lia. cbn [andb]. unfold seq_neg.
  change 0 with (Z.opp 0). rewrite map_nth, C. reflexivity.
Qed.
