(** remove_duplicate_divs and eliminate_unit_divs keep the integer points. *)
From Coq Require Import ZArith List Bool Lia Arith Permutation.
From Verif Require Import SeqModel SeqSpec SeqProofs MatModel BMapModel BMapSpec BMapSem BMapLists BMapNorm BMapGauss BMapGauss2 BMapOrder BDupModel BDupProofs BElimModel BElimSpec BElimCols BElimProofs BElimFM BElimVars SimpModel SimpSpec SimpBase SimpDrop SimpDivs.
Import ListNotations.
Open Scope Z_scope.

(** ** remove_duplicate_divs *)
Definition same_div (ds : list row) (l k : nat) : Prop := (k < l)%nat /\ hd 0 (nth k ds []) <> 0 /\ nth l ds [] = nth k ds [].
Lemma elim_dups_ok : forall n ef b, good b -> ordered b -> (n <= ndiv b)%nat -> (forall l k, (l < n)%nat -> nth l ef None = Some k -> same_div (b_div b) l k) ->
  let b' := elim_dups n ef b in pres b b' /\ ordered b'.
Proof.
  induction n as [|l IH]; intros ef b G O Hn S; cbn [elim_dups]; [split; [apply pres_refl; exact G|exact O]|]. destruct (nth l ef None) as [k|] eqn:EE; [|apply IH; auto; lia].
  destruct (S l k ltac:(lia) EE) as (Hk & Hh & Es). assert (TT : total b = (nvar b + ndiv b)%nat) by reflexivity. cbn zeta. set (eq := zupd _ _ 1).
  assert (NE : forall i, nth i eq 0 = if Nat.eqb i (1 + nvar b + l) then 1 else if Nat.eqb i (1 + nvar b + k) then -1 else 0).
  { intros i. unfold eq. rewrite nth_zupd, zupd_length, repeat_length. replace (Nat.ltb (1 + nvar b + l) (1 + total b)) with true by (symmetry; apply Nat.ltb_lt; lia). rewrite andb_true_r. destruct (Nat.eqb _ _); [reflexivity|]. rewrite nth_zupd, repeat_length. replace (Nat.ltb (1 + nvar b + k) (1 + total b)) with true by (symmetry; apply Nat.ltb_lt; lia). rewrite andb_true_r. destruct (Nat.eqb _ _); [reflexivity|]. apply nth_repeat. }
  destruct (eliminate_div_ok b l eq None G O ltac:(lia)) as (P1 & O1 & N1 & R1).
  - unfold eq. rewrite !zupd_length, repeat_length. reflexivity.
  - left. rewrite NE, Nat.eqb_refl. reflexivity.
  - exact I.
  - intros v Lv Hv Sv. pose proof G as (_ & _ & D & IM & _). pose proof (IM v Lv Hv Sv) as DV. pose proof (DV l ltac:(unfold ndiv in *; lia)) as Dl. pose proof (DV k ltac:(unfold ndiv in *; lia)) as Dk. rewrite Es in Dl. unfold division in Dl, Dk.
    assert (Dm : 0 <= hd 0 (nth k (b_div b) [])) by (apply (proj1 (Forall_nth_iff _ _ []) D); unfold ndiv in *; lia).
    assert (dot eq v = nth (1 + nvar b + l) v 0 - nth (1 + nvar b + k) v 0).
    { unfold eq. rewrite dot_zupd by (rewrite zupd_length, repeat_length; lia). rewrite nth_zupd, dot_zupd by (rewrite repeat_length; lia). rewrite dot_repeat0, !nth_repeat. destruct (Nat.eqb_spec (1 + nvar b + l) (1 + nvar b + k)); [lia|]. cbn [andb]. ring. }
    destruct Dl as [|Dl]; [congruence|]. destruct Dk as [|Dk]; [congruence|]. nia.
  - cbn [drop_used] in *. set (b1 := eliminate_div b eq None l true) in *. destruct (IH ef b1 ltac:(apply P1) O1 ltac:(lia)) as (P2 & O2).
    + intros l' k' Hl' E'. destruct (S l' k' ltac:(lia) E') as (H1 & H2 & H3). split; [exact H1|]. rewrite !R1 by lia. cbn [Nat.add]. rewrite hd_ldrop. split; [exact H2|]. rewrite H3. reflexivity.
    + split; [eapply pres_trans; eassumption|exact O2].
Qed.
Section Dups.
Variable hash : row -> nat.
Lemma div_slot_ok ds d : forall fuel t h h', div_slot fuel t ds d h = Ok h' -> match nth h' t None with None => True | Some j => seq_eq d (nth j ds []) = true end.
Proof.
  induction fuel as [|fuel IH]; intros t h h'; cbn [div_slot]; [discriminate|]. destruct (nth h t None) as [j|] eqn:E.
  - destruct (seq_eq d (nth j ds [])) eqn:E2; [|apply IH]. intros [= <-]. rewrite E. exact E2.
  - intros [= <-]. rewrite E. exact I.
Qed.
Lemma dup_divs_loop_ok ds m : rows_of m ds -> forall n t ef p ef' p', (n <= length ds)%nat -> length ef = length ds ->
  (forall h j, nth h t None = Some j -> (n <= j < length ds)%nat /\ hd 0 (nth j ds []) <> 0) ->
  (forall l k, nth l ef None = Some k -> same_div ds l k) ->
  dup_divs_loop hash n t ds ef p = Ok (ef', p') -> forall l k, nth l ef' None = Some k -> same_div ds l k.
Proof.
  intros W. induction n as [|k IH]; intros t ef p ef' p' Hn Le T E; cbn [dup_divs_loop]; [intros [= <- <-]; exact E|]. cbn zeta. destruct (Z.eqb_spec (hd 0 (nth k ds [])) 0) as [Z0|Z0].
  { apply IH; auto; [lia|]. intros h j Hj. destruct (T h j Hj). split; [lia|assumption]. }
  destruct (div_slot _ _ _ _ _) as [h| | |] eqn:ES; try discriminate. apply div_slot_ok in ES.
  assert (T' : forall h0 j, nth h0 (lset t h (Some k)) None = Some j -> (k <= j < length ds)%nat /\ hd 0 (nth j ds []) <> 0).
  { intros h0 j. destruct (Nat.lt_ge_cases h (length t)) as [L|L]; [|rewrite lset_out by exact L; intros Hj; destruct (T h0 j Hj); split; [lia|assumption]]. rewrite nth_lset by exact L. destruct (Nat.eqb h0 h); [intros [= <-]; split; [lia|exact Z0]|]. intros Hj; destruct (T h0 j Hj); split; [lia|assumption]. }
  destruct (nth h t None) as [l|] eqn:EH; [|apply IH; auto; lia]. destruct (T h l EH) as [Hl Hh]. apply IH; [lia|rewrite lset_length; exact Le|exact T'|]. intros l0 k0. rewrite nth_lset by lia. destruct (Nat.eqb_spec l0 l) as [->|]; [|apply E]. intros [= <-]. split; [lia|]. split; [exact Z0|].
  apply seq_eq_ok in ES; [congruence|]. rewrite !(rows_nth _ _ _ W) by lia. reflexivity.
Qed.
Lemma last_known_ok ds : forall n k, last_known n ds = Some k -> (k < n)%nat /\ hd 0 (nth k ds []) <> 0.
Proof.
  induction n as [|n IH]; intros k; cbn [last_known]; [discriminate|]. destruct (Z.eqb_spec (hd 0 (nth n ds [])) 0); [intros H; destruct (IH k H); split; [lia|assumption]|]. intros [= <-]. split; [lia|assumption].
Qed.
Lemma remove_duplicate_divs_pres b p b' p' : good b -> remove_duplicate_divs hash b p = Ok (b', p') -> pres b b' /\ ordered b'.
Proof.
  intros G. unfold remove_duplicate_divs. destruct (order_divs b) as [b1| | |] eqn:EO; try discriminate. destruct (order_divs_pres b b1 G EO) as (P1 & O1 & _). pose proof P1 as (_ & G1 & _).
  destruct (Nat.leb (ndiv b1) 1); [intros [= <- <-]; auto|]. destruct (last_known (ndiv b1) (b_div b1)) as [k|] eqn:EL; [|intros [= <- <-]; auto]. destruct (last_known_ok _ _ _ EL) as [Hk Hh]. destruct k as [|k]; [intros [= <- <-]; auto|]. cbn zeta. set (size := round_up _).
  destruct (Nat.eqb size 0); [intros [= <- <-]; auto|]. destruct (dup_divs_loop _ _ _ _ _ _) as [[ef p1]| | |] eqn:ED; try discriminate. intros [= <- <-].
  assert (E : forall l j, nth l ef None = Some j -> same_div (b_div b1) l j).
  { eapply (dup_divs_loop_ok (b_div b1) (2 + total b1)); [apply G1| |apply repeat_length| | |exact ED].
    - unfold ndiv in Hk. lia.
    - intros h j. set (h0 := (hash _ mod size)%nat). destruct (Nat.lt_ge_cases h0 (length (repeat (@None nat) size))) as [L|L].
      + rewrite nth_lset by exact L. destruct (Nat.eqb h h0); [intros [= <-]; split; [unfold ndiv in Hk; lia|exact Hh]|]. rewrite nth_repeat. discriminate.
      + rewrite lset_out by exact L. rewrite nth_repeat. discriminate.
    - intros l j. rewrite nth_repeat. discriminate. }
  destruct (elim_dups_ok (ndiv b1) ef b1 G1 O1 (Nat.le_refl _)) as (P2 & O2); [intros l j _; apply E|]. split; [eapply pres_trans; eassumption|exact O2].
Qed.
End Dups.

(** ** eliminate_unit_divs *)
Lemma unit_row_length d c r : length (tl d) = length r -> length (unit_row d c r) = length r.
Proof.
  intros L. unfold unit_row. cbn zeta. assert (H : forall a, length (seq_combine false a (tl d) (hd 0 d) (zupd r c 0)) = length r). { intros a. unfold seq_combine. cbn [andb]. rewrite map2_length by (rewrite zupd_length; exact L). exact L. }
  destruct (_ <? 0); [rewrite zupd_length|]; apply H.
Qed.
Lemma zupd_hd l x : (0 < length l)%nat -> zupd l 0 x = x :: tl l. Proof. destruct l; cbn; [lia|reflexivity]. Qed.
Lemma dot_add_const r k v : (0 < length r)%nat -> dot (zupd r 0 (hd 0 r + k)) v = dot r v + k * hd 0 v.
Proof. intros L. rewrite dot_zupd by exact L. destruct r, v; cbn in *; ring. Qed.
Lemma unit_row_dot d c r v : length (tl d) = length r -> (c < length r)%nat -> hd 0 v = 1 -> (nth c r 0 = 1 \/ nth c r 0 = -1) ->
  dot (unit_row d c r) v = hd 0 d * (dot r v - nth c r 0 * nth c v 0) + nth c r 0 * dot (tl d) v + (if nth c r 0 =? 1 then 0 else hd 0 d - 1).
Proof.
  intros L Hc Hv S1. unfold unit_row, seq_combine. cbn zeta. cbn [andb].
  assert (E : forall a, dot (map2 (fun x y => a * x + hd 0 d * y) (tl d) (zupd r c 0)) v = a * dot (tl d) v + hd 0 d * (dot r v - nth c r 0 * nth c v 0)).
  { intros a. rewrite dot_map2 by (rewrite zupd_length; exact L). rewrite dot_zupd by exact Hc. ring. }
  destruct S1 as [S1|S1]; rewrite S1; cbn [Z.sgn Z.ltb Z.compare Z.eqb Pos.eqb]; rewrite S1 in E.
  - rewrite E. ring.
  - set (q := map2 _ _ _) in *. replace (hd 0 q + hd 0 d - 1) with (hd 0 q + (hd 0 d - 1)) by ring. rewrite dot_add_const by (unfold q; rewrite map2_length, L by (rewrite zupd_length; exact L); lia). unfold q. rewrite E, Hv. ring.
Qed.
Definition lower_row (d : row) (c : nat) : row := let r := zupd (seq_neg (tl d)) c (hd 0 d) in zupd r 0 (hd 0 r + nth c r 0 - 1).
Definition upper_row (d : row) (c : nat) : row := zupd (tl d) c (- hd 0 d).
Lemma seq_neg_length l : length (seq_neg l) = length l. Proof. apply map_length. Qed.
Lemma upper_row_dot d c v : (c < length (tl d))%nat -> nth c (tl d) 0 = 0 -> dot (upper_row d c) v = dot (tl d) v - hd 0 d * nth c v 0.
Proof. intros H Z0. unfold upper_row. rewrite dot_zupd by exact H. rewrite Z0. ring. Qed.
Lemma lower_row_dot d c v : (0 < c < length (tl d))%nat -> nth c (tl d) 0 = 0 -> hd 0 v = 1 -> dot (lower_row d c) v = hd 0 d * nth c v 0 + hd 0 d - 1 - dot (tl d) v.
Proof.
  intros H Z0 Hv. unfold lower_row. cbn zeta. set (r := zupd (seq_neg (tl d)) c (hd 0 d)). assert (Lr : length r = length (tl d)) by (unfold r; rewrite zupd_length; apply seq_neg_length).
  replace (hd 0 r + nth c r 0 - 1) with (hd 0 r + (nth c r 0 - 1)) by ring. rewrite dot_add_const by lia. rewrite Hv. unfold r at 1. rewrite dot_zupd by (rewrite seq_neg_length; lia). rewrite dot_seq_neg, nth_seq_neg, Z0. unfold r. rewrite nth_zupd, seq_neg_length, Nat.eqb_refl. replace (Nat.ltb c (length (tl d))) with true by (symmetry; apply Nat.ltb_lt; lia). cbn [andb]. ring.
Qed.
Lemma tl_length {A} (l : list A) n : length l = S n -> length (tl l) = n. Proof. destruct l; cbn; lia. Qed.
Lemma own_zero b k : good b -> (k < ndiv b)%nat -> hd 0 (nth k (b_div b) []) <> 0 -> nth (2 + nvar b + k) (nth k (b_div b) []) 0 = 0.
Proof. intros (_ & (rank & A) & _) Hk Hh. destruct (Z.eq_dec (nth (2 + nvar b + k) (nth k (b_div b) []) 0) 0) as [|E]; [assumption|]. exfalso. apply (Nat.lt_irrefl (rank k)). apply A; auto. Qed.
Lemma unit_step_pres b div j : good b -> (div < ndiv b)%nat -> (j < length (b_ineq b))%nat -> let d := nth div (b_div b) [] in let c := (1 + nvar b + div)%nat in let r := nth j (b_ineq b) [] in
  hd 0 d <> 0 -> (nth c r 0 = 1 \/ nth c r 0 = -1) ->
  pres b (add_div_constraint (set_ineq b (lset (b_ineq b) j (unit_row d c r))) div (Z.sgn (nth c r 0))).
Proof.
  intros G Hd Hj d c r Hh S1. pose proof G as (W & A & D & I & R & B). pose proof W as (We & Wi & Wd). destruct (good_int b div G Hd) as [RF EF]. assert (TT : total b = (nvar b + ndiv b)%nat) by reflexivity.
  assert (Ld : length d = (2 + total b)%nat) by (apply rows_nth; assumption). assert (Lt : length (tl d) = (1 + total b)%nat) by (apply tl_length; exact Ld). assert (Lr : length r = (1 + total b)%nat) by (apply rows_nth; assumption).
  assert (Hm : 0 < hd 0 d). { assert (0 <= hd 0 d) by (apply (proj1 (Forall_nth_iff _ _ []) D); exact Hd). lia. }
  assert (Oz : nth c (tl d) 0 = 0) by (rewrite nth_tl; apply own_zero; assumption).
  set (x := if Z.sgn (nth c r 0) <? 0 then upper_row d c else lower_row d c).
  assert (EQ : add_div_constraint (set_ineq b (lset (b_ineq b) j (unit_row d c r))) div (Z.sgn (nth c r 0)) = set_ineq b (lset (b_ineq b) j (unit_row d c r) ++ [x])) by (unfold add_div_constraint, x; destruct (_ <? 0); reflexivity).
  rewrite EQ. set (b' := set_ineq b _). assert (Lx : length x = (1 + total b)%nat). { unfold x, upper_row, lower_row. destruct (_ <? 0); cbn zeta; rewrite ?zupd_length, ?seq_neg_length; exact Lt. }
  apply pres_same; auto.
  - repeat split.
  - split; [exact We|]. split; [|exact Wd]. cbn [b_ineq b' set_ineq]. unfold rows_of. apply Forall_app. split; [|constructor; [exact Lx|constructor]]. apply Forall_lset; [exact Hj|]. change (total b') with (total b). split; [rewrite unit_row_length; lia|]. apply (Forall_at (fun r => length r = _) _ [] j Hj) in Wi. apply Wi.
  - intros v Lv [Hv0 Hv1]. specialize (Hv1 RF). unfold system, b'. cbn [b_eq b_ineq set_ineq]. rewrite Forall_app, (Forall_at (nonneg_on v) (b_ineq b) [] j Hj), (Forall_lset (nonneg_on v) (b_ineq b) j _ Hj). fold r.
    assert (UD : dot (unit_row d c r) v = hd 0 d * (dot r v - nth c r 0 * nth c v 0) + nth c r 0 * dot (tl d) v + (if nth c r 0 =? 1 then 0 else hd 0 d - 1)) by (apply unit_row_dot; auto; unfold c; lia).
    assert (XD : dot x v = if nth c r 0 =? 1 then hd 0 d * nth c v 0 + hd 0 d - 1 - dot (tl d) v else dot (tl d) v - hd 0 d * nth c v 0).
    { unfold x. destruct S1 as [-> | ->]; cbn [Z.sgn Z.ltb Z.compare Z.eqb Pos.eqb]; [apply lower_row_dot|apply upper_row_dot]; auto; unfold c; lia. }
    split.
    + intros (Se & Sr & Si). split; [exact Se|]. assert (DV : divisions (b_div b) (1 + nvar b) v) by (apply I; auto; split; [exact Se|]; apply (Forall_at _ _ [] j Hj); auto). specialize (DV div Hd). fold d c in DV. destruct DV as [|DV]; [congruence|].
      unfold nonneg_on in *. assert (M : 0 <= hd 0 d * dot r v) by (apply Z.mul_nonneg_nonneg; lia). cbn [Nat.add] in *. fold c in DV. split; [split; [|exact Si]|constructor; [|constructor]]; [rewrite UD|rewrite XD]; destruct S1 as [S1|S1]; rewrite S1 in *; cbn [Z.eqb Pos.eqb]; lia.
    + intros (Se & (Sr & Si) & Sx). split; [exact Se|]. split; [|exact Si]. inversion_clear Sx as [|? ? Sx' _]. unfold nonneg_on in *. rewrite UD in Sr. rewrite XD in Sx'. assert (M : 0 <= hd 0 d * dot r v + hd 0 d - 1) by (destruct S1 as [S1|S1]; rewrite S1 in *; cbn [Z.eqb Pos.eqb] in *; lia). nia.
  - congruence.
Qed.
Lemma unit_step_kept b div j : let d := nth div (b_div b) [] in let c := (1 + nvar b + div)%nat in let r := nth j (b_ineq b) [] in
  let b' := add_div_constraint (set_ineq b (lset (b_ineq b) j (unit_row d c r))) div (Z.sgn (nth c r 0)) in b_div b' = b_div b /\ nvar b' = nvar b.
Proof. cbn zeta. unfold add_div_constraint. destruct (_ <? 0); split; reflexivity. Qed.
Lemma unit_loop_pres div : forall fuel b j p b' p', good b -> (div < ndiv b)%nat -> hd 0 (nth div (b_div b) []) <> 0 -> unit_loop fuel b div j p = Ok (b', p') -> pres b b' /\ b_div b' = b_div b /\ nvar b' = nvar b.
Proof.
  induction fuel as [|fuel IH]; intros b j p b' p' G Hd Hh; cbn [unit_loop]; [discriminate|]. destruct (Nat.leb_spec (length (b_ineq b)) j) as [|Hj]; [intros [= <- <-]; split; [apply pres_refl; exact G|auto]|]. cbn zeta.
  destruct ((_ =? 1) || (_ =? -1)) eqn:ES; [|apply IH; assumption]. assert (S1 : nth (1 + nvar b + div) (nth j (b_ineq b) []) 0 = 1 \/ nth (1 + nvar b + div) (nth j (b_ineq b) []) 0 = -1). { apply orb_true_iff in ES. destruct ES as [E|E]; apply Z.eqb_eq in E; auto. }
  pose proof (unit_step_pres b div j G Hd Hj Hh S1) as P1. destruct (unit_step_kept b div j) as [K1 K2]. cbn zeta in P1. set (b1 := add_div_constraint _ _ _) in *. intros H. destruct (IH b1 _ _ _ _ ltac:(apply P1) ltac:(unfold ndiv in *; rewrite K1; exact Hd) ltac:(rewrite K1; exact Hh) H) as (P2 & K3 & K4).
  split; [eapply pres_trans; eassumption|]. split; congruence.
Qed.
Lemma unit_divs_loop_pres : forall n i b p b' p', good b -> (i + n <= ndiv b)%nat -> unit_divs_loop n i b p = Ok (b', p') -> pres b b' /\ b_div b' = b_div b /\ nvar b' = nvar b.
Proof.
  induction n as [|n IH]; intros i b p b' p' G Hn; cbn [unit_divs_loop]; [intros [= <- <-]; split; [apply pres_refl; exact G|auto]|]. cbn zeta. destruct ((_ =? 0) || (_ =? 1)) eqn:ES; [apply IH; [exact G|lia]|]. apply orb_false_iff in ES. destruct ES as [ES _]. apply Z.eqb_neq in ES.
  unfold eliminate_unit_div. destruct (unit_loop _ b i 0 p) as [[b1 p1]| | |] eqn:EU; try discriminate. destruct (unit_loop_pres i _ _ _ _ _ _ G ltac:(lia) ES EU) as (P1 & K1 & K2). intros H. destruct (IH (S i) b1 _ _ _ ltac:(apply P1) ltac:(unfold ndiv in *; rewrite K1; lia) H) as (P2 & K3 & K4). split; [eapply pres_trans; eassumption|]. split; congruence.
Qed.
Lemma eliminate_unit_divs_pres b p b' p' : good b -> eliminate_unit_divs b p = Ok (b', p') -> pres b b'.
Proof. intros G H. eapply unit_divs_loop_pres; [exact G| |exact H]. lia. Qed.
