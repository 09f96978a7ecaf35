(** Proofs for the elimination of variables using equalities and
    isl_basic_map_gauss after the integer divisions have been ordered. *)
From Coq Require Import ZArith List Bool Lia Arith Permutation.
From Verif Require Import SeqModel SeqSpec SeqProofs MatModel BMapModel BMapSpec BMapSem BMapLists BMapNorm.
Import ListNotations.
Open Scope Z_scope.

Lemma dot_nth0 r : (forall i, nth i r 0 = 0) -> forall v, dot r v = 0.
Proof. intros H. apply dot_zero. intros x Hx. destruct (In_nth r x 0 Hx) as (i & _ & <-). apply H. Qed.
Lemma lin_dot (g a b : Z) r' : forall r q, length r' = length r -> length q = length r ->
  (forall i, g * nth i r' 0 = a * nth i r 0 + b * nth i q 0) -> forall v, g * dot r' v = a * dot r v + b * dot q v.
Proof.
  induction r' as [|x r' IH]; intros [|y r] [|z q] L1 L2 H [|w v]; cbn in L1, L2; try lia; cbn [dot]; try lia.
  pose proof (H O) as H0. cbn in H0. assert (HS : forall i, g * nth i r' 0 = a * nth i r 0 + b * nth i q 0) by (intros i; exact (H (S i))).
  specialize (IH r q ltac:(lia) ltac:(lia) HS v). rewrite Z.mul_add_distr_l, IH, Z.mul_assoc, H0. ring.
Qed.

Lemma elim_row_ok eq pos r : length r = length eq -> (1 + pos < length eq)%nat -> nth (1 + pos) eq 0 <> 0 ->
  length (elim_row eq pos r) = length r /\ nth (1 + pos) (elim_row eq pos r) 0 = 0 /\
  exists g a b, 0 < g /\ 0 < a /\ forall i, g * nth i (elim_row eq pos r) 0 = a * nth i r 0 + b * nth i eq 0.
Proof.
  intros L P N. unfold elim_row. destruct (Z.eqb_spec (nth (1 + pos) r 0) 0) as [E|E].
  - split; [reflexivity|]. split; [exact E|]. exists 1, 1, 0. split; [lia|]. split; [lia|]. intros; lia.
  - destruct (elim_ok r eq (1 + pos) 1 ltac:(lia) ltac:(lia) N) as (a & b & Ha & [C1 C2] & _ & C3 & _).
    set (q := fst (seq_elim r eq (1 + pos) 1)) in *. destruct (normalize_ok q) as (g & G & Lq & Ng & _).
    split; [lia|]. assert (CN : forall i, nth i q 0 = a * nth i r 0 + b * nth i eq 0).
    { intros i. destruct (Nat.lt_ge_cases i (length r)) as [Hi|Hi]; [apply C2; exact Hi|]. rewrite !nth_overflow by lia. ring. }
    assert (0 <= g) by apply G. destruct (Z.eq_dec g 0) as [->|Hg].
    + assert (Z0 : forall i, nth i q 0 = 0).
      { intros i. rewrite Ng. ring. }
      assert (E0 : seq_gcd q = 0) by (apply (is_gcd_unique _ _ q); [apply seq_gcd_ok|exact G]).
      assert (EN : seq_normalize q = q) by (unfold seq_normalize; destruct q; [reflexivity|]; rewrite E0; reflexivity).
      rewrite EN. split; [exact C3|]. exists 1, a, b. split; [lia|]. split; [exact Ha|]. intros i. rewrite <- CN. ring.
    + split. { specialize (Ng (1 + pos)%nat). rewrite C3 in Ng. symmetry in Ng. apply Z.mul_eq_0 in Ng. destruct Ng; [lia|assumption]. }
      exists g, a, b. split; [lia|]. split; [exact Ha|]. intros i. rewrite <- CN. symmetry. apply Ng.
Qed.
Lemma elim_row_dot eq pos r : length r = length eq -> (1 + pos < length eq)%nat -> nth (1 + pos) eq 0 <> 0 ->
  exists g a, 0 < g /\ 0 < a /\ forall v, dot eq v = 0 -> g * dot (elim_row eq pos r) v = a * dot r v.
Proof.
  intros L P N. destruct (elim_row_ok eq pos r L P N) as (L' & _ & g & a & b & Hg & Ha & H). exists g, a. split; [exact Hg|]. split; [exact Ha|].
  intros v Z0. rewrite (lin_dot g a b _ r eq L' ltac:(lia) H v). rewrite Z0. ring.
Qed.

(** integer divisions *)
Lemma division_scale d d' e v a g : 0 < a -> 0 < g -> g * hd 0 d' = a * hd 0 d -> g * dot (tl d') v = a * dot (tl d) v ->
  (division d e v <-> division d' e v).
Proof.
  intros Ha Hg H1 H2. unfold division. split; (intros [H|H]; [left|]).
  - assert (g * hd 0 d' = 0) by (rewrite H1, H; ring). apply Z.mul_eq_0 in H0. lia.
  - right. assert (g * (hd 0 d' * e) = a * (hd 0 d * e)) by (rewrite !Z.mul_assoc, H1; reflexivity). nia.
  - assert (a * hd 0 d = 0) by (rewrite <- H1, H; ring). apply Z.mul_eq_0 in H0. lia.
  - right. assert (g * (hd 0 d' * e) = a * (hd 0 d * e)) by (rewrite !Z.mul_assoc, H1; reflexivity). nia.
Qed.
Lemma floor_div c g t m x : 0 < g -> g * m * x <= c + g * t < g * m * x + g * m <-> m * x <= c / g + t < m * x + m.
Proof.
  intros Hg. pose proof (Z.div_mod c g ltac:(lia)) as DM. pose proof (Z.mod_pos_bound c g Hg) as MB. set (q := c / g) in *. clearbody q.
  replace (g * m * x) with (g * (m * x)) by ring. set (mx := m * x). clearbody mx. split; intros [A B]; split; nia.
Qed.
Lemma normalize_div_row_ok d : (2 <= length d)%nat -> 
  length (normalize_div_row d) = length d /\ (hd 0 (normalize_div_row d) = 0 <-> hd 0 d = 0) /\ (0 <= hd 0 d -> 0 <= hd 0 (normalize_div_row d)) /\
  (forall i, (2 <= i)%nat -> (nth i (normalize_div_row d) 0 = 0 <-> nth i d 0 = 0)) /\
  forall e v, hd 0 v = 1 -> (division d e v <-> division (normalize_div_row d) e v).
Proof.
  intros L. unfold normalize_div_row. destruct (Z.eqb_spec (hd 0 d) 0) as [E|E].
  - repeat split; auto; tauto.
  - set (g := Z.gcd (seq_gcd (skipn 2 d)) (hd 0 d)). destruct (Z.eqb_spec g 1) as [E1|E1]; [repeat split; auto; tauto|].
    destruct d as [|m [|c d]]; cbn [length] in L; try lia. cbn [hd skipn nth] in *.
    assert (Gm : (g | m)) by apply Z.gcd_divide_r. assert (Gd : forall x, In x d -> (g | x)).
    { intros x Hx. etransitivity; [apply Z.gcd_divide_l|]. apply (seq_gcd_ok d). exact Hx. }
    assert (Hg : 0 < g). { pose proof (Z.gcd_nonneg (seq_gcd d) m). assert (g <> 0) by (intros F; apply Z.gcd_eq_0_r in F; lia). unfold g in *. lia. }
    clearbody g. unfold divexact, fdiv_q, seq_scale_down. destruct Gm as [k Hk]. subst m. rewrite Z.div_mul by lia.
    split; [cbn; rewrite map_length; reflexivity|]. split; [cbn [hd]; split; intros H; nia|]. split; [cbn [hd]; intros H; nia|]. split.
    + intros i Hi. destruct i as [|[|i]]; try lia. cbn [nth]. destruct (Nat.lt_ge_cases i (length d)) as [J|J].
      * rewrite (nth_indep (map _ d) 0 (0 / g)) by (rewrite map_length; exact J). rewrite (map_nth (fun x => divexact x g)). destruct (Gd (nth i d 0) (nth_In d 0 J)) as [q ->].
        unfold divexact. rewrite Z.div_mul by lia. nia.
      * rewrite !nth_overflow by (rewrite ?map_length; lia). tauto.
    + intros e v Hv. unfold division. cbn [hd tl]. rewrite (dot_hd_tl (c :: d)), (dot_hd_tl (c / g :: _)). cbn [hd tl]. rewrite Hv, !Z.mul_1_r.
      pose proof (dot_div g d ltac:(lia) Gd (tl v)) as DD. change (map (fun x => divexact x g) d) with (map (fun x => x / g) d). rewrite <- DD.
      pose proof (floor_div c g (dot (map (fun x => x / g) d) (tl v)) k e Hg) as FD. rewrite (Z.mul_comm g k) in FD. assert (k * g = 0 <-> k = 0) by nia. tauto.
Qed.


(** one integer division whose definition is not dropped *)
Lemma elim_div_kept eq pos d : length d = S (length eq) -> (1 + pos < length eq)%nat -> nth (1 + pos) eq 0 <> 0 ->
  hd 0 d <> 0 -> 
  let d' := normalize_div_row (snd (seq_elim (tl d) eq (1 + pos) (hd 0 d)) :: fst (seq_elim (tl d) eq (1 + pos) (hd 0 d))) in
  length d' = length d /\ hd 0 d' <> 0 /\ (0 <= hd 0 d -> 0 <= hd 0 d') /\
  (nth (2 + pos) d' 0 = 0) /\
  (forall i, (1 <= i)%nat -> nth i eq 0 = 0 -> (nth (S i) d' 0 = 0 <-> nth (S i) d 0 = 0)) /\
  (forall e v, hd 0 v = 1 -> dot eq v = 0 -> (division d e v <-> division d' e v)).
Proof.
  intros L P N Hd. cbn zeta. destruct d as [|m d]; [cbn in L; lia|]. cbn [hd tl length] in *.
  destruct (elim_ok d eq (1 + pos) m ltac:(lia) ltac:(lia) N) as (a & b & Ha & [C1 C2] & C4 & C3 & _).
  set (q := fst (seq_elim d eq (1 + pos) m)) in *. rewrite C4.
  destruct (normalize_div_row_ok (m * a :: q)) as (N1 & N2 & N3 & N4 & N5). { cbn. lia. }
  cbn [hd length tl] in *. split; [rewrite N1, C1; lia|]. split; [nia|]. split; [intros; apply N3; nia|]. split.
  - apply N4; [lia|]. exact C3.
  - split.
    + intros i Hi Z0. rewrite N4 by lia. cbn [nth]. destruct (Nat.lt_ge_cases i (length d)) as [J|J].
      * rewrite C2 by exact J. rewrite Z0. nia.
      * rewrite !nth_overflow by lia. tauto.
    + intros e v Hv Z0. rewrite <- N5 by exact Hv. apply (division_scale (m :: d) (m * a :: q) e v a 1); cbn [hd tl]; try lia.
      rewrite (combination_dot a d b eq q v ltac:(lia) (conj C1 C2)). rewrite Z0. ring.
Qed.

Lemma elim_eqs_length eq pos skip : forall l i, length (elim_eqs eq pos skip i l) = length l.
Proof. induction l; intros i; cbn; auto. Qed.
Lemma nth_elim_eqs eq pos skip : forall l i j, (j < length l)%nat ->
  nth j (elim_eqs eq pos skip i l) [] = if match skip with Some k => Nat.eqb k (i + j) | None => false end then nth j l [] else elim_row eq pos (nth j l []).
Proof.
  induction l as [|r l IH]; intros i [|j] H; cbn [length] in H; try lia; cbn [elim_eqs nth].
  - rewrite Nat.add_0_r. reflexivity.
  - rewrite IH by lia. rewrite Nat.add_succ_comm. reflexivity.
Qed.
Lemma elim_divs_length eq pos kd ld : forall l k, length (elim_divs eq pos kd ld k l) = length l.
Proof. induction l; intros i; cbn; auto. Qed.
Lemma nth_elim_divs eq pos kd ld : forall l i j, (j < length l)%nat ->
  nth j (elim_divs eq pos kd ld i l) [] = elim_div eq pos kd ld (i + j) (nth j l []).
Proof.
  induction l as [|r l IH]; intros i [|j] H; cbn [length] in H; try lia; cbn [elim_divs nth].
  - rewrite Nat.add_0_r. reflexivity.
  - rewrite IH by lia. rewrite Nat.add_succ_comm. reflexivity.
Qed.
Lemma Forall_nth_iff {A} (P : A -> Prop) l d : Forall P l <-> forall i, (i < length l)%nat -> P (nth i l d).
Proof.
  rewrite Forall_forall. split; intros H; [intros i Hi; apply H, nth_In, Hi|]. intros x Hx. destruct (In_nth l x d Hx) as (i & Hi & <-). apply H. exact Hi.
Qed.
Lemma rows_iff n l : rows_of n l <-> forall i, (i < length l)%nat -> length (nth i l []) = n.
Proof. apply (Forall_nth_iff (fun r => length r = n) l []). Qed.

(** the elimination keeps the solutions of the equality that is used *)
Lemma elim_system b pos eq skip kd : wf b -> length eq = (1 + total b)%nat -> (pos < total b)%nat -> nth (1 + pos) eq 0 <> 0 ->
  let b' := eliminate_var_using_equality b pos eq skip kd in
  wf b' /\ (nvar b' = nvar b /\ ndiv b' = ndiv b /\ length (b_eq b') = length (b_eq b) /\ length (b_ineq b') = length (b_ineq b) /\ b_empty b' = b_empty b /\ b_rat b' = b_rat b /\ b_param b' = b_param b /\ b_in b' = b_in b /\ b_out b' = b_out b) /\
  (forall v, dot eq v = 0 -> (system (b_eq b) (b_ineq b) v <-> system (b_eq b') (b_ineq b') v)).
Proof.
  intros (We & Wi & Wd) L P N. cbn zeta. unfold eliminate_var_using_equality. set (ld := seq_last_non_zero _).
  cbn [b_eq b_ineq b_div set_eq set_ineq set_div b_empty b_rat]. rewrite elim_eqs_length, map_length.
  assert (T : total (set_div (set_ineq (set_eq b (elim_eqs eq pos skip 0 (b_eq b))) (map (elim_row eq pos) (b_ineq b))) (elim_divs eq pos kd ld 0 (b_div b))) = total b).
  { unfold total, nvar, ndiv. cbn. rewrite elim_divs_length. reflexivity. }
  split; [|split].
  - unfold wf. rewrite T. cbn [b_eq b_ineq b_div set_eq set_ineq set_div]. rewrite !rows_iff in *. rewrite elim_eqs_length, elim_divs_length, map_length. split; [|split].
    + intros i Hi. rewrite nth_elim_eqs by exact Hi. destruct (match skip with Some k => _ | None => _ end); [apply We; exact Hi|].
      rewrite (proj1 (elim_row_ok eq pos (nth i (b_eq b) []) ltac:(rewrite We by exact Hi; lia) ltac:(lia) N)). apply We. exact Hi.
    + intros i Hi. rewrite (nth_indep _ [] (elim_row eq pos [])) by (rewrite map_length; exact Hi). rewrite map_nth.
      rewrite (proj1 (elim_row_ok eq pos (nth i (b_ineq b) []) ltac:(rewrite Wi by exact Hi; lia) ltac:(lia) N)). apply Wi. exact Hi.
    + intros i Hi. rewrite nth_elim_divs by exact Hi. pose proof (Wd i Hi) as Ld. unfold elim_div. destruct (Z.eqb_spec (hd 0 (nth i (b_div b) [])) 0); [exact Ld|].
      destruct (_ =? 0); [exact Ld|]. destruct (match ld with None => _ | Some _ => _ end).
      * pose proof (elim_div_kept eq pos (nth i (b_div b) []) ltac:(lia) ltac:(lia) N ltac:(assumption)) as (K & _). destruct (seq_elim _ _ _ _). cbn [fst snd] in K. lia.
      * rewrite app_length, repeat_length. cbn [length]. lia.
  - unfold nvar, ndiv. cbn. rewrite elim_divs_length. repeat split.
  - intros v Z0. unfold system. rewrite !(Forall_nth_iff (zero_on v) _ []), !(Forall_nth_iff (nonneg_on v) _ []). rewrite elim_eqs_length, map_length.
    assert (QE : forall i, (i < length (b_eq b))%nat -> (zero_on v (nth i (b_eq b) []) <-> zero_on v (nth i (elim_eqs eq pos skip 0 (b_eq b)) []))).
    { intros i Hi. rewrite nth_elim_eqs by exact Hi. destruct (match skip with Some k => _ | None => _ end); [tauto|].
      destruct (elim_row_dot eq pos (nth i (b_eq b) []) ltac:(rewrite (rows_nth _ _ _ We Hi); lia) ltac:(lia) N) as (g & a & Hg & Ha & H). specialize (H v Z0). unfold zero_on. nia. }
    assert (QI : forall i, (i < length (b_ineq b))%nat -> (nonneg_on v (nth i (b_ineq b) []) <-> nonneg_on v (nth i (map (elim_row eq pos) (b_ineq b)) []))).
    { intros i Hi. rewrite (nth_indep (map _ _) [] (elim_row eq pos [])) by (rewrite map_length; exact Hi). rewrite map_nth.
      destruct (elim_row_dot eq pos (nth i (b_ineq b) []) ltac:(rewrite (rows_nth _ _ _ Wi Hi); lia) ltac:(lia) N) as (g & a & Hg & Ha & H). specialize (H v Z0). unfold nonneg_on. nia. }
    split; intros [A B]; (split; intros i Hi; [apply QE|apply QI]; auto).
Qed.


(** the definitions when the equality has no coefficients beyond the variable *)
Lemma elim_divisions b pos eq skip : wf b -> ordered b -> length eq = (1 + total b)%nat -> (pos < total b)%nat -> nth (1 + pos) eq 0 <> 0 ->
  (forall c, (1 + pos < c)%nat -> nth c eq 0 = 0) ->
  let b' := eliminate_var_using_equality b pos eq skip true in
  ordered b' /\ (denoms (b_div b) -> denoms (b_div b')) /\ (forall k, (k < ndiv b)%nat -> (hd 0 (nth k (b_div b') []) = 0 <-> hd 0 (nth k (b_div b) []) = 0)) /\
  (forall k, (k < ndiv b)%nat -> hd 0 (nth k (b_div b) []) <> 0 -> nth (2 + pos) (nth k (b_div b') []) 0 = 0) /\
  (forall v o, hd 0 v = 1 -> dot eq v = 0 -> (divisions (b_div b) o v <-> divisions (b_div b') o v)).
Proof.
  intros (We & Wi & Wd) O L P N Z0. cbn zeta. unfold eliminate_var_using_equality. set (ld := seq_last_non_zero (skipn (1 + nvar b) eq)).
  cbn [b_eq b_ineq b_div set_eq set_ineq set_div].
  assert (KEY : forall k, (k < ndiv b)%nat -> let d := nth k (b_div b) [] in let d' := elim_div eq pos true ld k d in
     (hd 0 d' = 0 <-> hd 0 d = 0) /\ (0 <= hd 0 d -> 0 <= hd 0 d') /\
     (hd 0 d <> 0 -> nth (2 + pos) d' 0 = 0) /\
     (forall j, (k <= j)%nat -> hd 0 d <> 0 -> nth (2 + nvar b + j) d' 0 = 0) /\
     (forall e v, hd 0 v = 1 -> dot eq v = 0 -> (division d e v <-> division d' e v))).
  { intros k Hk. cbn zeta. set (d := nth k (b_div b) []) in *. assert (Ld : length d = (2 + total b)%nat) by (apply rows_nth; assumption).
    pose proof (fun j H => O k j Hk H) as Ok. fold d in Ok. unfold elim_div.
    destruct (Z.eqb_spec (hd 0 d) 0) as [E|E]; [repeat split; auto; tauto|].
    destruct (Z.eqb_spec (nth (2 + pos) d 0) 0) as [E2|E2]; [repeat split; auto; tauto|].
    assert (EL : match ld with None => true | Some l => true && Nat.ltb l k end = true).
    { pose proof (last_non_zero_ok (skipn (1 + nvar b) eq)) as LN. fold ld in LN. destruct ld as [l|]; [|reflexivity]. destruct LN as (_ & LN & _). rewrite nth_skipn in LN.
      destruct (Nat.ltb_spec l k) as [|G]; [reflexivity|exfalso]. destruct (Nat.le_gt_cases (nvar b + l) pos) as [H|H].
      - apply E2. replace (2 + pos)%nat with (2 + nvar b + (pos - nvar b))%nat by lia. apply Ok; [lia|exact E].
      - apply LN. apply Z0. lia. }
    rewrite EL. pose proof (elim_div_kept eq pos d ltac:(lia) ltac:(lia) N E) as K. cbn zeta in K. destruct (seq_elim (tl d) eq (1 + pos) (hd 0 d)) as [q m]. cbn [fst snd] in K.
    destruct K as (_ & K2 & K3 & K4 & K5 & K6). split; [tauto|]. split; [exact K3|]. split; [intros _; exact K4|]. split; [|exact K6].
    intros j Hj _. destruct (Nat.eq_dec (nvar b + j) pos) as [EP|EP]; [rewrite <- EP in K4; exact K4|].
    destruct (Nat.lt_ge_cases pos (nvar b + j)) as [LT|GE].
    - change (2 + nvar b + j)%nat with (S (1 + nvar b + j)). apply K5; [lia|apply Z0; lia|]. apply Ok; [exact Hj|exact E].
    - exfalso. apply E2. replace (2 + pos)%nat with (2 + nvar b + (pos - nvar b))%nat by lia. apply Ok; [lia|exact E]. }
  assert (NT : forall k, (k < ndiv b)%nat -> nth k (elim_divs eq pos true ld 0 (b_div b)) [] = elim_div eq pos true ld k (nth k (b_div b) [])) by (intros k Hk; apply nth_elim_divs; exact Hk).
  split; [|split; [|split; [|split]]].
  - intros k j Hk Hj H. unfold ndiv, nvar in *. cbn [b_div b_param b_in b_out set_div set_eq set_ineq] in *. rewrite elim_divs_length in Hk. rewrite NT in H |- * by exact Hk. apply (KEY k Hk); [exact Hj|]. intros E. apply H. apply (KEY k Hk). exact E.
  - unfold denoms. rewrite !(Forall_nth_iff _ _ []), elim_divs_length. intros D k Hk. rewrite NT by exact Hk. apply (KEY k Hk). apply D. exact Hk.
  - intros k Hk. rewrite NT by exact Hk. apply (KEY k Hk).
  - intros k Hk. rewrite NT by exact Hk. apply (KEY k Hk).
  - intros v o Hv Ev. unfold divisions. rewrite elim_divs_length. split; intros H k Hk; [rewrite NT by exact Hk; apply (KEY k Hk); auto|]. specialize (H k Hk). rewrite NT in H by exact Hk. apply (KEY k Hk); auto.
Qed.
