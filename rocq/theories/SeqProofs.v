(** Proofs about SeqModel. *)
From Coq Require Import ZArith List Bool Lia ZifyBool Znumtheory.
From Verif Require Import SeqModel SeqSpec.
Import ListNotations.
Open Scope Z_scope.

Lemma map2_length {A B C} (f : A -> B -> C) l : forall m, length l = length m -> length (map2 f l m) = length l.
Proof. induction l; intros [|]; cbn; intros; auto; try discriminate. Qed.
Lemma nth_map2 {A B C} (f : A -> B -> C) l : forall m i da db dc, length l = length m -> (i < length l)%nat ->
  nth i (map2 f l m) dc = f (nth i l da) (nth i m db).
Proof.
  induction l; intros [|b m] [|i] da db dc; cbn; intros; try lia; auto. apply IHl; lia.
Qed.
Lemma map2_ext {A B C} (f g : A -> B -> C) l : forall m, (forall x y, f x y = g x y) -> map2 f l m = map2 g l m.
Proof. induction l; intros [|]; cbn; intros; auto. f_equal; auto. Qed.

(** ** dot *)
Lemma dot_map2 a b l : forall m v, length l = length m ->
  dot (map2 (fun x y => a * x + b * y) l m) v = a * dot l v + b * dot m v.
Proof.
  induction l as [|x l IH]; intros [|y m] v; cbn; intros H; try discriminate; try lia.
  destruct v as [|z v]; [lia|]. rewrite (IH m v) by lia. ring.
Qed.
Lemma dot_nil_r l : dot l [] = 0. Proof. destruct l; reflexivity. Qed.
Lemma dot_comm l : forall m, dot l m = dot m l.
Proof. induction l; intros [|]; cbn; auto. rewrite IHl. ring. Qed.
Lemma dot_map_mul c l : forall v, dot (map (fun x => x * c) l) v = c * dot l v.
Proof. induction l; intros [|]; cbn; try lia. rewrite IHl. ring. Qed.
Lemma dot_opp l : forall v, dot (map Z.opp l) v = - dot l v.
Proof. induction l; intros [|]; cbn; try lia. rewrite IHl. ring. Qed.
Lemma dot_div c l : c <> 0 -> (forall x, In x l -> (c | x)) -> forall v, c * dot (map (fun x => x / c) l) v = dot l v.
Proof.
  intros Hc. induction l as [|x l IH]; intros H [|y v]; cbn; try lia.
  destruct (H x (or_introl eq_refl)) as [k ->]. rewrite Z.div_mul by assumption.
  rewrite Z.mul_add_distr_l, IH; [ring|]. intros; apply H; right; assumption.
Qed.
Lemma dot_app l1 : forall l2 v, dot (l1 ++ l2) v = dot l1 (firstn (length l1) v) + dot l2 (skipn (length l1) v).
Proof.
  induction l1 as [|x l1 IH]; intros l2 [|y v]; cbn; try lia.
  - rewrite dot_nil_r. reflexivity.
  - rewrite IH. ring.
Qed.
Lemma dot_app2 l1 : forall l2 v1 v2, length l1 = length v1 -> dot (l1 ++ l2) (v1 ++ v2) = dot l1 v1 + dot l2 v2.
Proof. induction l1; intros l2 [|] v2; cbn; intros; try discriminate; try lia. rewrite IHl1 by lia. ring. Qed.
Lemma dot_repeat0 n : forall v, dot (repeat 0 n) v = 0.
Proof. induction n; intros [|]; cbn; auto. Qed.

(** ** combine, elim *)
Lemma seq_combine_eq al m1 l1 m2 l2 : length l1 = length l2 ->
  seq_combine al m1 l1 m2 l2 = map2 (fun x y => m1 * x + m2 * y) l1 l2.
Proof.
  intros HL. unfold seq_combine. destruct al; cbn [andb]; [|reflexivity].
  destruct (Z.eqb_spec m1 1) as [->|]; [|reflexivity]. destruct (Z.eqb_spec m2 0) as [->|].
  - revert l2 HL. induction l1 as [|x l1 IH]; intros [|y l2]; cbn; intros; try discriminate; auto.
    f_equal; [destruct x; ring|]. apply IH. lia.
  - apply map2_ext. intros. ring.
Qed.
Lemma combine_ok al m1 l1 m2 l2 : length l1 = length l2 ->
  is_combination m1 l1 m2 l2 (seq_combine al m1 l1 m2 l2).
Proof.
  intros H. rewrite seq_combine_eq by exact H. split; [apply map2_length; exact H|].
  intros i Hi. apply (nth_map2 (fun x y => m1 * x + m2 * y)); assumption.
Qed.
Lemma addmul_ok dst f src : length dst = length src -> is_combination 1 dst f src (seq_addmul dst f src).
Proof.
  intros H. split; [apply map2_length; exact H|]. intros i Hi. unfold seq_addmul.
  rewrite (nth_map2 _ dst src i 0 0 0) by assumption. ring.
Qed.
Lemma submul_ok dst f src : length dst = length src -> is_combination 1 dst (- f) src (seq_submul dst f src).
Proof.
  intros H. split; [apply map2_length; exact H|]. intros i Hi. unfold seq_submul.
  rewrite (nth_map2 _ dst src i 0 0 0) by assumption. ring.
Qed.

Lemma elim_factors s d : s <> 0 ->
  let g := Z.gcd s d in
  let a := Z.abs (s / g) in let b := if 0 <? s then - (d / g) else d / g in
  0 < g /\ (g | s) /\ (g | d) /\ 0 < a /\ a * d + b * s = 0 /\ g * a = Z.abs s /\ g * b = - Z.sgn s * d /\ Z.gcd a b = 1.
Proof.
  intros Hs g a b.
  assert (Hg : 0 < g). { pose proof (Z.gcd_nonneg s d). assert (g <> 0); [|unfold g in *; lia]. intros E. apply Z.gcd_eq_0_l in E. congruence. }
  destruct (Z.gcd_divide_l s d) as [p Hp]. destruct (Z.gcd_divide_r s d) as [q Hq]. fold g in Hp, Hq.
  assert (Ep : s / g = p) by (rewrite Hp; apply Z.div_mul; lia).
  assert (Eq : d / g = q) by (rewrite Hq; apply Z.div_mul; lia).
  assert (Hp0 : p <> 0) by (intros ->; lia).
  assert (G : Z.gcd p q = 1).
  { rewrite <- Ep, <- Eq. apply Z.gcd_div_gcd; [lia|reflexivity]. }
  unfold a, b. rewrite Ep, Eq. split; [exact Hg|]. split; [exists p; exact Hp|]. split; [exists q; exact Hq|].
  assert (Sg : 0 < s <-> 0 < p) by nia.
  split; [lia|]. destruct (Z.ltb_spec 0 s) as [H|H].
  - rewrite (Z.abs_eq p), (Z.abs_eq s), (Z.sgn_pos s) by lia. split; [rewrite Hp, Hq; ring|]. split; [rewrite Hp; ring|].
    split; [rewrite Hq; ring|]. rewrite Z.gcd_opp_r. exact G.
  - rewrite (Z.abs_neq p), (Z.abs_neq s), (Z.sgn_neg s) by lia. split; [rewrite Hp, Hq; ring|]. split; [rewrite Hp; ring|].
    split; [rewrite Hq; ring|]. rewrite Z.gcd_opp_l. exact G.
Qed.

Lemma combination_id l m : is_combination 1 l 0 m l.
Proof. split; [reflexivity|]. intros. lia. Qed.

Lemma elim_ok dst src pos m : length dst = length src -> (pos < length dst)%nat -> nth pos src 0 <> 0 ->
  exists a b, 0 < a /\ is_combination a dst b src (fst (seq_elim dst src pos m)) /\
    snd (seq_elim dst src pos m) = m * a /\ nth pos (fst (seq_elim dst src pos m)) 0 = 0 /\ Z.gcd a b = 1.
Proof.
  intros HL Hp Hs. unfold seq_elim. destruct (Z.eqb_spec (nth pos dst 0) 0) as [E|E].
  - exists 1, 0. cbn [fst snd]. split; [lia|]. split; [apply combination_id|]. split; [lia|]. split; [exact E|]. reflexivity.
  - set (g := Z.gcd (nth pos src 0) (nth pos dst 0)). unfold divexact. cbn [fst snd].
    destruct (elim_factors (nth pos src 0) (nth pos dst 0) Hs) as (Hg & _ & _ & Ha & Hab & _ & _ & G).
    eexists _, _. split; [exact Ha|]. split; [apply combine_ok; exact HL|]. split; [reflexivity|]. split; [|exact G].
    destruct (combine_ok true (Z.abs (nth pos src 0 / g)) dst
      (if 0 <? nth pos src 0 then - (nth pos dst 0 / g) else nth pos dst 0 / g) src HL) as [_ Hn].
    rewrite Hn by exact Hp. exact Hab.
Qed.

Lemma combination_dot a l b m r v : length l = length m -> is_combination a l b m r ->
  dot r v = a * dot l v + b * dot m v.
Proof.
  intros HL [Hr Hn]. rewrite <- (dot_map2 a b l m v HL). f_equal.
  apply (nth_ext _ _ 0 0); [rewrite map2_length by exact HL; exact Hr|].
  intros i Hi. rewrite Hn by lia. symmetry. apply (nth_map2 (fun x y => a * x + b * y)); [exact HL|lia].
Qed.

(** ** comparisons *)
Lemma seq_eq_ok p1 : forall p2, length p1 = length p2 -> (seq_eq p1 p2 = true <-> p1 = p2).
Proof.
  induction p1 as [|x p1 IH]; intros [|y p2]; cbn; intros H; try discriminate; [tauto|].
  destruct (Z.eqb_spec x y) as [->|Hn]; cbn [negb]; [|split; congruence].
  rewrite IH by lia. split; congruence.
Qed.
Lemma seq_cmp_ok p1 : forall p2, length p1 = length p2 ->
  (seq_cmp p1 p2 < 0 <-> lex p1 p2) /\ (seq_cmp p1 p2 = 0 <-> p1 = p2) /\ (0 < seq_cmp p1 p2 <-> lex p2 p1).
Proof.
  induction p1 as [|x p1 IH]; intros [|y p2]; cbn [length seq_cmp]; intros H; try discriminate.
  - split; [split; [lia|inversion 1]|]. split; [split; [reflexivity|lia]|]. split; [lia|inversion 1].
  - unfold int_cmp. destruct (Z.ltb_spec x y); [|destruct (Z.ltb_spec y x)]; cbn [Z.eqb negb].
    + split; [split; [intros _; constructor; assumption|lia]|]. split; [split; [lia|intros [= ? ?]; lia]|].
      split; [lia|inversion 1; lia].
    + split; [split; [lia|inversion 1; lia]|]. split; [split; [lia|intros [= ? ?]; lia]|].
      split; [intros _; constructor; assumption|lia].
    + assert (x = y) as -> by lia. destruct (IH p2 ltac:(lia)) as (A & B & C).
      split; [rewrite A|split; [rewrite B|rewrite C]].
      * split; [apply lex_next|inversion 1; [lia|assumption]].
      * split; congruence.
      * split; [apply lex_next|inversion 1; [lia|assumption]].
Qed.
Lemma seq_is_neg_ok p1 : forall p2, length p1 = length p2 -> (seq_is_neg p1 p2 = true <-> p1 = map Z.opp p2).
Proof.
  induction p1 as [|x p1 IH]; intros [|y p2]; cbn; intros H; try discriminate; [tauto|].
  destruct (Z.eqb_spec (Z.abs x) (Z.abs y)); cbn [negb]; [|split; [discriminate|intros [= ? ?]; lia]].
  destruct (Z.eqb_spec x 0).
  - rewrite IH by lia. split; [intros ->; f_equal; lia|intros [= ? ?]; assumption].
  - destruct (Z.eqb_spec x y); [split; [discriminate|intros [= ? ?]; lia]|].
    rewrite IH by lia. split; [intros ->; f_equal; lia|intros [= ? ?]; assumption].
Qed.

(** ** searching *)
Lemma first_from_spec p : forall i,
  match first_non_zero_from i p with
  | Some k => exists j, k = (i + j)%nat /\ (j < length p)%nat /\ nth j p 0 <> 0 /\ forall l, (l < j)%nat -> nth l p 0 = 0
  | None => forall l, nth l p 0 = 0
  end.
Proof.
  induction p as [|x p IH]; intros i; cbn [first_non_zero_from].
  - intros [|]; reflexivity.
  - destruct (Z.eqb_spec x 0) as [->|Hx]; cbn [negb].
    + specialize (IH (S i)). destruct (first_non_zero_from (S i) p) as [k|].
      * destruct IH as (j & -> & Hj & Hn & Hz). exists (S j). split; [lia|]. split; [cbn; lia|]. split; [exact Hn|].
        intros [|l] Hl; [reflexivity|]. cbn. apply Hz. lia.
      * intros [|l]; [reflexivity|]. apply IH.
    + exists O. split; [lia|]. split; [cbn; lia|]. split; [exact Hx|]. lia.
Qed.
Lemma first_non_zero_ok p :
  match seq_first_non_zero p with
  | Some k => (k < length p)%nat /\ nth k p 0 <> 0 /\ forall l, (l < k)%nat -> nth l p 0 = 0
  | None => forall l, nth l p 0 = 0
  end.
Proof.
  unfold seq_first_non_zero. pose proof (first_from_spec p 0). destruct (first_non_zero_from 0 p) as [k|]; [|assumption].
  destruct H as (j & -> & H). exact H.
Qed.
Lemma last_from_spec p : forall i, (i <= length p)%nat ->
  match last_non_zero_from i p with
  | Some k => (k < i)%nat /\ nth k p 0 <> 0 /\ forall l, (k < l < i)%nat -> nth l p 0 = 0
  | None => forall l, (l < i)%nat -> nth l p 0 = 0
  end.
Proof.
  induction i as [|i IH]; intros Hi; cbn [last_non_zero_from]; [lia|].
  destruct (Z.eqb_spec (nth i p 0) 0) as [E|E]; cbn [negb].
  - specialize (IH ltac:(lia)). destruct (last_non_zero_from i p) as [k|].
    + destruct IH as (A & B & C). split; [lia|]. split; [exact B|]. intros l Hl.
      destruct (Nat.eq_dec l i) as [->|]; [exact E|apply C; lia].
    + intros l Hl. destruct (Nat.eq_dec l i) as [->|]; [exact E|apply IH; lia].
  - split; [lia|]. split; [exact E|]. lia.
Qed.
Lemma last_non_zero_ok p :
  match seq_last_non_zero p with
  | Some k => (k < length p)%nat /\ nth k p 0 <> 0 /\ forall l, (k < l)%nat -> nth l p 0 = 0
  | None => forall l, nth l p 0 = 0
  end.
Proof.
  unfold seq_last_non_zero. pose proof (last_from_spec p (length p) (Nat.le_refl _)) as H.
  destruct (last_non_zero_from (length p) p) as [k|].
  - destruct H as (A & B & C). split; [exact A|]. split; [exact B|]. intros l Hl.
    destruct (Nat.lt_ge_cases l (length p)); [apply C; lia|apply nth_overflow; lia].
  - intros l. destruct (Nat.lt_ge_cases l (length p)); [apply H; lia|apply nth_overflow; lia].
Qed.
Lemma abs_max_ok p : 0 <= seq_abs_max p /\ (forall x, In x p -> Z.abs x <= seq_abs_max p) /\
  (seq_abs_max p = 0 \/ exists x, In x p /\ seq_abs_max p = Z.abs x).
Proof.
  unfold seq_abs_max. set (f := fun max x => if max <? Z.abs x then Z.abs x else max).
  assert (G : forall p m, 0 <= m -> m <= fold_left f p m /\ (forall x, In x p -> Z.abs x <= fold_left f p m) /\
              (fold_left f p m = m \/ exists x, In x p /\ fold_left f p m = Z.abs x)).
  { clear p. induction p as [|x p IH]; intros m Hm; cbn [fold_left].
    - split; [lia|]. split; [cbn; tauto|auto].
    - assert (Hf : m <= f m x /\ Z.abs x <= f m x /\ (f m x = m \/ f m x = Z.abs x)).
      { unfold f. destruct (Z.ltb_spec m (Z.abs x)); lia. }
      destruct (IH (f m x) ltac:(lia)) as (A & B & C). split; [lia|]. split.
      + intros y [<-|Hy]; [lia|auto].
      + destruct C as [->|(y & Hy & ->)]; [|right; exists y; split; [right; exact Hy|reflexivity]].
        destruct Hf as (_ & _ & [->| ->]); [auto|]. right. exists x. split; [left; reflexivity|reflexivity]. }
  destruct (G p 0 ltac:(lia)) as (A & B & C). auto.
Qed.
Lemma abs_min_loop_spec p : forall i min vmin, vmin <> 0 -> 
  let k := abs_min_loop i p min vmin in
  (k = min /\ forall j, (j < length p)%nat -> nth j p 0 <> 0 -> Z.abs vmin <= Z.abs (nth j p 0)) \/
  (exists j, k = (i + j)%nat /\ (j < length p)%nat /\ nth j p 0 <> 0 /\ Z.abs (nth j p 0) <= Z.abs vmin /\
     forall l, (l < length p)%nat -> nth l p 0 <> 0 -> Z.abs (nth j p 0) <= Z.abs (nth l p 0)).
Proof.
  induction p as [|x p IH]; intros i min vmin Hv; cbn [abs_min_loop].
  - left. split; [reflexivity|]. cbn. lia.
  - destruct (Z.eqb_spec x 0) as [->|Hx]; [|destruct (Z.ltb_spec (Z.abs x) (Z.abs vmin)) as [Hlt|Hge]].
    + destruct (IH (S i) min vmin Hv) as [[A B]|(j & A & B & C & D & E)].
      * left. split; [exact A|]. intros [|j] Hj; [cbn; lia|]. cbn. apply B. cbn in Hj. lia.
      * right. exists (S j). split; [lia|]. split; [cbn; lia|]. split; [exact C|]. split; [exact D|].
        intros [|l] Hl; [cbn; lia|]. cbn. apply E. cbn in Hl. lia.
    + right. destruct (IH (S i) i x Hx) as [[A B]|(j & A & B & C & D & E)].
      * exists O. split; [lia|]. split; [cbn; lia|]. split; [exact Hx|]. cbn [nth]. split; [lia|].
        intros [|l] Hl; [lia|]. cbn. apply B. cbn in Hl. lia.
      * exists (S j). split; [lia|]. split; [cbn; lia|]. split; [exact C|]. cbn [nth]. split; [lia|].
        intros [|l] Hl; [lia|]. cbn. apply E. cbn in Hl. lia.
    + destruct (IH (S i) min vmin Hv) as [[A B]|(j & A & B & C & D & E)].
      * left. split; [exact A|]. intros [|j] Hj; [cbn; lia|]. cbn. apply B. cbn in Hj. lia.
      * right. exists (S j). split; [lia|]. split; [cbn; lia|]. split; [exact C|]. cbn [nth]. split; [lia|].
        intros [|l] Hl; [lia|]. cbn. apply E. cbn in Hl. lia.
Qed.
Lemma nth_skipn {A} (l : list A) : forall n i d, nth i (skipn n l) d = nth (n + i) l d.
Proof. induction l; intros [|n] i d; cbn; auto. destruct i; reflexivity. Qed.
Lemma abs_min_ok p :
  match seq_abs_min_non_zero p with
  | Some k => (k < length p)%nat /\ nth k p 0 <> 0 /\
              forall l, (l < length p)%nat -> nth l p 0 <> 0 -> Z.abs (nth k p 0) <= Z.abs (nth l p 0)
  | None => forall l, nth l p 0 = 0
  end.
Proof.
  unfold seq_abs_min_non_zero. pose proof (first_non_zero_ok p) as F. destruct (seq_first_non_zero p) as [m|]; [|exact F].
  destruct F as (Hm & Hn & Hz).
  destruct (abs_min_loop_spec (skipn (S m) p) (S m) m (nth m p 0) Hn) as [[A B]|(j & A & B & C & D & E)].
  - rewrite A. split; [exact Hm|]. split; [exact Hn|]. intros l Hl Hnl.
    destruct (Nat.lt_trichotomy l m) as [H|[->|H]]; [rewrite Hz in Hnl by exact H; congruence|lia|].
    specialize (B (l - S m)%nat). rewrite nth_skipn in B. replace (S m + (l - S m))%nat with l in B by lia.
    apply B; [|exact Hnl]. rewrite skipn_length. lia.
  - rewrite nth_skipn in C, D. rewrite skipn_length in B. rewrite A. split; [lia|]. split; [exact C|].
    intros l Hl Hnl. destruct (Nat.lt_trichotomy l m) as [H|[->|H]]; [rewrite Hz in Hnl by exact H; congruence|exact D|].
    specialize (E (l - S m)%nat). rewrite !nth_skipn in E. replace (S m + (l - S m))%nat with l in E by lia.
    apply E; [|exact Hnl]. rewrite skipn_length. lia.
Qed.

(** ** gcd *)
Lemma gcd_loop_spec p min : forall i g, 0 < g ->
  0 < gcd_loop i p min g /\ (gcd_loop i p min g | g) /\
  (forall j, (j < length p)%nat -> (i + j)%nat <> min -> (gcd_loop i p min g | nth j p 0)) /\
  (forall d, (d | g) -> (forall x, In x p -> (d | x)) -> (d | gcd_loop i p min g)).
Proof.
  induction p as [|x p IH]; intros i g Hg; cbn [gcd_loop].
  - split; [exact Hg|]. split; [reflexivity|]. split; [cbn; lia|]. auto.
  - destruct (Z.ltb_spec 1 g) as [H1|H1].
    2:{ assert (g = 1) as -> by lia. split; [lia|]. split; [reflexivity|]. split; [intros; apply Z.divide_1_l|]. auto. }
    destruct (Nat.eqb_spec i min) as [Ei|Ei]; [|destruct (Z.eqb_spec x 0) as [->|Hx]].
    + destruct (IH (S i) g Hg) as (A & B & C & D). split; [exact A|]. split; [exact B|]. split.
      * intros [|j] Hj Hne; [lia|]. cbn. apply C; [cbn in Hj; lia|lia].
      * intros d Hd Hall. apply D; [exact Hd|]. intros; apply Hall; right; assumption.
    + destruct (IH (S i) g Hg) as (A & B & C & D). split; [exact A|]. split; [exact B|]. split.
      * intros [|j] Hj Hne; [apply Z.divide_0_r|]. cbn. apply C; [cbn in Hj; lia|lia].
      * intros d Hd Hall. apply D; [exact Hd|]. intros; apply Hall; right; assumption.
    + assert (Hg' : 0 < Z.gcd g x).
      { pose proof (Z.gcd_nonneg g x). assert (Z.gcd g x <> 0); [|lia]. intros E. apply Z.gcd_eq_0_l in E. lia. }
      destruct (IH (S i) _ Hg') as (A & B & C & D). split; [exact A|].
      split; [apply (Z.divide_trans _ _ _ B), Z.gcd_divide_l|]. split.
      * intros [|j] Hj Hne; [cbn; apply (Z.divide_trans _ _ _ B), Z.gcd_divide_r|]. cbn. apply C; [cbn in Hj; lia|lia].
      * intros d Hd Hall. apply D; [apply Z.gcd_greatest; [exact Hd|apply Hall; left; reflexivity]|].
        intros; apply Hall; right; assumption.
Qed.
Lemma seq_gcd_ok p : is_gcd (seq_gcd p) p.
Proof.
  unfold seq_gcd. pose proof (abs_min_ok p) as F. destruct (seq_abs_min_non_zero p) as [m|].
  - destruct F as (Hm & Hn & _).
    destruct (gcd_loop_spec p m 0 (Z.abs (nth m p 0)) ltac:(lia)) as (A & B & C & D).
    split; [lia|]. split.
    + intros x Hx. destruct (In_nth _ _ 0 Hx) as (j & Hj & <-).
      destruct (Nat.eq_dec j m) as [->|Hjm]; [apply Z.divide_abs_r; exact B|apply C; assumption].
    + intros d Hd. apply D; [apply Z.divide_abs_r, Hd, nth_In; exact Hm|exact Hd].
  - split; [lia|]. split; [|intros; apply Z.divide_0_r]. intros x Hx.
    destruct (In_nth _ _ 0 Hx) as (j & Hj & <-). rewrite F. apply Z.divide_0_r.
Qed.
Lemma is_gcd_unique g h p : is_gcd g p -> is_gcd h p -> g = h.
Proof.
  intros (A & B & C) (D & E & F). apply Z.divide_antisym_nonneg; auto.
Qed.
Lemma is_gcd_zero p : is_gcd 0 p -> forall x, In x p -> x = 0.
Proof. intros (_ & H & _) x Hx. destruct (H x Hx) as [k ->]. ring. Qed.

Lemma normalize_ok p : exists g, is_gcd g p /\ length (seq_normalize p) = length p /\
  (forall i, nth i p 0 = g * nth i (seq_normalize p) 0) /\ (g <> 0 -> is_gcd 1 (seq_normalize p)).
Proof.
  exists (seq_gcd p). pose proof (seq_gcd_ok p) as G. split; [exact G|].
  unfold seq_normalize. destruct p as [|x0 p0] eqn:Ep.
  { cbn. split; [reflexivity|]. split; [intros [|]; lia|]. intros H. exfalso. apply H. reflexivity. }
  rewrite <- Ep in *. clear Ep.
  destruct (Z.eqb_spec (seq_gcd p) 0) as [E|E]; cbn [negb andb].
  { split; [reflexivity|]. split; [|congruence]. intros i. rewrite E in *.
    destruct (Nat.lt_ge_cases i (length p)); [|rewrite nth_overflow by lia; lia].
    rewrite (is_gcd_zero p G (nth i p 0)) by (apply nth_In; assumption). lia. }
  destruct (Z.eqb_spec (seq_gcd p) 1) as [E1|E1]; cbn [negb].
  { rewrite E1 in *. split; [reflexivity|]. split; [intros; lia|]. intros _. exact G. }
  unfold seq_scale_down. split; [apply map_length|]. destruct G as (G0 & G1 & G2).
  assert (Hn : forall i, nth i (map (fun x => divexact x (seq_gcd p)) p) 0 = nth i p 0 / seq_gcd p).
  { intros i. destruct (Nat.lt_ge_cases i (length p)).
    - rewrite (nth_indep _ 0 (divexact 0 (seq_gcd p))) by (rewrite map_length; assumption).
      rewrite (map_nth (fun x => divexact x (seq_gcd p))). reflexivity.
    - rewrite !nth_overflow by (try rewrite map_length; lia). reflexivity. }
  split.
  - intros i. rewrite Hn. destruct (Nat.lt_ge_cases i (length p)).
    + apply Z_div_exact_full_2; [exact E|]. apply Z.mod_divide; [exact E|]. apply G1, nth_In. assumption.
    + rewrite nth_overflow by lia. rewrite Z.div_0_l by exact E. lia.
  - intros _. split; [lia|]. split; [intros; apply Z.divide_1_l|]. intros d Hd.
    assert (H : (d * seq_gcd p | seq_gcd p)).
    { apply G2. intros x Hx. assert (Hin : In (divexact x (seq_gcd p)) (map (fun x => divexact x (seq_gcd p)) p)) by (apply in_map_iff; eauto).
      destruct (Hd _ Hin) as [k Hk]. unfold divexact in Hk. exists k.
      destruct (G1 x Hx) as [q ->]. rewrite Z.div_mul in Hk by exact E. rewrite Hk. ring. }
    destruct H as [k Hk]. exists k. assert (k * d * seq_gcd p = 1 * seq_gcd p) by lia.
    apply Z.mul_reg_r in H; [lia|exact E].
Qed.
Lemma lcm_ok p : is_lcm (seq_lcm p) p.
Proof.
  destruct p as [|x p]; cbn [seq_lcm]; [split; [intros ? []|intros; apply Z.divide_1_l]|].
  assert (G : forall p m, (m | fold_left Z.lcm p m) /\ (forall x, In x p -> (x | fold_left Z.lcm p m)) /\
              forall d, (m | d) -> (forall x, In x p -> (x | d)) -> (fold_left Z.lcm p m | d)).
  { clear. induction p as [|x p IH]; intros m; cbn [fold_left].
    - split; [reflexivity|]. split; [intros ? []|auto].
    - destruct (IH (Z.lcm m x)) as (A & B & C). split; [apply (Z.divide_trans _ _ _ (Z.divide_lcm_l m x) A)|]. split.
      + intros y [<-|Hy]; [apply (Z.divide_trans _ _ _ (Z.divide_lcm_r m x) A)|auto].
      + intros d Hm Hd. apply C; [|intros; apply Hd; right; assumption].
        apply Z.lcm_least; [exact Hm|apply Hd; left; reflexivity]. }
  destruct (G p x) as (A & B & C). split.
  - intros y [<-|Hy]; auto.
  - intros d Hd. apply C; [apply Hd; left; reflexivity|intros; apply Hd; right; assumption].
Qed.
Lemma inner_ok p1 p2 : seq_inner_product p1 p2 = dot p1 p2.
Proof.
  destruct p1 as [|x p1], p2 as [|y p2]; try reflexivity. cbn [seq_inner_product dot].
  assert (G : forall l m s, fold_left (fun s xy => s + fst xy * snd xy) (combine l m) s = s + dot l m).
  { induction l as [|a l IH]; intros [|b m] s; cbn [combine fold_left dot]; try lia. rewrite IH. cbn. ring. }
  apply G.
Qed.

(** ** substitution *)
Lemma zupd_length l : forall i a, length (zupd l i a) = length l.
Proof. induction l; intros [|i]; cbn; auto. Qed.
Lemma dot_zupd l : forall i a v, (i < length l)%nat -> dot (zupd l i a) v = dot l v + (a - nth i l 0) * nth i v 0.
Proof.
  induction l as [|x l IH]; intros [|i] a [|y v]; cbn; intros H; try lia. rewrite IH by lia. ring.
Qed.
Lemma dot_with_value l : forall i a v, (i < length v)%nat ->
  dot l (with_value v i a) = dot l v + nth i l 0 * (a - nth i v 0).
Proof.
  unfold with_value. induction l as [|x l IH]; intros i a v H.
  - destruct i; cbn; lia.
  - destruct v as [|y v]; [cbn in H; lia|]. destruct i as [|i]; [cbn; ring|].
    cbn in H. cbn [firstn skipn app dot nth]. rewrite IH by lia. ring.
Qed.
Lemma substitute_ok p pos subs x f : 
  (2 <= length subs <= length p)%nat -> (1 + pos < length p)%nat ->
  length x = (length p - 1)%nat ->
  hd 0 subs * f = dot (tl subs) x ->
  let p' := seq_substitute p pos subs in
  length p' = length p /\ hd 0 p' = hd 0 p * hd 0 subs /\
  dot (tl p') x = hd 0 subs * dot (tl p) (with_value x pos f).
Proof.
  intros Hs Hp Hx Hf p'. destruct p as [|m g]; [cbn in Hs; lia|]. destruct subs as [|d s]; [cbn in Hs; lia|].
  cbn [length] in *. cbn [hd tl] in *. unfold p', seq_substitute. cbn [Nat.add nth zupd hd tl length].
  set (g0 := zupd g pos 0). assert (L0 : length g0 = length g) by apply zupd_length.
  replace (S (length s) - 1)%nat with (length s) by lia. cbn [skipn].
  assert (Lf : length (firstn (length s) g0) = length s) by (rewrite firstn_length; lia).
  rewrite seq_combine_eq by exact Lf.
  split; [|split; [reflexivity|]].
  - cbn [length]. rewrite app_length, map2_length by exact Lf. unfold seq_scale. rewrite map_length, skipn_length. lia.
  - rewrite dot_app, map2_length by exact Lf. unfold seq_scale. rewrite dot_map2 by exact Lf. rewrite dot_map_mul.
    rewrite Lf.
    assert (E1 : dot g0 x = dot (firstn (length s) g0) (firstn (length s) x) + dot (skipn (length s) g0) (skipn (length s) x)).
    { rewrite <- (firstn_skipn (length s) g0) at 1. rewrite dot_app, Lf. reflexivity. }
    assert (E2 : dot s (firstn (length s) x) = dot s x).
    { pose proof (dot_app s [] x) as E. rewrite app_nil_r in E. cbn [dot] in E. lia. }
    rewrite E2, <- Hf. rewrite dot_with_value by lia.
    assert (E3 : dot g0 x = dot g x + (0 - nth pos g 0) * nth pos x 0) by (apply dot_zupd; lia).
    nia.
Qed.
