(** Normalization of affine expressions. *)
From Coq Require Import ZArith List Bool QArith Arith Lia ZifyBool Setoid.
From Verif Require Import SeqModel SeqSpec SeqProofs MatModel LocalModel LocalSpec LocalProofs BMapModel BMapLists SpaceModel PolySpec QpModel QpSpec QpProofs AffModel AffSpec.
Import ListNotations.
Open Scope Z_scope.

(** coefficients [l] over the integer divisions [M] *)
Definition good (d : nat) (M : mat) (l : list Z) : Prop :=
  wf_divs d M /\ known M /\ length l = (2 + d + length M)%nat /\ 0 < nth 0 l 0.
(** the second expression has the same value as the first one *)
Definition keeps (d : nat) (M : mat) (l : list Z) (M' : mat) (l' : list Z) : Prop :=
  good d M' l' /\ forall v r, aff_value d M l v r -> aff_value d M' l' v r.
Lemma keeps_refl d M l : good d M l -> keeps d M l M l.
Proof. intros G. split; [exact G|auto]. Qed.
Lemma keeps_trans d M1 l1 M2 l2 M3 l3 : keeps d M1 l1 M2 l2 -> keeps d M2 l2 M3 l3 -> keeps d M1 l1 M3 l3.
Proof. intros (A & B) (C & D). split; [exact C|]. intros v r H. auto. Qed.
Lemma den_pos M i d : wf_divs d M -> known M -> (i < length M)%nat -> 0 < nth 0 (nth i M []) 0.
Proof. intros W K Hi. destruct (W i Hi) as (_ & P & _). specialize (K i Hi). lia. Qed.
(** the same assignment to the variables and the integer divisions *)
Lemma keeps_same d M l M' l' : good d M l -> wf_divs d M' -> known M' -> length M' = length M -> length l' = length l -> 0 < nth 0 l' 0 ->
  (forall w, sat d M w -> sat d M' w) -> (forall w, sat d M w -> nth 0 l 0 * dot (skipn 1 l') w = nth 0 l' 0 * dot (skipn 1 l) w) -> keeps d M l M' l'.
Proof.
  intros (W & K & L & P) W' K' LM LL P' HS HD. split; [repeat split; try assumption; try apply W'; try assumption; lia|].
  intros v r (w & Sw & Fw & E). exists w. split; [apply HS; exact Sw|]. split; [exact Fw|].
  specialize (HD w Sw). apply (Qmult_inj_l _ _ (inject_Z (nth 0 l 0))); [unfold Qeq; cbn; lia|].
  rewrite <- inject_Z_mult, HD, inject_Z_mult, <- E. ring.
Qed.
Lemma sat_same_w d M M' w : length M' = length M -> sat d M w -> (forall i, (i < length M)%nat -> nth 0 (nth i M' []) 0 <> 0 ->
  nth 0 (nth i M []) 0 <> 0 /\ dot (skipn 1 (nth i M' [])) w / nth 0 (nth i M' []) 0 = dot (skipn 1 (nth i M [])) w / nth 0 (nth i M []) 0) -> sat d M' w.
Proof.
  intros L (Lw & W0 & H) E. split; [lia|]. split; [exact W0|]. intros i Hi Nz. rewrite L in Hi. destruct (E i Hi Nz) as (N & ->). apply H; assumption.
Qed.

(** ** normalize_div *)
Lemma map_div_mul g l : g <> 0 -> (forall x, List.In x l -> (g | x)) -> forall w, dot l w = g * dot (seq_scale_down l g) w.
Proof. intros Hg H w. unfold seq_scale_down, divexact. symmetry. apply dot_div; assumption. Qed.
Lemma nth_scale_down l g i : nth i (seq_scale_down l g) 0 = nth i l 0 / g.
Proof. unfold seq_scale_down, divexact. change 0 with (0 / g) at 1. rewrite (map_nth (fun x => x / g)). reflexivity. Qed.
Lemma normalize_div_ok r : (2 <= length r)%nat -> 0 < nth 0 r 0 ->
  exists r', ls_normalize_div r = Ok r' /\ length r' = length r /\ 0 < nth 0 r' 0 /\ (forall j, (2 <= j)%nat -> nth j r 0 = 0 -> nth j r' 0 = 0) /\
  forall w, nth 0 w 0 = 1 -> dot (skipn 1 r') w / nth 0 r' 0 = dot (skipn 1 r) w / nth 0 r 0.
Proof.
  intros Lr P. unfold ls_normalize_div. set (g := Z.gcd _ _). destruct (Z.eqb_spec g 1) as [E1|N1].
  { exists r. repeat split; auto. }
  destruct r as [|m [|c t]]; cbn in Lr; try lia. cbn [nth skipn] in *.
  assert (Gm : (g | m)) by apply Z.gcd_divide_r.
  assert (Gp : 0 < g). { pose proof (Z.gcd_nonneg (seq_gcd t) m). destruct (Z.eq_dec g 0) as [E|]; [|subst g; lia]. rewrite E in Gm. destruct Gm as (k & ->). lia. }
  assert (Gt : forall x, List.In x t -> (g | x)). { intros x Hx. apply Z.divide_trans with (seq_gcd t); [apply Z.gcd_divide_l|]. apply (seq_gcd_ok t). exact Hx. }
  destruct (Z.eqb_spec g 0); [lia|]. eexists. split; [reflexivity|]. cbn [length nth skipn]. unfold divexact, fdiv_q.
  destruct Gm as (m' & Em). split; [unfold seq_scale_down; rewrite map_length; reflexivity|].
  assert (Dm : m / g = m') by (rewrite Em; apply Z.div_mul; lia). split; [rewrite Dm; nia|]. split.
  { intros j Hj E. destruct j as [|[|j]]; [lia|lia|]. cbn [nth] in *. rewrite nth_scale_down, E. reflexivity. }
  intros w W0. destruct w as [|b u]; cbn [nth] in W0; [discriminate|subst b]. cbn [dot]. rewrite (map_div_mul g t ltac:(lia) Gt u). rewrite Dm, Em.
  replace (m' * g) with (g * m') by ring. rewrite <- Z.div_div by nia. f_equal. replace (c * 1 + g * dot (seq_scale_down t g) u) with (c + dot (seq_scale_down t g) u * g) by ring.
  rewrite Z.div_add by lia. lia.
Qed.

(** ** substitution *)
Lemma substitute_comb p pos s : length s = length p -> (1 + pos < length p)%nat ->
  let p' := seq_substitute p pos s in let b := nth (1 + pos) p 0 in
  length p' = length p /\ nth 0 p' 0 = nth 0 p 0 * nth 0 s 0 /\
  (forall j, (1 <= j)%nat -> (j <> 1 + pos)%nat -> nth j p' 0 = nth 0 s 0 * nth j p 0 + b * nth j s 0) /\
  (nth (1 + pos) p' 0 = b * nth (1 + pos) s 0) /\
  forall w, dot (skipn 1 p') w = nth 0 s 0 * (dot (skipn 1 p) w - b * nth pos w 0) + b * dot (skipn 1 s) w.
Proof.
  intros Ls Hp. cbv zeta. destruct p as [|m g]; [cbn in Hp; lia|]. destruct s as [|k s]; [cbn in Ls; lia|]. cbn in Ls. injection Ls as Ls. cbn [length] in Hp. unfold seq_substitute. cbn [Nat.add nth zupd hd tl length skipn].
  replace (S (length s) - 1)%nat with (length s) by lia. set (g0 := zupd g pos 0). assert (L0 : length g0 = length g) by apply zupd_length.
  rewrite firstn_all2 by lia. rewrite (skipn_all2 g0) by lia. cbn [seq_scale map]. rewrite app_nil_r.
  assert (C : is_combination k g0 (nth pos g 0) s (seq_combine true k g0 (nth pos g 0) s)) by (apply combine_ok; lia).
  split; [destruct C as (-> & _); lia|]. split; [ring|]. split; [|split].
  - intros [|j] Hj Nj; [lia|]. cbn [nth]. destruct (Nat.lt_ge_cases j (length g)) as [H|H].
    + destruct C as (_ & C). rewrite C by lia. unfold g0. rewrite nth_zupd. destruct (Nat.eqb_spec j pos); [lia|]. reflexivity.
    + destruct C as (CL & _). rewrite (nth_overflow (seq_combine _ _ _ _ _)), (nth_overflow g), (nth_overflow s) by lia. ring.
  - destruct C as (_ & C). assert (H : (pos < length g0)%nat) by lia. rewrite (C _ H). unfold g0. rewrite nth_zupd, Nat.eqb_refl. rewrite (proj2 (Nat.ltb_lt pos (length g))) by lia. cbn [andb]. ring.
  - intros w. assert (LL : length g0 = length s) by lia. rewrite (combination_dot _ _ _ _ _ w LL C). unfold g0. rewrite dot_zupd by lia. ring.
Qed.
Lemma skipn_S_tl {A} (l : list A) : forall k, skipn (S k) l = tl (skipn k l).
Proof. induction l as [|a t IH]; intros [|k]; try reflexivity. exact (IH k). Qed.
(** what plugging in one integer division into the definition of another one does to its row *)
Definition row_to (d n i : nat) (M : mat) (r r' : list Z) : Prop :=
  div_row d n i r' /\ nth 0 r' 0 <> 0 /\ forall w, sat d M w -> dot (skipn 1 r') w / nth 0 r' 0 = dot (skipn 1 r) w / nth 0 r 0.
Lemma subs_row_ok d M i j : wf_divs d M -> known M -> (j < i)%nat -> (i < length M)%nat ->
  nth 0 (nth j M []) 0 = 1 \/ nth (2 + d + j) (nth i M []) 0 = 1 ->
  exists r', subs_row (2 + d + j) (nth j M []) (nth i M []) = Ok r' /\ row_to d (length M) i M (nth i M []) r'.
Proof.
  intros W K Hj Hi C. set (p := nth i M []) in *. set (s := nth j M []) in *.
  pose proof (den_pos M i d W K Hi) as Pp. pose proof (den_pos M j d W K ltac:(lia)) as Ps. fold p in Pp. fold s in Ps.
  destruct (W i Hi) as (Lp & _ & Zp). destruct (W j ltac:(lia)) as (Ls & _ & Zs). fold p in Lp, Zp. fold s in Ls, Zs.
  unfold subs_row. destruct (Z.eqb_spec (nth (2 + d + j) p 0) 0) as [E0|N0].
  { exists p. split; [reflexivity|]. split; [repeat split; auto; lia|]. split; [lia|auto]. }
  replace (2 + d + j - 1)%nat with (1 + d + j)%nat by lia.
  destruct (substitute_comb p (1 + d + j) s ltac:(lia) ltac:(lia)) as (Lq & Dq & Zq & Zq' & Eq). change (1 + (1 + d + j))%nat with (2 + d + j)%nat in *. set (q := seq_substitute p (1 + d + j) s) in *. set (b := nth (2 + d + j) p 0) in *.
  destruct (normalize_div_ok q) as (r' & E & Lr & Pr & Zr & Hr); [lia|nia|]. exists r'. split; [exact E|]. split; [|split; [lia|]].
  - split; [lia|]. split; [lia|]. intros k Hk. apply Zr; [lia|]. rewrite Zq by lia. rewrite (Zp k) by lia. rewrite (Zs k) by lia. ring.
  - intros w Sw. pose proof Sw as (Lw & W0 & H). rewrite Hr by exact W0. rewrite Dq, Eq. specialize (H j ltac:(lia) ltac:(fold s; lia)). fold s in H.
    set (x := nth (1 + d + j) w 0) in *. set (F := dot (skipn 1 s) w) in *. set (P := dot (skipn 1 p) w) in *.
    replace (nth 0 p 0 * nth 0 s 0) with (nth 0 s 0 * nth 0 p 0) by ring. rewrite <- Z.div_div by lia. f_equal. destruct C as [C|C].
    + rewrite C, Z.div_1_r in *. nia.
    + fold b in C. rewrite C. replace (nth 0 s 0 * (P - 1 * x) + 1 * F) with (F + (P - x) * nth 0 s 0) by ring. rewrite Z.div_add by lia. lia.
Qed.
Lemma subs_rows_ok d M j first n : wf_divs d M -> known M -> (j < first)%nat -> 
  (forall i, (first <= i < first + n)%nat -> (i < length M)%nat -> nth 0 (nth j M []) 0 = 1 \/ nth (2 + d + j) (nth i M []) 0 = 1) ->
  forall t k, skipn k M = t -> (k <= length M)%nat -> exists t', subs_rows (2 + d + j) (nth j M []) first n k t = Ok t' /\ length t' = length t /\
    forall i, (i < length t)%nat -> row_to d (length M) (k + i) M (nth i t []) (nth i t' []).
Proof.
  intros W K Hj C. induction t as [|r t IH]; intros k Ek Hk; [exists []; split; [reflexivity|]; split; [reflexivity|]; intros i Hi; cbn in Hi; lia|]. cbn [subs_rows].
  assert (Hk' : (k < length M)%nat). { destruct (Nat.eq_dec k (length M)) as [->|]; [rewrite skipn_all in Ek; discriminate|lia]. }
  assert (Er : r = nth k M []). { pose proof (nth_skipn M k 0 []) as E. rewrite Ek in E. cbn [nth] in E. rewrite Nat.add_0_r in E. exact E. }
  assert (Et : skipn (S k) M = t). { rewrite skipn_S_tl, Ek. reflexivity. }
  destruct (IH (S k) Et ltac:(lia)) as (t' & Es & Lt & Ht).
  assert (X : exists r', (if Nat.leb first k && Nat.ltb k (first + n) then subs_row (2 + d + j) (nth j M []) r else Ok r) = Ok r' /\ row_to d (length M) k M r r').
  { rewrite Er. destruct (Nat.leb_spec first k), (Nat.ltb_spec k (first + n)); cbn [andb].
    1: { apply subs_row_ok; try assumption; [lia|]. apply C; lia. }
    all: exists (nth k M []); split; [reflexivity|]; split; [apply W; exact Hk'|]; split; [apply K; exact Hk'|auto]. }
  destruct X as (r' & -> & Hr). cbn [bind]. rewrite Es. cbn [bind]. exists (r' :: t'). split; [reflexivity|]. split; [cbn; lia|]. intros [|i] Hi; cbn [nth].
  - rewrite Nat.add_0_r. exact Hr.
  - cbn in Hi. specialize (Ht i ltac:(lia)). rewrite Nat.add_succ_r. exact Ht.
Qed.
Lemma subs_rows_all d M j first n : wf_divs d M -> known M -> (j < first)%nat -> 
  (forall i, (first <= i < first + n)%nat -> (i < length M)%nat -> nth 0 (nth j M []) 0 = 1 \/ nth (2 + d + j) (nth i M []) 0 = 1) ->
  exists M', subs_rows (2 + d + j) (nth j M []) first n 0 M = Ok M' /\ length M' = length M /\ wf_divs d M' /\ known M' /\ forall w, sat d M w -> sat d M' w.
Proof.
  intros W K Hj C. destruct (subs_rows_ok d M j first n W K Hj C M 0%nat eq_refl ltac:(lia)) as (M' & E & L & H). exists M'. split; [exact E|]. split; [exact L|].
  split; [|split]. 
  - intros i Hi. rewrite L in *. apply H. exact Hi.
  - intros i Hi. rewrite L in *. apply H. exact Hi.
  - intros w Sw. apply (sat_same_w d M M' w L Sw). intros i Hi Nz. split; [apply K; exact Hi|]. apply H; assumption.
Qed.
Lemma plug_in_integral_loop_ok f0 : forall is f, good (a_d f) (a_div f) (a_v f) -> (forall i, List.In i is -> (i < a_n f)%nat) -> a_sp f = a_sp f0 ->
  exists g, plug_in_integral_loop is f = Ok g /\ a_sp g = a_sp f0 /\ keeps (a_d f0) (a_div f) (a_v f) (a_div g) (a_v g).
Proof.
  induction is as [|i is IH]; intros f G Hi Es; cbn [plug_in_integral_loop].
  { exists f. split; [reflexivity|]. split; [exact Es|]. unfold a_d in *. rewrite Es in G. apply keeps_refl. exact G. }
  destruct (Z.eqb_spec (nth 0 (nth i (a_div f) []) 0) 1) as [E|]; cbn [negb]; cycle 1. { apply IH; [exact G| |exact Es]. intros k Hk. apply Hi. right. exact Hk. }
  assert (Hi0 : (i < a_n f)%nat) by (apply Hi; left; reflexivity). unfold a_n in Hi0. pose proof G as (W & K & L & P).
  destruct (subs_rows_all (a_d f) (a_div f) i (i + 1) (a_n f - (i + 1)) W K ltac:(lia)) as (M & EM & LM & WM & KM & SM); [intros; left; exact E|]. rewrite EM. cbn [bind].
  destruct (W i Hi0) as (Ls & _). destruct (substitute_comb (a_v f) (1 + a_d f + i) (nth i (a_div f) []) ltac:(lia) ltac:(lia)) as (Lq & Dq & _ & _ & Eq). set (q := seq_substitute _ _ _) in *.
  assert (Kp : keeps (a_d f) (a_div f) (a_v f) M q).
  { apply keeps_same; try assumption; [nia|]. intros w Sw. rewrite Dq, Eq, E. destruct Sw as (_ & _ & H). specialize (H i Hi0 ltac:(lia)). rewrite E, Z.div_1_r in H. cbn [Nat.add] in *. rewrite H. ring. }
  destruct (IH (mkaff (a_sp f) M q)) as (g & Eg & Sg & Kg); [exact (proj1 Kp)| |exact Es|].
  { intros k Hk. cbn. unfold a_n in *. cbn. rewrite LM. apply Hi. right. exact Hk. }
  exists g. split; [exact Eg|]. split; [exact Sg|]. cbn [a_div a_v] in Kg. replace (a_d f) with (a_d f0) in Kp by (unfold a_d; rewrite Es; reflexivity). exact (keeps_trans _ _ _ _ _ _ _ Kp Kg).
Qed.
Lemma plug_in_unit_loop_ok f0 : forall ijs f, good (a_d f) (a_div f) (a_v f) -> (forall i j, List.In (i, j) ijs -> (j < i < a_n f)%nat) -> a_sp f = a_sp f0 ->
  exists g, plug_in_unit_loop ijs f = Ok g /\ a_sp g = a_sp f0 /\ keeps (a_d f0) (a_div f) (a_v f) (a_div g) (a_v g).
Proof.
  induction ijs as [|(i, j) ijs IH]; intros f G Hi Es; cbn [plug_in_unit_loop].
  { exists f. split; [reflexivity|]. split; [exact Es|]. unfold a_d in *. rewrite Es in G. apply keeps_refl. exact G. }
  destruct (Z.eqb_spec (nth (2 + a_d f + j) (nth i (a_div f) []) 0) 1) as [E|]; cbn [negb]; cycle 1. { apply IH; [exact G| |exact Es]. intros k l Hk. apply Hi. right. exact Hk. }
  assert (Hi0 : (j < i < a_n f)%nat) by (apply Hi; left; reflexivity). unfold a_n in Hi0. pose proof G as (W & K & L & P).
  destruct (subs_rows_all (a_d f) (a_div f) j i 1 W K ltac:(lia)) as (M & EM & LM & WM & KM & SM); [intros k Hk _; right; replace k with i by lia; exact E|]. rewrite EM. cbn [bind].
  assert (Kp : keeps (a_d f) (a_div f) (a_v f) M (a_v f)) by (apply keeps_same; try assumption; auto).
  destruct (IH (mkaff (a_sp f) M (a_v f))) as (g & Eg & Sg & Kg); [exact (proj1 Kp)| |exact Es|].
  { intros k l Hk. unfold a_n in *. cbn. rewrite LM. apply Hi. right. exact Hk. }
  exists g. split; [exact Eg|]. split; [exact Sg|]. cbn [a_div a_v] in Kg. replace (a_d f) with (a_d f0) in Kp by (unfold a_d; rewrite Es; reflexivity). exact (keeps_trans _ _ _ _ _ _ _ Kp Kg).
Qed.
