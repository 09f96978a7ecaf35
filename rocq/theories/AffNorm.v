(** Sorting and removing integer divisions of affine expressions. *)
From Coq Require Import ZArith List Bool QArith Arith Lia ZifyBool Setoid.
From Verif Require Import SeqModel SeqSpec SeqProofs MatModel LocalModel LocalSpec LocalProofs BMapModel BMapLists SpaceModel PolySpec QpModel QpSpec QpProofs AffModel AffSpec AffBase.
Import ListNotations.
Open Scope Z_scope.

(** ** swapping *)
Lemma swap_length l i j : length (swap_els l i j) = length l.
Proof. unfold swap_els. rewrite !zupd_length. reflexivity. Qed.
Lemma nth_swap l i j k : (i < length l)%nat -> (j < length l)%nat -> nth k (swap_els l i j) 0 = if Nat.eqb k j then nth i l 0 else if Nat.eqb k i then nth j l 0 else nth k l 0.
Proof. intros Hi Hj. unfold swap_els. rewrite !nth_zupd, zupd_length. destruct (Nat.eqb_spec k j), (Nat.eqb_spec k i), (Nat.ltb_spec j (length l)), (Nat.ltb_spec i (length l)); try lia; reflexivity. Qed.
Lemma skipn_swap l i j : skipn 1 (swap_els l (S i) (S j)) = swap_els (skipn 1 l) i j.
Proof. unfold swap_els. rewrite !skipn_zupd. rewrite !nth_skipn. reflexivity. Qed.
Lemma dot_swap l w i j : (i < length l)%nat -> (j < length l)%nat -> (i < length w)%nat -> (j < length w)%nat -> i <> j -> dot (swap_els l i j) (swap_els w i j) = dot l w.
Proof.
  intros Hi Hj Hi' Hj' N. unfold swap_els at 1. rewrite !dot_zupd by (rewrite ?zupd_length; lia). rewrite nth_zupd. destruct (Nat.eqb_spec j i); [lia|]. cbn [andb].
  rewrite !nth_swap by assumption. rewrite !Nat.eqb_refl. destruct (Nat.eqb_spec i j); [lia|].
  unfold swap_els. rewrite (dot_comm l). rewrite !dot_zupd by (rewrite ?zupd_length; lia). rewrite nth_zupd. destruct (Nat.eqb_spec j i); [lia|]. cbn [andb]. rewrite (dot_comm w l). ring.
Qed.
Lemma swap_row M (c a b k : nat) : (a < length M)%nat -> (b < length M)%nat ->
  nth k (lswap (map (fun r => swap_els r (c + a) (c + b)) M) a b) [] = swap_els (nth (if Nat.eqb k b then a else if Nat.eqb k a then b else k) M []) (c + a) (c + b).
Proof.
  intros Ha Hb. rewrite nth_lswap by (rewrite map_length; assumption).
  assert (E : forall i, nth i (map (fun r => swap_els r (c + a) (c + b)) M) [] = swap_els (nth i M []) (c + a) (c + b)).
  { intros i. change [] with (swap_els [] (c + a) (c + b)) at 1. apply (map_nth (fun r => swap_els r (c + a) (c + b))). }
  rewrite !E. destruct (Nat.eqb k b), (Nat.eqb k a); reflexivity.
Qed.
Lemma swap_keeps f a : good (a_d f) (a_div f) (a_v f) -> (a + 1 < a_n f)%nat -> nth (2 + a_d f + a) (nth (a + 1) (a_div f) []) 0 = 0 ->
  keeps (a_d f) (a_div f) (a_v f) (a_div (aff_swap_div f a (a + 1))) (a_v (aff_swap_div f a (a + 1))).
Proof.
  intros (W & K & L & P) Ha Z0. unfold a_n, aff_swap_div in *. cbn [a_div a_v]. set (d := a_d f) in *. set (M := a_div f) in *. set (l := a_v f) in *.
  assert (RW : forall k, nth k (lswap (map (fun r => swap_els r (2 + d + a) (2 + d + (a + 1))) M) a (a + 1)) [] = swap_els (nth (if Nat.eqb k (a + 1) then a else if Nat.eqb k a then (a + 1)%nat else k) M []) (2 + d + a) (2 + d + (a + 1))) by (intros k; apply swap_row; lia).
  set (M' := lswap _ _ _) in *. assert (LM : length M' = length M) by (unfold M'; rewrite lswap_length, map_length; reflexivity).
  assert (Hp : forall k, (k < length M)%nat -> ((if Nat.eqb k (a + 1) then a else if Nat.eqb k a then (a + 1)%nat else k) < length M)%nat) by (intros k Hk; destruct (Nat.eqb k (a + 1)), (Nat.eqb k a); lia).
  assert (D0 : forall r, (2 + d + (a + 1) < length r)%nat -> nth 0 (swap_els r (2 + d + a) (2 + d + (a + 1))) 0 = nth 0 r 0).
  { intros r Hr. rewrite nth_swap by lia. destruct (Nat.eqb_spec 0 (2 + d + (a + 1))), (Nat.eqb_spec 0 (2 + d + a)); try lia; reflexivity. }
  assert (W' : wf_divs d M').
  { intros k Hk. rewrite LM in *. rewrite RW. pose proof (W _ (Hp k Hk)) as (Lr & Pr & Zr). split; [rewrite swap_length; exact Lr|]. split; [rewrite D0 by lia; exact Pr|].
    intros j Hj. rewrite nth_swap by lia. destruct (Nat.eqb_spec k (a + 1)) as [E1|N1]; [|destruct (Nat.eqb_spec k a) as [E2|N2]].
    - destruct (Nat.eqb_spec j (2 + d + (a + 1))); [apply Zr; lia|]. destruct (Nat.eqb_spec j (2 + d + a)); apply Zr; lia.
    - destruct (Nat.eqb_spec j (2 + d + (a + 1))); [exact Z0|]. destruct (Nat.eqb_spec j (2 + d + a)); apply Zr; lia.
    - destruct (Nat.eqb_spec j (2 + d + (a + 1))); [apply Zr; lia|]. destruct (Nat.eqb_spec j (2 + d + a)); apply Zr; lia. }
  assert (K' : known M'). { intros k Hk. rewrite LM in Hk. rewrite RW. pose proof (W _ (Hp k Hk)) as (Lr & _). rewrite D0 by lia. apply K. apply Hp. exact Hk. }
  assert (DW : forall r w, (2 + d + (a + 1) < length r)%nat -> (1 + d + (a + 1) < length w)%nat -> dot (skipn 1 (swap_els r (2 + d + a) (2 + d + (a + 1)))) (swap_els w (1 + d + a) (1 + d + (a + 1))) = dot (skipn 1 r) w).
  { intros r w Hr Hw. change (2 + d + a)%nat with (S (1 + d + a)). change (2 + d + (a + 1))%nat with (S (1 + d + (a + 1))). rewrite skipn_swap. apply dot_swap; rewrite ?skipn_length; lia. }
  split. { split; [exact W'|]. split; [exact K'|]. rewrite swap_length. split; [lia|]. rewrite D0 by lia. exact P. }
  intros v r (w & (Lw & W0 & H) & Fw & E). exists (swap_els w (1 + d + a) (1 + d + (a + 1))). split; [|split].
  - split; [rewrite swap_length; lia|]. split. { rewrite nth_swap by lia. destruct (Nat.eqb_spec 0 (1 + d + (a + 1))), (Nat.eqb_spec 0 (1 + d + a)); try lia; exact W0. }
    intros k Hk Nz. rewrite LM in Hk. rewrite RW in *. pose proof (W _ (Hp k Hk)) as (Lr & _). rewrite D0 in * by lia. rewrite DW by lia. rewrite <- (H _ (Hp k Hk) Nz). rewrite nth_swap by lia.
    destruct (Nat.eqb_spec k (a + 1)) as [->|N1]; [rewrite Nat.eqb_refl; reflexivity|]. destruct (Nat.eqb_spec (1 + d + k) (1 + d + (a + 1))); [lia|].
    destruct (Nat.eqb_spec k a) as [->|N2]; [rewrite Nat.eqb_refl; reflexivity|]. destruct (Nat.eqb_spec (1 + d + k) (1 + d + a)); [lia|reflexivity].
  - rewrite <- Fw. apply list_eq_nth; [rewrite !firstn_length, swap_length; reflexivity|]. intros i Hi. rewrite firstn_length, swap_length in Hi. rewrite !nth_firstn. destruct (Nat.ltb_spec i (1 + d)); [|lia]. rewrite nth_swap by lia.
    destruct (Nat.eqb_spec i (1 + d + (a + 1))), (Nat.eqb_spec i (1 + d + a)); try lia; reflexivity.
  - rewrite D0 by lia. rewrite DW by lia. exact E.
Qed.

(** ** merging equal integer divisions *)
Lemma merge_keeps f a : good (a_d f) (a_div f) (a_v f) -> (a + 1 < a_n f)%nat -> nth a (a_div f) [] = nth (a + 1) (a_div f) [] ->
  keeps (a_d f) (a_div f) (a_v f) (a_div (aff_merge_divs f a (a + 1))) (a_v (aff_merge_divs f a (a + 1))).
Proof.
  intros G Ha E. unfold aff_merge_divs. destruct (Z.eqb_spec (nth (2 + a_d f + (a + 1)) (a_v f) 0) 0); [apply keeps_refl; exact G|]. cbn [with_v a_div a_v]. pose proof G as (W & K & L & P). unfold a_n in Ha.
  set (d := a_d f) in *. set (l := a_v f) in *. set (M := a_div f) in *.
  apply keeps_same; try assumption; try reflexivity; [rewrite !zupd_length; reflexivity| |auto|].
  - rewrite !nth_zupd. cbn. exact P.
  - intros w Sw. change (2 + d + a)%nat with (S (1 + d + a)). change (2 + d + (a + 1))%nat with (S (1 + d + (a + 1))). rewrite !skipn_zupd. rewrite !dot_zupd by (rewrite ?zupd_length, skipn_length; lia).
    rewrite !nth_zupd. rewrite !nth_skipn. destruct (Nat.eqb_spec 0 (S (1 + d + (a + 1)))); [lia|]. destruct (Nat.eqb_spec 0 (S (1 + d + a))); [lia|]. destruct (Nat.eqb_spec (1 + d + (a + 1)) (1 + d + a)); [lia|]. cbn [andb].
    destruct Sw as (_ & _ & H). pose proof (H a ltac:(lia) (K a ltac:(lia))) as H1. pose proof (H (a + 1)%nat ltac:(lia) (K (a + 1)%nat ltac:(lia))) as H2. rewrite <- E, <- H1 in H2. rewrite H2. cbn [Nat.add]. ring.
Qed.

(** ** sorting *)
Lemma last_nz_ge r k : nth k r 0 <> 0 -> Z.of_nat k <= last_nz r.
Proof. intros H. unfold last_nz. pose proof (last_non_zero_ok r) as B. destruct (seq_last_non_zero r) as [i|]; [|exfalso; apply H; apply B]. destruct B as (_ & _ & B). destruct (Nat.le_gt_cases k i); [lia|]. exfalso. apply H. apply B. lia. Qed.
Lemma last_nz_lt r k : (forall j, (k <= j)%nat -> nth j r 0 = 0) -> last_nz r < Z.of_nat k.
Proof. intros H. unfold last_nz. pose proof (last_non_zero_ok r) as B. destruct (seq_last_non_zero r) as [i|]; [|lia]. destruct B as (_ & B & _). destruct (Nat.lt_ge_cases i k); [lia|]. exfalso. apply B. apply H. lia. Qed.
Lemma cmp_known ri rj i j n nc : nth 0 ri 0 <> 0 -> nth 0 rj 0 <> 0 -> cmp_row ri rj i j n nc = if negb (last_nz ri =? last_nz rj) then last_nz ri - last_nz rj else seq_cmp ri rj.
Proof. intros A B. unfold cmp_row. destruct (Z.eqb_spec (nth 0 ri 0) 0); [lia|]. destruct (Z.eqb_spec (nth 0 rj 0) 0); [lia|]. reflexivity. Qed.
Lemma sort_inner_ok f0 : forall jj f, good (a_d f) (a_div f) (a_v f) -> (jj < a_n f)%nat \/ jj = 0%nat -> a_sp f = a_sp f0 ->
  a_sp (sort_inner jj f) = a_sp f0 /\ a_n (sort_inner jj f) = a_n f /\ keeps (a_d f0) (a_div f) (a_v f) (a_div (sort_inner jj f)) (a_v (sort_inner jj f)).
Proof.
  induction jj as [|j IH]; intros f G Hj Es; cbn [sort_inner].
  { split; [exact Es|]. split; [reflexivity|]. apply keeps_refl. unfold a_d in *. rewrite <- Es. exact G. }
  assert (Hn : (j + 1 < a_n f)%nat) by lia. pose proof G as (W & K & L & P). assert (Ed : a_d f = a_d f0) by (unfold a_d; rewrite Es; reflexivity).
  unfold a_n in Hn. destruct (W j ltac:(lia)) as (Lj & _ & Zj). destruct (W (j + 1)%nat ltac:(lia)) as (Lj1 & _ & _).
  assert (Ec : mat_cmp_div (a_d f) (a_div f) j (j + 1) = if negb (last_nz (nth j (a_div f) []) =? last_nz (nth (j + 1) (a_div f) [])) then last_nz (nth j (a_div f) []) - last_nz (nth (j + 1) (a_div f) []) else seq_cmp (nth j (a_div f) []) (nth (j + 1) (a_div f) [])) by (unfold mat_cmp_div; apply cmp_known; apply K; lia).
  set (c := mat_cmp_div _ _ _ _) in *. clearbody c.
  destruct (Z.ltb_spec c 0). { split; [exact Es|]. split; [reflexivity|]. apply keeps_refl. rewrite <- Ed. exact G. }
  destruct (Z.eqb_spec c 0) as [C0|C0].
  - assert (E : nth j (a_div f) [] = nth (j + 1) (a_div f) []). { destruct (Z.eqb_spec (last_nz (nth j (a_div f) [])) (last_nz (nth (j + 1) (a_div f) []))) as [El|]; cbn [negb] in Ec; [|lia]. apply seq_cmp_ok; lia. }
    pose proof (merge_keeps f j G ltac:(unfold a_n; lia) E) as Kp.
    assert (Sm : a_sp (aff_merge_divs f j (j + 1)) = a_sp f) by (unfold aff_merge_divs; destruct (_ =? 0); reflexivity).
    assert (Nm : a_n (aff_merge_divs f j (j + 1)) = a_n f) by (unfold aff_merge_divs; destruct (_ =? 0); reflexivity).
    destruct (IH (aff_merge_divs f j (j + 1))) as (A & B & C).
    { unfold a_d at 1. rewrite Sm. exact (proj1 Kp). } { rewrite Nm. unfold a_n. lia. } { congruence. }
    split; [exact A|]. split; [lia|]. rewrite Ed in Kp. exact (keeps_trans _ _ _ _ _ _ _ Kp C).
  - assert (Z1 : nth (2 + a_d f + j) (nth (j + 1) (a_div f) []) 0 = 0).
    { destruct (Z.eq_dec (nth (2 + a_d f + j) (nth (j + 1) (a_div f) []) 0) 0) as [|N]; [assumption|]. exfalso.
      pose proof (last_nz_ge _ _ N). pose proof (last_nz_lt _ _ Zj). destruct (Z.eqb_spec (last_nz (nth j (a_div f) [])) (last_nz (nth (j + 1) (a_div f) []))); cbn [negb] in Ec; lia. }
    pose proof (swap_keeps f j G ltac:(unfold a_n; lia) Z1) as Kp.
    assert (Nm : a_n (aff_swap_div f j (j + 1)) = a_n f) by (unfold a_n, aff_swap_div; cbn [a_div]; rewrite lswap_length, map_length; reflexivity).
    destruct (IH (aff_swap_div f j (j + 1))) as (A & B & C); [exact (proj1 Kp)|rewrite Nm; unfold a_n; lia|exact Es|].
    split; [exact A|]. split; [lia|]. rewrite Ed in Kp. exact (keeps_trans _ _ _ _ _ _ _ Kp C).
Qed.
Lemma sort_fold_ok f0 : forall is f, good (a_d f) (a_div f) (a_v f) -> (forall i, List.In i is -> (i < a_n f)%nat) -> a_sp f = a_sp f0 ->
  let g := fold_left (fun f i => sort_inner i f) is f in a_sp g = a_sp f0 /\ keeps (a_d f0) (a_div f) (a_v f) (a_div g) (a_v g).
Proof.
  induction is as [|i is IH]; intros f G Hi Es; cbn [fold_left].
  { split; [exact Es|]. apply keeps_refl. unfold a_d in *. rewrite <- Es. exact G. }
  destruct (sort_inner_ok f0 i f G ltac:(left; apply Hi; left; reflexivity) Es) as (A & B & C).
  destruct (IH (sort_inner i f)) as (D & E).
  { unfold a_d at 1. rewrite A. exact (proj1 C). } { intros k Hk. rewrite B. apply Hi. right. exact Hk. } { exact A. }
  split; [exact D|]. exact (keeps_trans _ _ _ _ _ _ _ C E).
Qed.

(** ** removing the integer divisions at the end *)
Lemma drop_divs_keeps d M l pos : good d M l -> (pos <= length M)%nat -> (forall j, (2 + d + pos <= j)%nat -> nth j l 0 = 0) ->
  keeps d M l (map (firstn (2 + d + pos)) (firstn pos M)) (firstn (2 + d + pos) l).
Proof.
  intros (W & K & L & P) Hp Z0. set (M' := map _ _). assert (LM : length M' = pos) by (unfold M'; rewrite map_length, firstn_length; lia).
  assert (RW : forall i, (i < pos)%nat -> nth i M' [] = firstn (2 + d + pos) (nth i M [])). { intros i Hi. unfold M'. rewrite nth_map_firstn, nth_firstn. destruct (Nat.ltb_spec i pos); [reflexivity|lia]. }
  assert (N0 : forall (r : list Z), nth 0 (firstn (2 + d + pos) r) 0 = nth 0 r 0) by (intros r; rewrite nth_firstn; reflexivity).
  split.
  { split; [|split; [|split]].
    - intros i Hi. rewrite LM in *. rewrite RW by exact Hi. destruct (W i ltac:(lia)) as (Lr & Pr & Zr). split; [rewrite firstn_length; lia|]. split; [rewrite N0; exact Pr|]. intros j Hj. rewrite nth_firstn. destruct (Nat.ltb _ _); [apply Zr; exact Hj|reflexivity].
    - intros i Hi. rewrite LM in Hi. rewrite RW, N0 by exact Hi. apply K. lia.
    - rewrite firstn_length, LM. lia.
    - rewrite N0. exact P. }
  assert (DP : forall r w, (forall j, (2 + d + pos <= j)%nat -> nth j r 0 = 0) -> dot (skipn 1 (firstn (2 + d + pos) r)) (firstn (1 + d + pos) w) = dot (skipn 1 r) w).
  { intros r w Zr. symmetry. rewrite (dot_prefix (skipn 1 r) (1 + d + pos)) by (intros j Hj; rewrite nth_skipn; apply Zr; lia). f_equal. change (2 + d + pos)%nat with (1 + (1 + d + pos))%nat. rewrite skipn_firstn_comm. f_equal. }
  intros v r (w & (Lw & W0 & H) & Fw & E). exists (firstn (1 + d + pos) w). split; [|split].
  - split; [rewrite firstn_length, LM; lia|]. split; [rewrite nth_firstn; exact W0|]. intros i Hi Nz. rewrite LM in Hi. rewrite RW in * by exact Hi. rewrite N0 in *. rewrite DP. 2: { intros j Hj. apply (W i ltac:(lia)). lia. }
    rewrite nth_firstn. destruct (Nat.ltb_spec (1 + d + i) (1 + d + pos)); [|lia]. apply H; [lia|exact Nz].
  - rewrite firstn_firstn. replace (Nat.min (1 + d) (1 + d + pos)) with (1 + d)%nat by lia. exact Fw.
  - rewrite N0, DP by exact Z0. exact E.
Qed.
Lemma remove_unused_ok f : good (a_d f) (a_div f) (a_v f) -> a_sp (remove_unused_divs f) = a_sp f /\ keeps (a_d f) (a_div f) (a_v f) (a_div (remove_unused_divs f)) (a_v (remove_unused_divs f)).
Proof.
  intros G. unfold remove_unused_divs. pose proof (last_non_zero_ok (skipn (2 + a_d f) (a_v f))) as B. pose proof G as (W & K & L & P).
  set (pos := match seq_last_non_zero _ with Some _ => _ | None => _ end). 
  assert (Hp : (pos <= length (a_div f))%nat /\ forall j, (2 + a_d f + pos <= j)%nat -> nth j (a_v f) 0 = 0).
  { unfold pos. destruct (seq_last_non_zero _) as [i|].
    - destruct B as (B1 & _ & B2). rewrite skipn_length in B1. split; [lia|]. intros j Hj. specialize (B2 (j - (2 + a_d f))%nat ltac:(lia)). rewrite nth_skipn in B2. replace (2 + a_d f + (j - (2 + a_d f)))%nat with j in B2 by lia. exact B2.
    - split; [lia|]. intros j Hj. specialize (B (j - (2 + a_d f))%nat). rewrite nth_skipn in B. replace (2 + a_d f + (j - (2 + a_d f)))%nat with j in B by lia. exact B. }
  destruct (Nat.eqb_spec pos (a_n f)) as [|N]; [split; [reflexivity|]; apply keeps_refl; exact G|]. cbn [a_sp a_div a_v]. split; [reflexivity|]. apply drop_divs_keeps; [exact G|apply Hp|apply Hp].
Qed.

(** ** isl_aff_normalize *)
Lemma normalize_vec_keeps d M l : good d M l -> keeps d M l M (seq_normalize l).
Proof.
  intros G. pose proof G as (W & K & L & P). destruct (normalize_ok l) as (g & (G0 & G1 & _) & Ln & E & _). set (l' := seq_normalize l) in *.
  pose proof (E 0%nat) as E0. assert (Gp : 0 < g). { destruct (Z.eq_dec g 0) as [X|]; [rewrite X in E0; lia|lia]. }
  assert (Pp : 0 < nth 0 l' 0) by nia.
  apply keeps_same; try assumption; try reflexivity; [auto|].
  intros w _. assert (Es : l = map (fun x => x * g) l'). { apply list_eq_nth; [rewrite map_length; lia|]. intros i Hi. change 0 with (0 * g) at 2. rewrite (map_nth (fun x => x * g)). rewrite E. ring. }
  rewrite (E 0%nat). rewrite Es at 1. rewrite skipn_map, dot_map_mul. ring.
Qed.
Theorem normalize_keeps f : good (a_d f) (a_div f) (a_v f) ->
  exists g, aff_normalize f = Ok g /\ a_sp g = a_sp f /\ keeps (a_d f) (a_div f) (a_v f) (a_div g) (a_v g).
Proof.
  intros G. unfold aff_normalize. pose proof (normalize_vec_keeps _ _ _ G) as K1. set (f1 := with_v f _). unfold plug_in_integral_divs.
  destruct (plug_in_integral_loop_ok f (seq 0 (a_n f1)) f1) as (f2 & E2 & S2 & K2); [exact (proj1 K1)|intros i Hi; apply in_seq in Hi; lia|reflexivity|]. rewrite E2. cbn [LocalModel.bind].
  assert (D2 : a_d f2 = a_d f) by (unfold a_d; rewrite S2; reflexivity).
  destruct (plug_in_unit_loop_ok f (flat_map (fun i => map (pair i) (seq 0 i)) (seq 1 (a_n f2 - 1))) f2) as (f3 & E3 & S3 & K3); [rewrite D2; exact (proj1 K2)| |exact S2|].
  { intros i j H. apply in_flat_map in H as (i' & Hi' & H). apply in_map_iff in H as (j' & Ej & Hj). inversion Ej; subst. apply in_seq in Hi', Hj. lia. }
  change (plug_in_unit_divs f2 = Ok f3) in E3. rewrite E3. cbn [LocalModel.bind]. assert (D3 : a_d f3 = a_d f) by (unfold a_d; rewrite S3; reflexivity).
  destruct (sort_fold_ok f (seq 1 (a_n f3 - 1)) f3) as (S4 & K4); [rewrite D3; exact (proj1 K3)|intros i Hi; apply in_seq in Hi; lia|exact S3|]. fold (aff_sort_divs f3) in S4, K4. cbv zeta in *.
  set (f4 := aff_sort_divs f3) in *. assert (D4 : a_d f4 = a_d f) by (unfold a_d; rewrite S4; reflexivity).
  destruct (remove_unused_ok f4) as (S5 & K5); [rewrite D4; exact (proj1 K4)|]. rewrite D4 in K5.
  eexists. split; [reflexivity|]. split; [congruence|].
  exact (keeps_trans _ _ _ _ _ _ _ K1 (keeps_trans _ _ _ _ _ _ _ K2 (keeps_trans _ _ _ _ _ _ _ K3 (keeps_trans _ _ _ _ _ _ _ K4 K5)))).
Qed.
