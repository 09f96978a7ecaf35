(** Proofs about the simple matrix operations. *)
From Coq Require Import ZArith List Bool Lia Arith ZifyBool.
From Verif Require Import SeqModel SeqSpec SeqProofs MatModel MatSpec MatTheory HermiteProofs.
Import ListNotations.
Open Scope Z_scope.

Lemma sumn_front n f : sumn (S n) f = f O + sumn n (fun k => f (S k)).
Proof. change (S n) with (1 + n)%nat. rewrite (sumn_split 1 n f). cbn [sumn plus]. rewrite Z.add_0_l. reflexivity. Qed.
Lemma dot_sumn l : forall v, length l = length v -> dot l v = sumn (length l) (fun k => nth k l 0 * nth k v 0).
Proof.
  induction l as [|x l IH]; intros [|y v] H; try discriminate; [reflexivity|].
  cbn [dot length]. rewrite sumn_front. cbn [nth]. rewrite IH by (cbn in H; lia). reflexivity.
Qed.

Lemma mat_vec_ok nr nc M v : is_mat nr nc M -> length v = nc ->
  length (mat_vec_product nr M v) = nr /\
  forall i, (i < nr)%nat -> nth i (mat_vec_product nr M v) 0 = apply nc (elt M) (fun k => nth k v 0) i.
Proof.
  intros [W1 W2] HL. unfold mat_vec_product. split; [rewrite map_length, seq_length; reflexivity|].
  intros i Hi. rewrite nth_map_seq by exact Hi. rewrite inner_ok. specialize (W2 i Hi).
  rewrite dot_sumn by (unfold mrow; congruence). unfold mrow. rewrite W2. reflexivity.
Qed.
Lemma fold_sum f n : forall s, fold_left (fun s j => s + f j) (seq 0 n) s = s + sumn n f.
Proof.
  induction n as [|n IH]; intros s; [cbn; lia|]. rewrite seq_S, fold_left_app. cbn [plus fold_left sumn]. rewrite IH. lia.
Qed.
Lemma vec_mat_ok nr nc M v : is_mat nr nc M -> length v = nr ->
  length (vec_mat_product nc v M) = nc /\
  forall j, (j < nc)%nat -> nth j (vec_mat_product nc v M) 0 = total nr (fun k => nth k v 0 * elt M k j).
Proof.
  intros W HL. unfold vec_mat_product. split; [rewrite map_length, seq_length; reflexivity|].
  intros j Hj. rewrite nth_map_seq by exact Hj. rewrite (fold_sum (fun k => nth k v 0 * get M k j)), HL. reflexivity.
Qed.

Lemma product_row_ok nc l R : length (product_row nc l R) = nc /\
  forall j, (j < nc)%nat -> nth j (product_row nc l R) 0 = sumn (length l) (fun k => nth k l 0 * get R k j).
Proof.
  unfold product_row. destruct l as [|x l'] eqn:El.
  { unfold seq_clr. split; [apply repeat_length|]. intros j Hj. cbn. apply nth_repeat. }
  rewrite <- El. assert (HL : length l = S (length l')) by (subst; reflexivity).
  replace (length l - 1)%nat with (length l') by lia. rewrite HL.
  assert (E0 : x = nth 0 l 0) by (subst; reflexivity). rewrite E0. clear El E0 HL x. revert l'.
  assert (G : forall m, 
    let p := fold_left (fun p k => if nth k l 0 =? 0 then p else map (fun j => nth j p 0 + nth k l 0 * get R k j) (seq 0 nc))
      (seq 1 m) (map (fun j => nth 0 l 0 * get R 0 j) (seq 0 nc)) in
    length p = nc /\ forall j, (j < nc)%nat -> nth j p 0 = sumn (S m) (fun k => nth k l 0 * get R k j)).
  { induction m as [|m IH].
    - cbn [seq fold_left]. split; [rewrite map_length, seq_length; reflexivity|]. intros j Hj. rewrite nth_map_seq by exact Hj. cbn [sumn]. ring.
    - rewrite seq_S, fold_left_app. cbn [plus fold_left]. set (p := fold_left _ (seq 1 m) _) in *. destruct IH as [I1 I2].
      destruct (Z.eqb_spec (nth (S m) l 0) 0) as [E|E].
      + split; [exact I1|]. intros j Hj. rewrite I2 by exact Hj. change (sumn (S (S m)) (fun k => nth k l 0 * get R k j)) with
          (sumn (S m) (fun k => nth k l 0 * get R k j) + nth (S m) l 0 * get R (S m) j). rewrite E. ring.
      + split; [rewrite map_length, seq_length; reflexivity|]. intros j Hj. rewrite nth_map_seq by exact Hj. rewrite I2 by exact Hj. reflexivity. }
  intros l'. apply G.
Qed.
Lemma product_ok nr n nc L R : is_mat nr n L -> is_mat nr nc (mat_product nr nc L R) /\
  forall i j, (i < nr)%nat -> (j < nc)%nat -> elt (mat_product nr nc L R) i j = times n (elt L) (elt R) i j.
Proof.
  intros [W1 W2]. assert (E : forall i, (i < nr)%nat -> nth i (mat_product nr nc L R) [] = product_row nc (mrow L i) R).
  { intros i Hi. unfold mat_product. apply (nth_map_seq (fun i => product_row nc (mrow L i) R)). exact Hi. }
  split; [split|].
  - unfold mat_product. rewrite map_length, seq_length. reflexivity.
  - intros r Hr. rewrite E by exact Hr. apply product_row_ok.
  - intros i j Hi Hj. unfold elt. rewrite E by exact Hi. rewrite (proj2 (product_row_ok nc (mrow L i) R) j Hj).
    unfold mrow. rewrite W2 by exact Hi. reflexivity.
Qed.

(** transposition *)
Definition tdone (i j r c : nat) : bool := Nat.ltb (Nat.min r c) i || (Nat.eqb (Nat.min r c) i && Nat.ltb (Nat.max r c) j).
Lemma transpose_ok nr nc M : is_mat nr nc M -> is_mat nc nr (mat_transpose nr nc M) /\
  forall i j, (i < nc)%nat -> (j < nr)%nat -> elt (mat_transpose nr nc M) i j = elt M j i.
Proof.
  intros W. unfold mat_transpose. destruct (Nat.eqb_spec nc nr) as [->|Hne].
  2:{ split; [apply wf_tab|]. intros i j Hi Hj. exact (get_tab nc nr (fun r c => get M c r) i j Hi Hj). }
  set (inv := fun i j (T : mat) => is_mat nr nr T /\ forall r c, (r < nr)%nat -> (c < nr)%nat ->
            get T r c = if tdone i j r c then get M c r else get M r c).
  assert (Inner : forall i m T, (i + 1 + m <= nr)%nat -> inv i (i + 1)%nat T -> inv i (i + 1 + m)%nat (fold_left (fun M j => swap_elt nr M i j) (seq (i + 1) m) T)).
  { intros i m. induction m as [|m IH]; intros T Hm HT; [rewrite Nat.add_0_r; exact HT|].
    rewrite seq_S, fold_left_app. cbn [fold_left]. destruct (IH T ltac:(lia) HT) as [_ E].
    set (T1 := fold_left _ (seq (i + 1) m) T) in *. split; [apply wf_tab|]. intros r c Hr Hc.
    unfold swap_elt. rewrite get_tab by assumption. unfold tdone in *.
    destruct (Nat.eqb_spec r i) as [Er|Er], (Nat.eqb_spec c (i + 1 + m)) as [Ec|Ec]; cbn [andb]; subst;
      try destruct (Nat.eqb_spec r (i + 1 + m)) as [Er2|Er2]; try destruct (Nat.eqb_spec c i) as [Ec2|Ec2];
      try destruct (Nat.eqb_spec i (i + 1 + m)) as [Er3|Er3]; try destruct (Nat.eqb_spec (i + 1 + m) i) as [Er4|Er4]; cbn [andb]; subst; try lia; rewrite E by lia;
      match goal with |- (if ?a then _ else _) = (if ?b then _ else _) =>
        destruct a eqn:Ea; destruct b eqn:Eb end; try reflexivity; exfalso; revert Ea Eb; rewrite ?orb_true_iff, ?orb_false_iff, ?andb_true_iff, ?andb_false_iff, ?Nat.ltb_lt, ?Nat.ltb_ge, ?Nat.eqb_eq, ?Nat.eqb_neq; lia. }
  assert (Outer : forall m, (m <= nr)%nat -> inv m (m + 1)%nat (fold_left (fun M i => fold_left (fun M j => swap_elt nr M i j) (seq (i + 1) (nr - (i + 1))) M) (seq 0 m) M)).
  { induction m as [|m IH]; intros Hm.
    - cbn [seq fold_left]. split; [exact W|]. intros r c Hr Hc. destruct (tdone 0 (0 + 1) r c) eqn:E; [|reflexivity].
      revert E. unfold tdone. rewrite ?orb_true_iff, ?andb_true_iff, ?Nat.ltb_lt, ?Nat.eqb_eq. intros E.
      replace r with O by lia. replace c with O by lia. reflexivity.
    - rewrite seq_S, fold_left_app. cbn [plus fold_left]. specialize (Inner m (nr - (m + 1))%nat _ ltac:(lia) (IH ltac:(lia))).
      destruct Inner as [I1 I2]. split; [exact I1|]. intros r c Hr Hc. rewrite I2 by assumption. unfold tdone.
      match goal with |- (if ?a then _ else _) = (if ?b then _ else _) =>
        destruct a eqn:Ea; destruct b eqn:Eb end; try reflexivity;
      revert Ea Eb; rewrite ?orb_true_iff, ?orb_false_iff, ?andb_true_iff, ?andb_false_iff, ?Nat.ltb_lt, ?Nat.ltb_ge, ?Nat.eqb_eq, ?Nat.eqb_neq; intros Ea Eb.
      + lia.
      + assert (r = c) by lia. subst. reflexivity. }
  destruct (Outer nr (Nat.le_refl _)) as [O1 O2]. split; [exact O1|]. intros i j Hi Hj.
  change (get (fold_left (fun M i => fold_left (fun M j => swap_elt nr M i j) (seq (i + 1) (nr - (i + 1))) M) (seq 0 nr) M) i j = get M j i).
  rewrite O2 by assumption. unfold tdone. destruct (Nat.ltb_spec (Nat.min i j) nr); [reflexivity|lia].
Qed.

(** gcd and normalization *)
Lemma map_nth_seq {A} (l : list A) d : map (fun i => nth i l d) (seq 0 (length l)) = l.
Proof.
  apply (nth_ext _ _ d d); [rewrite map_length, seq_length; reflexivity|].
  intros k Hk. rewrite map_length, seq_length in Hk. rewrite nth_map_seq by exact Hk. reflexivity.
Qed.
Lemma mat_gcd_ok nr nc M : is_mat nr nc M -> is_gcd (mat_gcd nr M) (concat M).
Proof.
  intros [W _]. unfold mat_gcd.
  assert (E : fold_left (fun g i => Z.gcd g (seq_gcd (mrow M i))) (seq 0 nr) 0 = fold_left (fun g row => Z.gcd g (seq_gcd row)) M 0).
  { transitivity (fold_left (fun g row => Z.gcd g (seq_gcd row)) (map (fun i => nth i M []) (seq 0 (length M))) 0); [|rewrite map_nth_seq; reflexivity].
    rewrite W.
    generalize (seq 0 nr). intros l. generalize 0. induction l as [|i l IH]; intros z; [reflexivity|]. cbn [map fold_left]. apply IH. }
  rewrite E.
  assert (G : forall M g, 0 <= g -> 0 <= fold_left (fun g row => Z.gcd g (seq_gcd row)) M g /\
     (fold_left (fun g row => Z.gcd g (seq_gcd row)) M g | g) /\
     (forall x, In x (concat M) -> (fold_left (fun g row => Z.gcd g (seq_gcd row)) M g | x)) /\
     forall d, (d | g) -> (forall x, In x (concat M) -> (d | x)) -> (d | fold_left (fun g row => Z.gcd g (seq_gcd row)) M g)).
  { clear. induction M as [|row M IH]; intros g Hg; cbn [fold_left concat].
    - split; [exact Hg|]. split; [reflexivity|]. split; [intros x []|auto].
    - destruct (IH (Z.gcd g (seq_gcd row)) (Z.gcd_nonneg _ _)) as (A & B & C & D).
      destruct (seq_gcd_ok row) as (G1 & G2 & G3).
      split; [exact A|]. split; [etransitivity; [exact B|apply Z.gcd_divide_l]|]. split.
      + intros x Hx. apply in_app_or in Hx. destruct Hx as [Hx|Hx]; [|apply C; exact Hx].
        etransitivity; [exact B|]. etransitivity; [apply Z.gcd_divide_r|]. apply G2. exact Hx.
      + intros d Hd Hx. apply D.
        * apply Z.gcd_greatest; [exact Hd|]. apply G3. intros x H. apply Hx. apply in_or_app. left. exact H.
        * intros x H. apply Hx. apply in_or_app. right. exact H. }
  destruct (G M 0 ltac:(lia)) as (A & B & C & D). split; [exact A|]. split; [exact C|].
  intros d Hd. apply D; [apply Z.divide_0_r|exact Hd].
Qed.
Lemma in_concat_elt nr nc M i j : is_mat nr nc M -> (i < nr)%nat -> (j < nc)%nat -> In (elt M i j) (concat M).
Proof.
  intros [W1 W2] Hi Hj. apply in_concat. exists (nth i M []). split; [apply nth_In; lia|]. apply nth_In. rewrite W2 by exact Hi. exact Hj.
Qed.
Lemma normalize_mat_ok nr nc M : is_mat nr nc M ->
  match mat_normalize nr M with
  | Ok M' => exists g, is_gcd g (concat M) /\ 0 < g /\ is_mat nr nc M' /\
       forall i j, (i < nr)%nat -> (j < nc)%nat -> elt M i j = g * elt M' i j
  | UB => forall i j, (i < nr)%nat -> (j < nc)%nat -> elt M i j = 0
  | _ => False
  end.
Proof.
  intros W. unfold mat_normalize, mat_scale_down. pose proof (mat_gcd_ok nr nc M W) as G. set (g := mat_gcd nr M) in *.
  destruct (Z.eqb_spec g 1) as [E|E].
  { exists 1. rewrite E in G. split; [exact G|]. split; [lia|]. split; [exact W|]. intros; ring. }
  destruct (Z.eqb_spec g 0) as [E0|E0].
  { intros i j Hi Hj. apply (is_gcd_zero (concat M)); [rewrite <- E0; exact G|]. apply (in_concat_elt nr nc); assumption. }
  exists g. split; [exact G|]. assert (Hg : 0 < g) by (destruct G; lia). split; [exact Hg|].
  assert (ER : forall i, (i < nr)%nat -> nth i (map (fun i => seq_scale_down (mrow M i) g) (seq 0 nr)) [] = seq_scale_down (mrow M i) g).
  { intros i Hi. apply (nth_map_seq (fun i => seq_scale_down (mrow M i) g)). exact Hi. }
  destruct W as [W1 W2]. split; [split|].
  - rewrite map_length, seq_length. reflexivity.
  - intros r Hr. rewrite ER by exact Hr. unfold seq_scale_down. rewrite map_length. apply W2. exact Hr.
  - intros i j Hi Hj. unfold elt at 2. rewrite ER by exact Hi. unfold seq_scale_down.
    rewrite (nth_indep _ 0 (divexact 0 g)) by (rewrite map_length; unfold mrow; rewrite W2 by exact Hi; exact Hj).
    rewrite (map_nth (fun x => divexact x g)). unfold divexact, mrow. destruct G as (_ & G2 & _).
    destruct (G2 (elt M i j) (in_concat_elt nr nc M i j (conj W1 W2) Hi Hj)) as [q Hq].
    unfold elt in *. rewrite Hq. rewrite Z.div_mul by lia. ring.
Qed.

Lemma scaled_identity_ok nr nc M : is_mat nr nc M ->
  (mat_is_scaled_identity nr nc M = true <-> nr = nc /\ exists d, forall i j, (i < nr)%nat -> (j < nc)%nat -> elt M i j = d * delta i j).
Proof.
  intros [W1 W2]. unfold mat_is_scaled_identity. destruct (Nat.eqb_spec nr nc) as [<-|Hn]; cbn [negb].
  2:{ split; [discriminate|]. intros [H _]. contradiction. }
  rewrite forallb_forall. split.
  - intros H. split; [reflexivity|]. exists (get M 0 0). intros i j Hi Hj.
    assert (Hin : In i (seq 0 nr)) by (apply in_seq; lia). specialize (H i Hin). cbv beta in H.
    pose proof (first_non_zero_ok (firstn i (mrow M i))) as F1. destruct (seq_first_non_zero (firstn i (mrow M i))); [discriminate|].
    destruct (Z.eqb_spec (get M 0 0) (get M i i)) as [E|E]; cbn [negb] in H; [|discriminate].
    pose proof (first_non_zero_ok (skipn (i + 1) (mrow M i))) as F2. destruct (seq_first_non_zero (skipn (i + 1) (mrow M i))); [discriminate|].
    unfold delta. destruct (Nat.eqb_spec i j) as [->|Hne]; [rewrite E, Z.mul_1_r; reflexivity|]. rewrite Z.mul_0_r.
    destruct (Nat.lt_ge_cases j i) as [L|L].
    + specialize (F1 j). rewrite <- F1. unfold elt, mrow. rewrite <- (firstn_skipn i (nth i M [])) at 1.
      apply app_nth1. rewrite firstn_length, W2 by exact Hi. lia.
    + specialize (F2 (j - (i + 1))%nat). rewrite nth_skipn in F2. replace (i + 1 + (j - (i + 1)))%nat with j in F2 by lia. exact F2.
  - intros [_ [d H]] i Hi. apply in_seq in Hi.
    pose proof (first_non_zero_ok (firstn i (mrow M i))) as F1. destruct (seq_first_non_zero (firstn i (mrow M i))) as [k|].
    { exfalso. destruct F1 as (A & B & _). rewrite firstn_length in A. apply B. 
      assert (E : nth k (firstn i (mrow M i)) 0 = elt M i k).
      { unfold elt, mrow. rewrite <- (firstn_skipn i (nth i M [])) at 2. symmetry. apply app_nth1. rewrite firstn_length. unfold mrow in A. lia. }
      rewrite E, H by lia. unfold delta. destruct (Nat.eqb_spec i k); lia. }
    destruct (Z.eqb_spec (get M 0 0) (get M i i)) as [E|E]; cbn [negb].
    2:{ exfalso. apply E. change (elt M 0 0 = elt M i i). rewrite !H by lia. unfold delta. rewrite !Nat.eqb_refl. reflexivity. }
    pose proof (first_non_zero_ok (skipn (i + 1) (mrow M i))) as F2. destruct (seq_first_non_zero (skipn (i + 1) (mrow M i))) as [k|]; [|reflexivity].
    exfalso. destruct F2 as (A & B & _). rewrite skipn_length in A. unfold mrow in A. rewrite W2 in A by lia. apply B. rewrite nth_skipn.
    change (elt M i (i + 1 + k) = 0). rewrite H by lia. unfold delta. destruct (Nat.eqb_spec i (i + 1 + k)); lia.
Qed.
