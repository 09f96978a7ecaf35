(** Proofs about HashModel. *)
From Coq Require Import ZArith List Bool Lia ZifyBool Permutation.
From Verif Require Import HashModel HashSpec.
Import ListNotations.
Open Scope Z_scope.

Section Hash.
Context {D : Type}.
Notation entry := (entry D).

(** ** lists *)
Lemma lupd_length {A} (l : list A) i a : length (lupd l i a) = length l.
Proof. revert i; induction l; intros [|i]; cbn; auto. Qed.
Lemma lupd_same {A} (l : list A) i a d : (i < length l)%nat -> nth i (lupd l i a) d = a.
Proof. revert i; induction l; intros [|i]; cbn; intros; try lia; auto. apply IHl. lia. Qed.
Lemma lupd_other {A} (l : list A) i j a d : i <> j -> nth j (lupd l i a) d = nth j l d.
Proof. revert i j; induction l; intros [|i] [|j]; cbn; intros; auto; try congruence. Qed.
Lemma lupd_lupd {A} (l : list A) i a b : lupd (lupd l i a) i b = lupd l i b.
Proof. revert i; induction l; intros [|i]; cbn; auto. f_equal. auto. Qed.
Lemma lupd_comm {A} (l : list A) i j a b : i <> j -> lupd (lupd l i a) j b = lupd (lupd l j b) i a.
Proof. revert i j; induction l; intros [|i] [|j]; cbn; intros; auto; try congruence. f_equal. auto. Qed.
Lemma lupd_id {A} (l : list A) i d : lupd l i (nth i l d) = l.
Proof. revert i; induction l; intros [|i]; cbn; auto. f_equal. auto. Qed.

Definition econt (e : entry) : list (Z * D) := match e with (hs, Some d) => [(hs, d)] | _ => [] end.
Definition contents (es : list entry) : list (Z * D) := flat_map econt es.
Definition slot (es : list entry) (i : Z) : option (Z * D) :=
  match eget es i with (hs, Some d) => Some (hs, d) | _ => None end.

Definition zlen (es : list entry) : Z := Z.of_nat (length es).
Lemma zlen_eset es i e : zlen (eset es i e) = zlen es.
Proof. unfold zlen, eset. rewrite lupd_length. reflexivity. Qed.

Lemma slot_eset_same es i e : 0 <= i < zlen es ->
  slot (eset es i e) i = match e with (hs, Some d) => Some (hs, d) | _ => None end.
Proof. unfold zlen, slot, eset, eget. intros H. rewrite lupd_same by lia. destruct e as [? [?|]]; reflexivity. Qed.
Lemma slot_eset_other es i j e : 0 <= i -> 0 <= j -> i <> j -> slot (eset es i e) j = slot es j.
Proof. unfold slot, eset, eget. intros. rewrite lupd_other by lia. reflexivity. Qed.

Lemma slot_out es i : zlen es <= i -> slot es i = None.
Proof. unfold slot, eget, zlen. intros. rewrite nth_overflow by lia. reflexivity. Qed.

Lemma contents_set_nat (es : list entry) i hs d : (i < length es)%nat -> econt (nth i es (0, None)) = [] ->
  Permutation (contents (lupd es i (hs, Some d))) ((hs, d) :: contents es).
Proof.
  unfold contents. revert i. induction es as [|e es IH]; intros [|i]; cbn [length nth lupd flat_map]; intros H E; try lia.
  - rewrite E. reflexivity.
  - rewrite (IH i) by (auto; lia). symmetry. apply Permutation_middle.
Qed.
Lemma contents_set es i hs d : 0 <= i < zlen es -> slot es i = None ->
  Permutation (contents (eset es i (hs, Some d))) ((hs, d) :: contents es).
Proof.
  unfold slot, eget, eset, zlen. intros H E. apply contents_set_nat; [lia|].
  destruct (nth (Z.to_nat i) es (0, None)) as [? [?|]]; [discriminate|reflexivity].
Qed.
Lemma contents_clear es i hs d h : 0 <= i < zlen es -> slot es i = Some (hs, d) ->
  Permutation (contents es) ((hs, d) :: contents (eset es i (h, None))).
Proof.
  intros H E.
  assert (Heq : es = eset (eset es i (h, None)) i (hs, Some d)).
  { unfold eset. rewrite lupd_lupd. symmetry. unfold slot, eget in E.
    replace (hs, Some d) with (nth (Z.to_nat i) es (0, None)); [apply lupd_id|].
    destruct (nth (Z.to_nat i) es (0, None)) as [? [?|]]; congruence. }
  rewrite Heq at 1. apply contents_set.
  - rewrite zlen_eset. exact H.
  - rewrite slot_eset_same by exact H. reflexivity.
Qed.
Lemma contents_hash_only es i hs : slot es i = None ->
  contents (eset es i (hs, None)) = contents es.
Proof.
  unfold slot, eget, eset, contents. revert es. generalize (Z.to_nat i) as n. clear i.
  induction n as [|n IH]; intros [|e es]; cbn; auto; intros H.
  - destruct e as [? [?|]]; [discriminate|reflexivity].
  - f_equal. apply IH. exact H.
Qed.
Lemma slot_contents es i hs d : slot es i = Some (hs, d) -> In (hs, d) (contents es).
Proof.
  intros H. destruct (Z_lt_dec i (zlen es)) as [L|L]; [|rewrite slot_out in H by lia; discriminate].
  unfold slot, eget in H. unfold contents. apply in_flat_map.
  destruct (nth (Z.to_nat i) es (0, None)) as [h' [d'|]] eqn:E; [|discriminate].
  exists (h', Some d'). split; [|left; congruence].
  rewrite <- E. apply nth_In. unfold zlen in L.
  destruct (Z_lt_dec i 0); [|lia].
  destruct (length es) eqn:Len; [|lia].
  apply length_zero_iff_nil in Len. subst es. destruct (Z.to_nat i); discriminate.
Qed.
Lemma contents_slot es hs d : In (hs, d) (contents es) -> exists i, 0 <= i < zlen es /\ slot es i = Some (hs, d).
Proof.
  unfold contents. intros H. apply in_flat_map in H as (e & He & Hc).
  destruct e as [h' [d'|]]; cbn in Hc; [|tauto]. destruct Hc as [E|[]].
  apply (@In_nth (HashModel.entry D) _ _ (0, None)) in He as (n & Hn & En).
  exists (Z.of_nat n). unfold slot, eget, zlen. rewrite Nat2Z.id.
  split; [lia|].
  assert (En' : @nth (HashModel.entry D) n es (0, None) = (h', Some d')) by exact En.
  rewrite En'. congruence.
Qed.
Lemma exists_empty es : Z.of_nat (length (contents es)) < zlen es -> exists i, 0 <= i < zlen es /\ slot es i = None.
Proof.
  unfold zlen, slot, eget. induction es as [|e es IH]; cbn [length contents flat_map]; [lia|]. intros H.
  destruct e as [h [d|]].
  - cbn [econt app length] in H. destruct IH as (i & Hi & E); [unfold contents; lia|].
    exists (i + 1). split; [lia|]. replace (Z.to_nat (i + 1)) with (S (Z.to_nat i)) by lia. exact E.
  - exists 0. split; [lia|]. reflexivity.
Qed.

(** ** home position *)
Lemma land_ones_bound a b : 0 <= b -> 0 <= Z.land a (2 ^ b - 1) < 2 ^ b.
Proof.
  intros Hb. rewrite Z.sub_1_r, <- Z.ones_equiv, Z.land_ones by exact Hb.
  apply Z.mod_pos_bound. apply Z.pow_pos_nonneg; lia.
Qed.
Lemma lxor_bound a c b : 0 <= b -> 0 <= a < 2 ^ b -> 0 <= c < 2 ^ b -> 0 <= Z.lxor a c < 2 ^ b.
Proof.
  intros Hb Ha Hc. split.
  - apply Z.lxor_nonneg. lia.
  - pose proof (proj2 (Z.lxor_nonneg a c) ltac:(lia)) as Hn.
    destruct (Z.eq_dec (Z.lxor a c) 0) as [->|Hne]; [apply Z.pow_pos_nonneg; lia|].
    assert (Hlog : forall x, 0 <= x < 2 ^ b -> Z.log2 x < b \/ x = 0).
    { intros x Hx. destruct (Z.eq_dec x 0); [auto|]. left. apply Z.log2_lt_pow2; lia. }
    assert (Hb0 : 0 < b).
    { destruct (Z.eq_dec b 0) as [->|]; [|lia]. exfalso. cbn in Ha, Hc.
      assert (a = 0) by lia. assert (c = 0) by lia. subst. apply Hne. reflexivity. }
    apply Z.log2_lt_pow2; [lia|].
    pose proof (Z.log2_lxor a c ltac:(lia) ltac:(lia)) as L.
    assert (Z.log2 a < b) by (destruct (Hlog a Ha) as [| ->]; [assumption|exact Hb0]).
    assert (Z.log2 c < b) by (destruct (Hlog c Hc) as [| ->]; [assumption|exact Hb0]).
    lia.
Qed.
Lemma hash_bits_range h b : 0 <= h < 2 ^ 32 -> 0 <= b < 31 -> 0 <= hash_bits h b < 2 ^ b.
Proof.
  intros Hh Hb. unfold hash_bits. destruct (Z.eqb_spec b 32); [lia|].
  destruct (Z.leb_spec 16 b).
  - apply lxor_bound; [lia| |apply land_ones_bound; lia]. split.
    + apply Z.div_pos; [lia|]. apply Z.pow_pos_nonneg; lia.
    + apply Z.div_lt_upper_bound; [apply Z.pow_pos_nonneg; lia|].
      rewrite <- Z.pow_add_r by lia. eapply Z.lt_le_trans; [apply Hh|].
      apply Z.pow_le_mono_r; lia.
  - apply land_ones_bound. lia.
Qed.

(** ** invariant: every datum can be reached from its home position *)
Definition chain (b : Z) (es : list entry) : Prop :=
  forall i hs d, 0 <= i < 2 ^ b -> slot es i = Some (hs, d) ->
  forall k, 0 <= k < (i - hash_bits hs b) mod 2 ^ b ->
    slot es ((hash_bits hs b + k) mod 2 ^ b) <> None.
Definition hashes_ok (es : list entry) : Prop := forall hs d, In (hs, d) (contents es) -> 0 <= hs < 2 ^ 32.

Definition wf (t : table D) : Prop :=
  2 <= bits t < 31 /\ zlen (ents t) = 2 ^ bits t /\
  cnt t = Z.of_nat (length (contents (ents t))) /\ 4 * cnt t <= 3 * 2 ^ bits t /\
  chain (bits t) (ents t) /\ hashes_ok (ents t).

(** ** the probe loop *)
Section Probe.
Variables (es : list entry) (size h0 kh : Z) (eq : D -> option bool).
Hypothesis size_pos : 0 < size.
Hypothesis h0_range : 0 <= h0 < size.
Hypothesis eq_total : forall d, In (kh, d) (contents es) -> eq d <> None.
Definition pos k := (h0 + k) mod size.
Definition pass k := exists hs d, slot es (pos k) = Some (hs, d) /\ (hs <> kh \/ eq d = Some false).

Lemma pos_succ k : (pos k + 1) mod size = pos (k + 1).
Proof. unfold pos. rewrite Z.add_mod_idemp_l by lia. f_equal. lia. Qed.

Lemma probe_spec fuel : forall j, 0 <= j ->
  (exists e, j <= e < j + Z.of_nat fuel /\ slot es (pos e) = None) ->
  (exists k d, j <= k < j + Z.of_nat fuel /\ slot es (pos k) = Some (kh, d) /\ eq d = Some true /\
     probe fuel es size (pos j) kh eq = PFound (pos k) /\ forall m, j <= m < k -> pass m) \/
  (exists k, j <= k < j + Z.of_nat fuel /\ slot es (pos k) = None /\
     probe fuel es size (pos j) kh eq = PEmpty (pos k) /\ forall m, j <= m < k -> pass m).
Proof.
  induction fuel as [|f IH]; intros j Hj (e & He & Ee); [lia|]. cbn [probe].
  destruct (slot es (pos j)) as [[hs d]|] eqn:Sj.
  - assert (Hne : e <> j) by (intros ->; congruence).
    assert (Hget : eget es (pos j) = (hs, Some d)).
    { unfold slot in Sj. destruct (eget es (pos j)) as [? [?|]]; congruence. }
    rewrite Hget.
    assert (Hnext : pass j ->
      (exists k d, j <= k < j + Z.of_nat (S f) /\ slot es (pos k) = Some (kh, d) /\ eq d = Some true /\
         probe f es size ((pos j + 1) mod size) kh eq = PFound (pos k) /\ forall m, j <= m < k -> pass m) \/
      (exists k, j <= k < j + Z.of_nat (S f) /\ slot es (pos k) = None /\
         probe f es size ((pos j + 1) mod size) kh eq = PEmpty (pos k) /\ forall m, j <= m < k -> pass m)).
    { intros Pj. rewrite pos_succ.
      assert (Hall : forall k, (forall m, j + 1 <= m < k -> pass m) -> forall m, j <= m < k -> pass m).
      { intros k Hk m Hm. destruct (Z.eq_dec m j) as [->|]; [exact Pj|apply Hk; lia]. }
      destruct (IH (j + 1)) as [(k & d' & A & B & C & E & F)|(k & A & B & E & F)]; [lia|exists e; split; [lia|exact Ee]| |].
      - left. exists k, d'. pose proof (Hall k F). split; [lia|]. auto.
      - right. exists k. pose proof (Hall k F). split; [lia|]. auto. }
    destruct (Z.eqb_spec hs kh) as [->|Hh]; cbn [negb].
    + destruct (eq d) as [[|]|] eqn:Eq.
      * left. exists j, d. repeat split; auto; try (intros; lia).
      * apply Hnext. exists kh, d. auto.
      * destruct (eq_total d); [apply slot_contents in Sj; exact Sj|exact Eq].
    + apply Hnext. exists hs, d. auto.
  - assert (Hget : exists x, eget es (pos j) = (x, None)).
    { unfold slot in Sj. destruct (eget es (pos j)) as [x [?|]]; [congruence|eauto]. }
    destruct Hget as [x ->]. right. exists j. repeat split; auto; try (intros; lia).
Qed.
End Probe.

Lemma pos_dist size h0 k : 0 < size -> 0 <= k < size -> (pos size h0 k - h0) mod size = k.
Proof.
  intros Hs Hk. unfold pos. rewrite Zminus_mod_idemp_l. replace (h0 + k - h0) with k by ring.
  apply Z.mod_small. exact Hk.
Qed.
Lemma pos_0 size h0 : 0 <= h0 < size -> pos size h0 0 = h0.
Proof. intros. unfold pos. rewrite Z.add_0_r. apply Z.mod_small. assumption. Qed.
Lemma dist_pos size h0 i : 0 < size -> 0 <= i < size -> pos size h0 ((i - h0) mod size) = i.
Proof.
  intros Hs Hi. unfold pos. rewrite Z.add_mod_idemp_r by lia. replace (h0 + (i - h0)) with i by ring.
  apply Z.mod_small. exact Hi.
Qed.

Lemma probe_table b es kh eq :
  2 <= b < 31 -> zlen es = 2 ^ b -> Z.of_nat (length (contents es)) < 2 ^ b -> 0 <= kh < 2 ^ 32 ->
  (forall d, In (kh, d) (contents es) -> eq d <> None) -> chain b es ->
  (exists i d, 0 <= i < 2 ^ b /\ slot es i = Some (kh, d) /\ eq d = Some true /\
     probe (Z.to_nat (2 ^ b)) es (2 ^ b) (hash_bits kh b) kh eq = PFound i) \/
  (exists k, 0 <= k < 2 ^ b /\ slot es (pos (2 ^ b) (hash_bits kh b) k) = None /\
     probe (Z.to_nat (2 ^ b)) es (2 ^ b) (hash_bits kh b) kh eq = PEmpty (pos (2 ^ b) (hash_bits kh b) k) /\
     (forall m, 0 <= m < k -> slot es (pos (2 ^ b) (hash_bits kh b) m) <> None) /\
     forall d, In (kh, d) (contents es) -> eq d = Some false).
Proof.
  intros Hb Hl Hc Hk Htot Hch.
  set (s := 2 ^ b) in *. set (h0 := hash_bits kh b) in *.
  assert (Hs : 0 < s) by (apply Z.pow_pos_nonneg; lia).
  assert (H0 : 0 <= h0 < s) by (apply hash_bits_range; lia).
  destruct (exists_empty es ltac:(lia)) as (e & He & Ee). rewrite Hl in He.
  destruct (probe_spec es s h0 kh eq Hs Htot (Z.to_nat s) 0 ltac:(lia)) as [P|P].
  - exists ((e - h0) mod s). split.
    + pose proof (Z.mod_pos_bound (e - h0) s Hs). lia.
    + rewrite dist_pos by lia. exact Ee.
  - destruct P as (k & d & A & B & C & E & F). left. exists (pos s h0 k), d.
    rewrite pos_0 in E by exact H0. repeat split; auto; apply Z.mod_pos_bound; exact Hs.
  - destruct P as (k & A & B & E & F). right. exists k. rewrite pos_0 in E by exact H0.
    repeat split; auto; try lia.
    + intros m Hm. destruct (F m Hm) as (hs & d & Sm & _). congruence.
    + intros d Hin. destruct (contents_slot _ _ _ Hin) as (i & Hi & Si). rewrite Hl in Hi.
      destruct (eq d) as [[|]|] eqn:Eq; [|reflexivity|destruct (Htot d Hin Eq)]. exfalso.
      set (j := (i - h0) mod s).
      assert (Hj : 0 <= j < s) by (apply Z.mod_pos_bound; exact Hs).
      destruct (Z_lt_dec j k) as [Hjk|Hjk].
      * destruct (F j ltac:(lia)) as (hs & d' & Sj & P). unfold j in Sj. rewrite dist_pos in Sj by lia.
        rewrite Si in Sj. injection Sj as <- <-. destruct P; congruence.
      * destruct (Z.eq_dec j k) as [Ejk|Ejk].
        -- rewrite <- Ejk in B. unfold j in B. rewrite dist_pos in B by lia. congruence.
        -- apply (Hch i kh d Hi Si k); [fold s h0 j; lia|]. exact B.
Qed.

(** filling an empty slot *)
Lemma fill_wf t kh d k : wf t -> 0 <= kh < 2 ^ 32 ->
  let h := pos (2 ^ bits t) (hash_bits kh (bits t)) k in
  0 <= k < 2 ^ bits t -> slot (ents t) h = None ->
  (forall m, 0 <= m < k -> slot (ents t) (pos (2 ^ bits t) (hash_bits kh (bits t)) m) <> None) ->
  4 * (cnt t + 1) <= 3 * 2 ^ bits t ->
  let t' := mkt (bits t) (cnt t + 1) (eset (ents t) h (kh, Some d)) in
  wf t' /\ Permutation (contents (ents t')) ((kh, d) :: contents (ents t)).
Proof.
  intros (Hb & Hl & Hn & Hf & Hch & Hh) Hk h Hkr Hemp Hocc Hcap t'.
  assert (Hs : 0 < 2 ^ bits t) by (apply Z.pow_pos_nonneg; lia).
  assert (Hhr : 0 <= h < 2 ^ bits t) by (apply Z.mod_pos_bound; exact Hs).
  assert (Hp : Permutation (contents (ents t')) ((kh, d) :: contents (ents t))).
  { apply contents_set; [lia|exact Hemp]. }
  split; [|exact Hp]. unfold wf. cbn [bits cnt ents t']. split; [exact Hb|].
  split; [rewrite zlen_eset; exact Hl|].
  split.
  { pose proof (Permutation_length Hp) as HL. unfold t' in HL. cbn [ents length] in HL. lia. }
  split; [exact Hcap|]. split.
  - intros i hs d' Hi Si m Hm. set (home := hash_bits hs (bits t)) in *.
    set (x := (home + m) mod 2 ^ bits t).
    assert (Hx : 0 <= x < 2 ^ bits t) by (apply Z.mod_pos_bound; exact Hs).
    destruct (Z.eq_dec h x) as [Ex|Ex].
    { rewrite Ex at 1. rewrite slot_eset_same by lia. discriminate. }
    rewrite slot_eset_other by lia.
    destruct (Z.eq_dec h i) as [Ei|Ei].
    + rewrite <- Ei in *. rewrite slot_eset_same in Si by lia. injection Si as <- <-.
      apply (Hocc m). fold home in h. unfold h in Hm. rewrite pos_dist in Hm by lia. lia.
    + rewrite slot_eset_other in Si by lia. exact (Hch i hs d' Hi Si m Hm).
  - intros hs d' Hin. apply (Permutation_in _ Hp) in Hin as [E|Hin]; [congruence|exact (Hh _ _ Hin)].
Qed.

(** an entry that was reserved but not yet filled in *)
Definition reserved (t : table D) (kh h : Z) (t' : table D) : Prop :=
  exists k, 0 <= k < 2 ^ bits t /\ h = pos (2 ^ bits t) (hash_bits kh (bits t)) k /\
    slot (ents t) h = None /\
    (forall m, 0 <= m < k -> slot (ents t) (pos (2 ^ bits t) (hash_bits kh (bits t)) m) <> None) /\
    4 * (cnt t + 1) <= 3 * 2 ^ bits t /\
    t' = mkt (bits t) (cnt t + 1) (eset (ents t) h (kh, None)).

Lemma reserved_fill t kh h t' d : wf t -> 0 <= kh < 2 ^ 32 -> reserved t kh h t' ->
  let t'' := mkt (bits t') (cnt t') (eset (ents t') h (kh, Some d)) in
  eget (ents t') h = (kh, None) /\
  wf t'' /\ bits t'' = bits t /\ Permutation (contents (ents t'')) ((kh, d) :: contents (ents t)).
Proof.
  intros Hwf Hk (k & Hkr & Eh & Hemp & Hocc & Hcap & ->). cbn [bits cnt ents].
  assert (Hhr : 0 <= h < zlen (ents t)).
  { destruct Hwf as (Hb & -> & _). rewrite Eh. apply Z.mod_pos_bound. apply Z.pow_pos_nonneg; lia. }
  split; [unfold eget, eset; apply lupd_same; unfold zlen in Hhr; lia|].
  assert (Ee : eset (eset (ents t) h (kh, None)) h (kh, Some d) = eset (ents t) h (kh, Some d)) by apply lupd_lupd.
  rewrite Ee. rewrite Eh in *.
  destruct (fill_wf t kh d k Hwf Hk Hkr Hemp Hocc Hcap) as [A B]. split; [exact A|]. split; [reflexivity|exact B].
Qed.

(** giving up a reserved entry *)
Lemma reserved_undo t kh h t' : wf t -> reserved t kh h t' ->
  let t'' := mkt (bits t') (cnt t' - 1) (ents t') in
  eget (ents t') h = (kh, None) /\ wf t'' /\ contents (ents t'') = contents (ents t).
Proof.
  intros Hwf (k & Hkr & Eh & Hemp & Hocc & Hcap & ->). cbn [bits cnt ents].
  assert (Hhr : 0 <= h < zlen (ents t)).
  { destruct Hwf as (Hb & -> & _). rewrite Eh. apply Z.mod_pos_bound. apply Z.pow_pos_nonneg; lia. }
  split; [unfold eget, eset; apply lupd_same; unfold zlen in Hhr; lia|].
  pose proof (contents_hash_only (ents t) h kh Hemp) as Hc.
  split; [|exact Hc].
  destruct Hwf as (Hb & Hl & Hn & Hf & Hch & Hh).
  assert (Hsl : forall i, 0 <= i -> slot (eset (ents t) h (kh, None)) i = slot (ents t) i).
  { intros i Hi. destruct (Z.eq_dec h i) as [<-|]; [|apply slot_eset_other; lia].
    rewrite slot_eset_same by lia. symmetry. exact Hemp. }
  unfold wf. cbn [bits cnt ents]. rewrite Hc, zlen_eset.
  split; [exact Hb|]. split; [exact Hl|]. split; [lia|]. split; [lia|]. split.
  - intros i hs d Hi Si m Hm. rewrite Hsl in Si by lia.
    rewrite Hsl by (apply Z.mod_pos_bound; apply Z.pow_pos_nonneg; lia). exact (Hch i hs d Hi Si m Hm).
  - unfold hashes_ok. rewrite Hc. exact Hh.
Qed.

(** find with reserve in a table that has room *)
Lemma find_room f alloc t kh eq : wf t -> 0 <= kh < 2 ^ 32 -> (forall d, In (kh, d) (contents (ents t)) -> eq d <> None) ->
  cnt t < 2 ^ 29 -> 4 * cnt t < 3 * 2 ^ bits t ->
  (exists h d, 0 <= h < 2 ^ bits t /\ slot (ents t) h = Some (kh, d) /\ eq d = Some true /\
     find (S f) alloc t kh eq true = (FEntry h, t)) \/
  ((forall d, In (kh, d) (contents (ents t)) -> eq d = Some false) /\
   exists h t', find (S f) alloc t kh eq true = (FEntry h, t') /\ reserved t kh h t').
Proof.
  intros Hwf Hk Htot Hc29 Hroom. pose proof Hwf as (Hb & Hl & Hn & Hf & Hch & Hh).
  assert (Hsz : exists z, 2 ^ bits t = 4 * z).
  { exists (2 ^ (bits t - 2)). change 4 with (2 ^ 2). rewrite <- Z.pow_add_r by lia. f_equal. lia. }
  destruct Hsz as [z Hz].
  cbn [find]. unfold size_ok, tsize. destruct (Z.ltb_spec (bits t) 31); [cbn [negb]|lia].
  destruct (probe_table (bits t) (ents t) kh eq Hb Hl ltac:(lia) Hk Htot Hch)
    as [(i & d & A & B & C & E)|(k & A & B & E & F & G)]; rewrite E.
  - left. exists i, d. auto.
  - right. split; [exact G|]. cbn [negb].
    destruct (Z.leb_spec (2 ^ 31) (4 * cnt t)); [lia|].
    destruct (Z.leb_spec (3 * 2 ^ bits t) (4 * cnt t)); [lia|].
    eexists _, _. split; [reflexivity|]. exists k. repeat split; auto; try lia.
    f_equal. f_equal. f_equal. unfold slot in B.
    destruct (eget (ents t) (pos (2 ^ bits t) (hash_bits kh (bits t)) k)) as [? [?|]]; [discriminate|reflexivity].
Qed.

Lemma contents_repeat m : contents (repeat (0, None) m) = [].
Proof. unfold contents. induction m; cbn; auto. Qed.
Lemma slot_repeat m i : slot (repeat (0, None) m) i = None.
Proof.
  unfold slot, eget. generalize (Z.to_nat i) as n. induction m as [|m IH]; intros [|n]; cbn; auto.
Qed.
Lemma empty_wf b : 2 <= b < 31 -> wf (mkt b 0 (repeat (0, None) (Z.to_nat (2 ^ b)))).
Proof.
  intros Hb. assert (0 < 2 ^ b) by (apply Z.pow_pos_nonneg; lia).
  unfold wf. cbn [bits cnt ents]. unfold zlen. rewrite repeat_length, contents_repeat.
  split; [exact Hb|]. split; [lia|]. split; [reflexivity|]. split; [lia|]. split.
  - intros i hs d Hi Si. rewrite slot_repeat in Si. discriminate.
  - intros hs d Hin. rewrite contents_repeat in Hin. destruct Hin.
Qed.

Lemma grow_loop_ok f alloc : forall es t,
  wf t -> hashes_ok es -> Z.of_nat (length (contents es)) + cnt t < 2 ^ 29 ->
  4 * (Z.of_nat (length (contents es)) + cnt t) <= 3 * 2 ^ bits t ->
  exists t', grow_loop (fun t hs => find (S f) alloc t hs (fun _ => Some false) true) es t = (FNone, t') /\
    wf t' /\ bits t' = bits t /\ Permutation (contents (ents t')) (contents es ++ contents (ents t)).
Proof.
  induction es as [|[hs [d|]] es IH]; intros t Hwf Hh Hc Hcap; cbn [grow_loop].
  - exists t. auto.
  - cbn [contents flat_map econt app length] in *. fold (contents es) in *.
    assert (Hhs : 0 <= hs < 2 ^ 32) by (apply (Hh hs d); left; reflexivity).
    destruct (find_room f alloc t hs (fun _ => Some false) Hwf Hhs ltac:(discriminate) ltac:(lia) ltac:(lia))
      as [(h & d' & _ & _ & Habs & _)|(_ & h & t1 & E & R)]; [discriminate|].
    rewrite E. destruct (reserved_fill t hs h t1 d Hwf Hhs R) as (_ & Hwf' & Hb' & Hp).
    set (t2 := mkt (bits t1) (cnt t1) (eset (ents t1) h (hs, Some d))) in *.
    assert (Hcnt : cnt t2 = cnt t + 1) by (destruct R as (k & _ & _ & _ & _ & _ & ->); reflexivity).
    destruct (IH t2) as (t' & E' & W' & B' & P'); auto.
    + intros hs' d' Hin. apply (Hh hs' d'). right. exact Hin.
    + lia.
    + rewrite Hb'. lia.
    + exists t'. split; [exact E'|]. split; [exact W'|]. split; [congruence|].
      rewrite P', Hp. symmetry. apply Permutation_middle.
  - destruct (IH t Hwf); auto.
Qed.

(** find with reserve *)
Lemma find_reserve alloc t kh eq : wf t -> 0 <= kh < 2 ^ 32 -> (forall d, In (kh, d) (contents (ents t)) -> eq d <> None) ->
  cnt t < 2 ^ 29 - 1 ->
  (exists h d, 0 <= h < 2 ^ bits t /\ slot (ents t) h = Some (kh, d) /\ eq d = Some true /\
     find 3 alloc t kh eq true = (FEntry h, t)) \/
  ((forall d, In (kh, d) (contents (ents t)) -> eq d = Some false) /\
   exists h t0 t', find 3 alloc t kh eq true = (FEntry h, t') /\ wf t0 /\
     Permutation (contents (ents t0)) (contents (ents t)) /\ reserved t0 kh h t') \/
  (alloc = false /\ (forall d, In (kh, d) (contents (ents t)) -> eq d = Some false) /\
   find 3 alloc t kh eq true = (FNull, t)).
Proof.
  intros Hwf Hk Htot Hc. pose proof Hwf as (Hb & Hl & Hn & Hf & Hch & Hh).
  destruct (Z_lt_dec (4 * cnt t) (3 * 2 ^ bits t)) as [Hroom|Hfull].
  { destruct (find_room 2 alloc t kh eq Hwf Hk Htot ltac:(lia) Hroom) as [L|(N & h & t' & E & R)].
    - left. exact L.
    - right. left. split; [exact N|]. exists h, t, t'. auto. }
  assert (Hb30 : bits t < 30).
  { destruct (Z_lt_dec (bits t) 30); [assumption|]. exfalso.
    assert (2 ^ 30 <= 2 ^ bits t) by (apply Z.pow_le_mono_r; lia). lia. }
  assert (Hs2 : 2 * 2 ^ bits t = 2 ^ (bits t + 1)) by (rewrite Z.pow_add_r by lia; lia).
  assert (Hspos : 4 <= 2 ^ bits t) by (change 4 with (2 ^ 2); apply Z.pow_le_mono_r; lia).
  remember 2%nat as two eqn:E2.
  cbn [find]. unfold size_ok, tsize. destruct (Z.ltb_spec (bits t) 31); [cbn [negb]|lia].
  destruct (probe_table (bits t) (ents t) kh eq Hb Hl ltac:(lia) Hk Htot Hch)
    as [(i & d & A & B & C & E)|(k & A & B & E & F & G)]; rewrite E.
  - left. exists i, d. auto.
  - cbn [negb]. destruct (Z.leb_spec (2 ^ 31) (4 * cnt t)); [lia|].
    destruct (Z.leb_spec (3 * 2 ^ bits t) (4 * cnt t)); [|lia].
    destruct alloc; cbn [negb]; [|right; right; auto].
    rewrite Hs2. subst two.
    destruct (grow_loop_ok 1 true (ents t) (mkt (bits t + 1) 0 (repeat (0, None) (Z.to_nat (2 ^ (bits t + 1))))))
      as (t' & E' & W' & B' & P').
    + apply empty_wf. lia.
    + exact Hh.
    + cbn [cnt]. lia.
    + cbn [cnt bits]. lia.
    + rewrite E'. cbn [ents bits] in P', B'. rewrite contents_repeat, app_nil_r in P'.
      assert (Hcnt' : cnt t' = cnt t).
      { destruct W' as (_ & _ & -> & _). rewrite Hn, (Permutation_length P'). reflexivity. }
      destruct (find_room 1 true t' kh eq W' Hk
        ltac:(intros d Hd; apply Htot; apply (Permutation_in _ P'); exact Hd) ltac:(lia)) as [(h & d & A1 & B1 & C1 & D1)|(N & h & t'' & E1 & R1)].
      * rewrite Hcnt', B'. lia.
      * exfalso. apply slot_contents in B1. apply (Permutation_in _ P') in B1. specialize (G _ B1). congruence.
      * right. left. split; [exact G|]. exists h, t', t''. auto.
Qed.

(** find without reserve *)
Lemma find_plain alloc t kh eq : wf t -> 0 <= kh < 2 ^ 32 -> (forall d, In (kh, d) (contents (ents t)) -> eq d <> None) ->
  (exists h d, 0 <= h < 2 ^ bits t /\ slot (ents t) h = Some (kh, d) /\ eq d = Some true /\
     find 3 alloc t kh eq false = (FEntry h, t)) \/
  ((forall d, In (kh, d) (contents (ents t)) -> eq d = Some false) /\
   find 3 alloc t kh eq false = (FNone, t)).
Proof.
  intros Hwf Hk Htot. pose proof Hwf as (Hb & Hl & Hn & Hf & Hch & Hh).
  assert (Hspos : 4 <= 2 ^ bits t) by (change 4 with (2 ^ 2); apply Z.pow_le_mono_r; lia).
  cbn [find]. unfold size_ok, tsize. destruct (Z.ltb_spec (bits t) 31); [cbn [negb]|lia].
  destruct (probe_table (bits t) (ents t) kh eq Hb Hl ltac:(lia) Hk Htot Hch)
    as [(i & d & A & B & C & E)|(k & A & B & E & F & G)]; rewrite E.
  - left. exists i, d. auto.
  - right. auto.
Qed.

(** ** remove *)
Section Remove.
Variables (b : Z).
Hypothesis Hb : 2 <= b < 31.
Let s := 2 ^ b.

Lemma s_pos : 4 <= s.
Proof. unfold s. change 4 with (2 ^ 2). apply Z.pow_le_mono_r; lia. Qed.

Lemma s_div : (s | 2 ^ 64).
Proof. exists (2 ^ (64 - b)). unfold s. rewrite <- Z.pow_add_r by lia. f_equal. lia. Qed.

Lemma mod_mod_s x : (x mod 2 ^ 64) mod s = x mod s.
Proof.
  destruct s_div as [q Hq]. pose proof s_pos. rewrite Hq, (Z.mul_comm q).
  rewrite Z.rem_mul_r by nia. rewrite Z.mul_comm, Z.add_mod, Z.mod_mul, Z.add_0_r by lia.
  rewrite !Z.mod_mod by lia. reflexivity.
Qed.

(** virtual table: the entry at the hole is considered deleted *)
Definition virt (es : list entry) (h : Z) : list entry := eset es (h mod s) (0, None).

(** [x] lies on the probe path from [home] to [i] *)
Definition onpath home i x := (x - home) mod s <= (i - home) mod s.

Record rinv (es : list entry) (h h2 : Z) (c0 : list (Z * D)) : Prop := {
  r_len : zlen es = s;
  r_hash : hashes_ok es;
  r_cont : Permutation (contents (virt es h)) c0;
  r_order : 0 <= h < h2;
  (* (a) paths are occupied except possibly at the hole *)
  r_path : forall i hs d, 0 <= i < s -> slot (virt es h) i = Some (hs, d) ->
     forall x, 0 <= x < s -> x <> h mod s -> onpath (hash_bits hs b) i x -> slot (virt es h) x <> None;
  (* (b), (c) entries between the hole and h2 do not need the hole *)
  r_seen : forall k, 0 < k < h2 - h ->
     exists hs d, slot es ((h + k) mod s) = Some (hs, d) /\
       ~ onpath (hash_bits hs b) ((h + k) mod s) (h mod s)
}.

Lemma modx_range x : 0 <= x mod s < s.
Proof. apply Z.mod_pos_bound. pose proof s_pos. lia. Qed.

Lemma mod_shift_neq h k : 0 < k < s -> (h + k) mod s <> h mod s.
Proof.
  intros Hk E. pose proof s_pos.
  assert (K : ((h + k) - h) mod s = 0).
  { rewrite Zminus_mod, E, Z.sub_diag. apply Z.mod_0_l. lia. }
  replace (h + k - h) with k in K by ring. rewrite Z.mod_small in K by lia. lia.
Qed.

(** the test in the code decides whether the hole is on the path *)
Lemma offset_test h h2 home : 0 <= home < s -> 0 < h2 - h < s ->
  (((s + home - (h + 1)) mod 2 ^ 64) mod s <= h2 - (h + 1) <-> ~ onpath home (h2 mod s) (h mod s)).
Proof.
  intros Hh Hk. rewrite mod_mod_s. unfold onpath. pose proof s_pos.
  rewrite !Zminus_mod_idemp_l.
  replace (s + home - (h + 1)) with (home - (h + 1) + 1 * s) by ring. rewrite Z.mod_add by lia.
  set (o := (home - (h + 1)) mod s).
  assert (Ho : 0 <= o < s) by apply modx_range.
  assert (E1 : (h - home) mod s = s - 1 - o).
  { symmetry. apply Z.mod_unique with (q := - ((home - (h + 1)) / s) - 1); [lia|].
    unfold o. rewrite Z.mod_eq by lia. ring. }
  assert (E2 : (h2 - home) mod s = (h2 - h - 1 - o) mod s).
  { replace (h2 - home) with ((h2 - h - 1) - (home - (h + 1))) by ring.
    unfold o. rewrite Zminus_mod_idemp_r. reflexivity. }
  rewrite E1, E2. set (m := h2 - h - 1) in *. replace (h2 - (h + 1)) with m by (unfold m; ring).
  destruct (Z_le_dec o m) as [L|L].
  - rewrite Z.mod_small by lia. lia.
  - replace (m - o) with (m - o + s + (-1) * s) by ring. rewrite Z.mod_add by lia.
    rewrite Z.mod_small by lia. lia.
Qed.

Lemma eset_comm (es : list entry) i j a c : 0 <= i -> 0 <= j -> i <> j -> eset (eset es i a) j c = eset (eset es j c) i a.
Proof. intros. unfold eset. apply lupd_comm. lia. Qed.
Lemma eset_eset (es : list entry) i a c : eset (eset es i a) i c = eset es i c.
Proof. apply lupd_lupd. Qed.

Lemma virt_len es h : zlen (virt es h) = zlen es.
Proof. apply zlen_eset. Qed.
Lemma virt_other es h x : 0 <= x -> x <> h mod s -> slot (virt es h) x = slot es x.
Proof. intros. pose proof (modx_range h). apply slot_eset_other; lia. Qed.
Lemma virt_hole es h : zlen es = s -> slot (virt es h) (h mod s) = None.
Proof. intros. unfold virt. rewrite slot_eset_same by (rewrite H; apply modx_range). reflexivity. Qed.

Lemma path_prefix home i x y : 0 <= home < s -> 0 <= i < s -> 0 <= x < s -> 0 <= y < s ->
  onpath home i x -> onpath home x y -> onpath home i y.
Proof. unfold onpath. lia. Qed.

Lemma remove_step_skip es h h2 c0 hs d :
  rinv es h h2 c0 -> h2 - h < s -> slot es (h2 mod s) = Some (hs, d) ->
  ~ onpath (hash_bits hs b) (h2 mod s) (h mod s) -> rinv es h (h2 + 1) c0.
Proof.
  intros [L H C O P S] Hlt Sl Np. constructor; auto; try lia.
  intros k Hk. destruct (Z.eq_dec k (h2 - h)) as [->|].
  - replace (h + (h2 - h)) with h2 by ring. eauto.
  - apply S. lia.
Qed.

Lemma remove_step_move es h h2 c0 hs d :
  rinv es h h2 c0 -> h2 - h < s -> slot es (h2 mod s) = Some (hs, d) ->
  onpath (hash_bits hs b) (h2 mod s) (h mod s) ->
  rinv (eset es (h mod s) (hs, Some d)) h2 (h2 + 1) c0.
Proof.
  intros [L H C O P S] Hlt Sl Op.
  pose proof (modx_range h) as Rh. pose proof (modx_range h2) as Rh2. pose proof s_pos as Sp.
  assert (Hne : h2 mod s <> h mod s).
  { replace h2 with (h + (h2 - h)) by ring. apply mod_shift_neq. lia. }
  assert (Hv2 : virt (eset es (h mod s) (hs, Some d)) h2 =
                eset (eset (virt es h) (h2 mod s) (0, None)) (h mod s) (hs, Some d)).
  { unfold virt. rewrite (eset_comm es (h mod s) (h2 mod s) (hs, Some d)) by lia.
    rewrite (eset_comm es (h mod s) (h2 mod s) (0, None)) by lia. rewrite eset_eset. reflexivity. }
  assert (Hslv : slot (virt es h) (h2 mod s) = Some (hs, d)) by (rewrite virt_other by lia; exact Sl).
  assert (Hhole' : slot (eset (virt es h) (h2 mod s) (0, None)) (h mod s) = None).
  { rewrite slot_eset_other by lia. apply virt_hole. exact L. }
  (* slots of the new virtual table *)
  assert (V2h : slot (virt (eset es (h mod s) (hs, Some d)) h2) (h mod s) = Some (hs, d)).
  { rewrite Hv2, slot_eset_same; [reflexivity|]. rewrite zlen_eset, virt_len. lia. }
  assert (V2j : slot (virt (eset es (h mod s) (hs, Some d)) h2) (h2 mod s) = None).
  { apply virt_hole. rewrite zlen_eset. exact L. }
  assert (V2o : forall x, 0 <= x < s -> x <> h mod s -> x <> h2 mod s ->
     slot (virt (eset es (h mod s) (hs, Some d)) h2) x = slot (virt es h) x).
  { intros x Hx H1 H2. rewrite Hv2. rewrite !slot_eset_other by lia. reflexivity. }
  constructor.
  - rewrite zlen_eset. exact L.
  - intros hs' d' Hin. destruct (contents_slot _ _ _ Hin) as (i & Hi & Si). rewrite zlen_eset, L in Hi.
    destruct (Z.eq_dec i (h mod s)) as [->|].
    + rewrite slot_eset_same in Si by lia. injection Si as <- <-.
      apply (H hs d). exact (slot_contents _ _ _ _ Sl).
    + rewrite slot_eset_other in Si by lia. exact (H _ _ (slot_contents _ _ _ _ Si)).
  - rewrite Hv2. rewrite contents_set; [|rewrite zlen_eset, virt_len; lia|exact Hhole'].
    rewrite <- C. symmetry. apply contents_clear; [rewrite virt_len; lia|exact Hslv].
  - lia.
  - intros i hs' d' Hi Si x Hx Hxj Ox.
    destruct (Z.eq_dec x (h mod s)) as [->|Hxh]; [rewrite V2h; discriminate|].
    rewrite V2o by assumption.
    destruct (Z.eq_dec i (h mod s)) as [->|Hih].
    + rewrite V2h in Si. injection Si as <- <-.
      apply (P (h2 mod s) hs d Rh2 Hslv x Hx Hxh). unfold onpath in *. lia.
    + destruct (Z.eq_dec i (h2 mod s)) as [->|Hij]; [congruence|].
      rewrite V2o in Si by assumption. exact (P i hs' d' Hi Si x Hx Hxh Ox).
  - intros k Hk. lia.
Qed.

Lemma remove_end es h h2 c0 : rinv es h h2 c0 -> h2 - h < s -> slot es (h2 mod s) = None ->
  chain b (virt es h).
Proof.
  intros [L H C O P S] Hlt Se i hs d Hi Si k Hk Hnone. fold s in Hi, Hk, Hnone.
  pose proof s_pos as Sp.
  assert (Hin : In (hs, d) (contents es)).
  { destruct (Z.eq_dec i (h mod s)) as [->|Hne]; [rewrite virt_hole in Si by exact L; discriminate|].
    rewrite virt_other in Si by lia. exact (slot_contents _ _ _ _ Si). }
  assert (Hhs : 0 <= hash_bits hs b < s) by (apply hash_bits_range; [exact (H _ _ Hin)|exact (conj (Z.le_trans 0 2 b ltac:(lia) (proj1 Hb)) (proj2 Hb))]).
  set (home := hash_bits hs b) in *. set (x := (home + k) mod s) in *.
  assert (Hx : 0 <= x < s) by apply modx_range.
  assert (Hki : (i - home) mod s < s) by apply modx_range.
  assert (Hxk : (x - home) mod s = k).
  { unfold x. rewrite Zminus_mod_idemp_l. replace (home + k - home) with k by ring. apply Z.mod_small. lia. }
  destruct (Z.eq_dec x (h mod s)) as [Ex|Ex].
  2:{ apply (P i hs d Hi Si x Hx Ex); [|exact Hnone]. unfold onpath. fold home. lia. }
  (* the hole is on the path of i; i = hole + m *)
  set (m := (i - h) mod s).
  assert (Hm : 0 <= m < s) by apply modx_range.
  assert (Him : i = (h + m) mod s).
  { unfold m. rewrite Z.add_mod_idemp_r by lia. replace (h + (i - h)) with i by ring.
    symmetry. apply Z.mod_small. exact Hi. }
  assert (Hm0 : m <> 0).
  { intros M0. rewrite M0, Z.add_0_r in Him. rewrite Him, virt_hole in Si by exact L. discriminate. }
  destruct (Z_lt_dec m (h2 - h)) as [Hlt2|Hge].
  - destruct (S m ltac:(lia)) as (hs' & d' & Sl' & Np). rewrite <- Him in *.
    assert (Hih : i <> h mod s) by (rewrite Him; apply mod_shift_neq; lia).
    rewrite virt_other in Si by lia. rewrite Si in Sl'. injection Sl' as <- <-.
    apply Np. unfold onpath. fold home. rewrite <- Ex, Hxk. lia.
  - (* then h2 is on the path as well *)
    assert (E : slot (virt es h) (h2 mod s) <> None).
    { apply (P i hs d Hi Si); [apply modx_range| |].
      - replace h2 with (h + (h2 - h)) by ring. apply mod_shift_neq. lia.
      - unfold onpath. fold home.
        assert (Ehome : (h - home) mod s = k).
        { rewrite <- Hxk, Ex. rewrite Zminus_mod_idemp_l. reflexivity. }
        assert (Ei : (i - home) mod s = (k + m) mod s).
        { rewrite Him, Zminus_mod_idemp_l. replace (h + m - home) with ((h - home) + m) by ring.
          rewrite <- Z.add_mod_idemp_l, Ehome by lia. reflexivity. }
        assert (E2 : (h2 mod s - home) mod s = (k + (h2 - h)) mod s).
        { rewrite Zminus_mod_idemp_l. replace (h2 - home) with ((h - home) + (h2 - h)) by ring.
          rewrite <- Z.add_mod_idemp_l, Ehome by lia. reflexivity. }
        rewrite E2, Ei in *.
        assert (Hks : k < s) by lia.
        destruct (Z_lt_dec (k + m) s) as [Lt|Ge].
        + rewrite !Z.mod_small by lia. lia.
        + exfalso. replace (k + m) with (k + m - s + 1 * s) in Hk by ring.
          rewrite Z.mod_add in Hk by lia. rewrite Z.mod_small in Hk by lia. lia. }
    apply E. rewrite virt_other; [exact Se|apply modx_range|].
    replace h2 with (h + (h2 - h)) by ring. apply mod_shift_neq. lia.
Qed.

(** the loop; [e] is the first empty slot, as an unreduced index *)
Lemma remove_loop_ok c0 e : forall fuel es h h2,
  rinv es h h2 c0 -> slot es (e mod s) = None ->
  h2 <= e < h + s -> (Z.to_nat (e - h2) < fuel)%nat ->
  exists es' h', remove_loop fuel b s es h h2 = Some (es', h') /\
    zlen es' = s /\ Permutation (contents (virt es' h')) c0 /\ chain b (virt es' h') /\ hashes_ok es'.
Proof.
  induction fuel as [|f IH]; intros es h h2 R He Hr Hf; [lia|].
  pose proof R as [L H C O P S]. pose proof s_pos as Sp. cbn [remove_loop].
  destruct (slot es (h2 mod s)) as [[hs d]|] eqn:Sl.
  - assert (Hne : h2 <> e) by (intros ->; congruence).
    assert (Hget : eget es (h2 mod s) = (hs, Some d)).
    { unfold slot in Sl. destruct (eget es (h2 mod s)) as [? [?|]]; congruence. }
    rewrite Hget. cbv zeta.
    assert (Hhome : 0 <= hash_bits hs b < s).
    { apply hash_bits_range; [exact (H _ _ (slot_contents _ _ _ _ Sl))|lia]. }
    pose proof (offset_test h h2 (hash_bits hs b) Hhome ltac:(lia)) as T.
    destruct (Z.leb_spec (((s + hash_bits hs b - (h + 1)) mod 2 ^ 64) mod s) (h2 - (h + 1))) as [Le|Gt].
    + apply IH; auto; try lia. apply remove_step_skip with hs d; auto; try lia. apply T. exact Le.
    + apply IH; try lia.
      * apply remove_step_move; auto; try lia. unfold onpath in *. lia.
      * destruct (Z.eq_dec (h mod s) (e mod s)) as [Eh|Eh].
        -- exfalso. revert Eh. replace e with (h + (e - h)) by ring. intros Eh.
           symmetry in Eh. revert Eh. apply mod_shift_neq. lia.
        -- rewrite slot_eset_other; auto; apply modx_range.
  - assert (Hget : exists x, eget es (h2 mod s) = (x, None)).
    { unfold slot in Sl. destruct (eget es (h2 mod s)) as [x [?|]]; [congruence|eauto]. }
    destruct Hget as [x ->]. exists es, h. split; [reflexivity|]. split; [exact L|]. split; [exact C|].
    split; [|exact H]. apply remove_end with h2 c0; auto; lia.
Qed.
End Remove.

Lemma remove_ok t h hs d : wf t -> 0 <= h < 2 ^ bits t -> slot (ents t) h = Some (hs, d) ->
  exists t', remove t h = Some t' /\ wf t' /\
    Permutation (contents (ents t)) ((hs, d) :: contents (ents t')).
Proof.
  intros Hwf Hr Hsl. pose proof Hwf as (Hb & Hl & Hn & Hf & Hch & Hh).
  pose proof (s_pos (bits t) Hb) as Sp.
  unfold remove, tsize. replace ((0 <=? h) && (h <? 2 ^ bits t)) with true by lia. cbn [negb].
  destruct (exists_empty (ents t) ltac:(lia)) as (e0 & He0 & Ee0). rewrite Hl in He0.
  set (s := 2 ^ bits t) in *.
  set (e := h + (e0 - h) mod s).
  assert (Hem : e mod s = e0).
  { unfold e. rewrite Z.add_mod_idemp_r by lia. replace (h + (e0 - h)) with e0 by ring. apply Z.mod_small. lia. }
  assert (Hed : 0 < (e0 - h) mod s < s).
  { pose proof (Z.mod_pos_bound (e0 - h) s ltac:(lia)).
    destruct (Z.eq_dec ((e0 - h) mod s) 0) as [E|]; [|lia]. exfalso.
    unfold e in Hem. rewrite E, Z.add_0_r, Z.mod_small in Hem by lia. congruence. }
  assert (Hclear : Permutation (contents (ents t)) ((hs, d) :: contents (virt (bits t) (ents t) h))).
  { unfold virt. fold s. rewrite Z.mod_small by lia. apply contents_clear; [lia|exact Hsl]. }
  destruct (remove_loop_ok (bits t) Hb (contents (virt (bits t) (ents t) h)) e (Z.to_nat s) (ents t) h (h + 1))
    as (es' & h' & E & L' & C' & Ch' & H'); fold s.
  - constructor; auto; try lia.
    + intros i hs' d' Hi Si x Hx Hxh Op.
      assert (Hih : i <> h mod 2 ^ bits t).
      { intros ->. rewrite virt_hole in Si by auto. discriminate. }
      rewrite virt_other in Si by (auto; lia). rewrite virt_other by (auto; lia).
      unfold onpath in Op.
      set (home := hash_bits hs' (bits t)) in *.
      destruct (Z.eq_dec x i) as [->|Hxi]; [congruence|].
      assert (Hd : (x - home) mod s < (i - home) mod s).
      { assert ((x - home) mod s <> (i - home) mod s); [|fold s in Op; lia]. intros Eq. apply Hxi.
        rewrite <- (dist_pos s home x), <- (dist_pos s home i) by lia. rewrite Eq. reflexivity. }
      pose proof (Z.mod_pos_bound (x - home) s ltac:(lia)) as B.
      pose proof (Hch i hs' d' Hi Si ((x - home) mod s) (conj (proj1 B) Hd)) as K.
      fold home s in K. change ((home + (x - home) mod s) mod s) with (pos s home ((x - home) mod s)) in K.
      rewrite dist_pos in K by lia. exact K.
  - fold s. rewrite Hem. exact Ee0.
  - unfold e. lia.
  - unfold e. lia.
  - unfold s in E. fold s in E. rewrite E. eexists. split; [reflexivity|].
    assert (Hp : Permutation (contents (ents t)) ((hs, d) :: contents (virt (bits t) es' h'))).
    { rewrite Hclear, C'. reflexivity. }
    split; [|exact Hp]. unfold wf. cbn [bits cnt ents].
    change (eset es' (h' mod s) (0, None)) with (virt (bits t) es' h').
    split; [exact Hb|]. split; [rewrite virt_len; exact L'|].
    split; [apply Permutation_length in Hp; cbn [length] in Hp; lia|].
    split; [lia|]. split; [exact Ch'|].
    intros hs' d' Hin. apply (Hh hs' d'). apply (Permutation_in _ (Permutation_sym Hp)). right. exact Hin.
Qed.

(** ** initialisation *)
Lemma testbit_double v n : Z.testbit (2 * v) (Z.succ n) = Z.testbit v n \/ n < 0.
Proof. destruct (Z_lt_dec n 0); [auto|]. left. apply Z.testbit_even_succ. lia. Qed.

Definition drop_low v := Z.lxor v (Z.land v (- v)).
Lemma land_double a c : Z.land (2 * a) (2 * c) = 2 * Z.land a c.
Proof. rewrite <- !(Z.mul_comm _ 2), <- !(Z.shiftl_mul_pow2 _ 1) by lia. symmetry. apply Z.shiftl_land. Qed.
Lemma lxor_double a c : Z.lxor (2 * a) (2 * c) = 2 * Z.lxor a c.
Proof. rewrite <- !(Z.mul_comm _ 2), <- !(Z.shiftl_mul_pow2 _ 1) by lia. symmetry. apply Z.shiftl_lxor. Qed.
Lemma drop_low_even v : drop_low (2 * v) = 2 * drop_low v.
Proof. unfold drop_low. replace (- (2 * v)) with (2 * (- v)) by ring. rewrite land_double, lxor_double. reflexivity. Qed.
Lemma drop_low_odd v : drop_low (2 * v + 1) = 2 * v.
Proof.
  unfold drop_low. replace (- (2 * v + 1)) with (Z.lnot (2 * v)) by (unfold Z.lnot; lia).
  assert (E : Z.land (2 * v + 1) (Z.lnot (2 * v)) = 1).
  { apply Z.bits_inj'. intros n Hn. rewrite Z.land_spec, Z.lnot_spec by exact Hn.
    destruct (Z.eq_dec n 0) as [->|].
    - rewrite Z.testbit_odd_0, Z.testbit_even_0. reflexivity.
    - replace n with (Z.succ (Z.pred n)) by lia.
      rewrite Z.testbit_odd_succ, Z.testbit_even_succ by lia.
      rewrite andb_negb_r. symmetry. rewrite Z.bits_above_log2; [reflexivity|lia|cbn; lia]. }
  rewrite E. apply Z.bits_inj'. intros n Hn. rewrite Z.lxor_spec.
  destruct (Z.eq_dec n 0) as [->|].
  - rewrite Z.testbit_odd_0, Z.testbit_even_0. reflexivity.
  - replace n with (Z.succ (Z.pred n)) by lia.
    rewrite Z.testbit_odd_succ, Z.testbit_even_succ by lia.
    rewrite (Z.bits_above_log2 1) by (cbn; lia). apply xorb_false_r.
Qed.
(** the loop strips the low bits one by one and returns the highest *)
Lemma drop_low_spec p : drop_low (Zpos p) = 0 /\ Zpos p = 2 ^ Z.log2 (Zpos p) \/
  0 < drop_low (Zpos p) < Zpos p /\ Z.log2 (drop_low (Zpos p)) = Z.log2 (Zpos p).
Proof.
  induction p as [p IH|p IH|].
  - right. rewrite Pos2Z.inj_xI, drop_low_odd. split; [lia|].
    rewrite Z.log2_double, Z.log2_succ_double by lia. reflexivity.
  - rewrite Pos2Z.inj_xO, drop_low_even, Z.log2_double by lia.
    destruct IH as [[E P]|[B L]].
    + left. rewrite E. split; [reflexivity|]. rewrite Z.pow_succ_r by apply Z.log2_nonneg. lia.
    + right. split; [lia|]. rewrite Z.log2_double by lia. lia.
  - left. split; reflexivity.
Qed.
(** number of set bits *)
Fixpoint pop (p : positive) : nat := match p with xH => 1 | xO p => pop p | xI p => S (pop p) end.
Definition zpop v := match v with Zpos p => pop p | _ => O end.
Lemma zpop_double v : zpop (2 * v) = zpop v.
Proof. destruct v; reflexivity. Qed.
Lemma pop_drop p : S (zpop (drop_low (Zpos p))) = pop p.
Proof.
  induction p as [p IH|p IH|].
  - rewrite Pos2Z.inj_xI, drop_low_odd, zpop_double. reflexivity.
  - rewrite Pos2Z.inj_xO, drop_low_even, zpop_double. exact IH.
  - reflexivity.
Qed.
Lemma round_up_loop_ok fuel : forall v old, 0 < v -> (zpop v < fuel)%nat ->
  round_up_loop fuel v old = 2 ^ Z.log2 v.
Proof.
  induction fuel as [|f IH]; intros v old Hv Hf; [lia|]. cbn [round_up_loop].
  destruct (Z.eqb_spec v 0); [lia|]. fold (drop_low v).
  destruct v as [|p|p]; try lia. pose proof (pop_drop p) as Pd. cbn [zpop] in Hf.
  destruct (drop_low_spec p) as [[E P]|[B L]].
  - rewrite E. destruct f; cbn [round_up_loop]; [exact P|]. exact P.
  - rewrite IH; [rewrite L; reflexivity|lia|lia].
Qed.
Lemma pop_size p : (pop p <= Pos.size_nat p)%nat.
Proof. induction p; cbn; lia. Qed.
Lemma size_nat_log2 p : Z.of_nat (Pos.size_nat p) = Z.log2 (Zpos p) + 1.
Proof.
  induction p as [p IH|p IH|].
  - rewrite Pos2Z.inj_xI, Z.log2_succ_double by lia. cbn [Pos.size_nat]. lia.
  - rewrite Pos2Z.inj_xO, Z.log2_double by lia. cbn [Pos.size_nat]. lia.
  - reflexivity.
Qed.
Lemma ffs_pow2 n : 0 <= n -> ffs (2 ^ n) = n + 1.
Proof.
  intros Hn. pattern n. apply natlike_ind; [reflexivity| |exact Hn]. clear n Hn. intros n Hn IH.
  rewrite Z.pow_succ_r by exact Hn. assert (0 < 2 ^ n) by (apply Z.pow_pos_nonneg; lia).
  destruct (2 ^ n) as [|p|p] eqn:E; try lia. cbn [Z.mul Pos.mul]. cbn [ffs ffs_pos] in *. lia.
Qed.

Lemma table_init_ok m : m < 2 ^ 28 ->
  exists b, @table_init D m = mkt b 0 (repeat (0, None) (Z.to_nat (2 ^ b))) /\ 2 <= b < 31 /\
    (* there is room for [m] entries without growing *)
    4 * (m - 1) < 3 * 2 ^ b.
Proof.
  intros Hm. unfold table_init. set (m' := if m <? 2 then 2 else m).
  assert (Hm' : 2 <= m' < 2 ^ 28 /\ m <= m').
  { unfold m'. destruct (Z.ltb_spec m 2); lia. }
  clearbody m'. set (v := 4 * (m' + 1) / 3 - 1).
  assert (Hv : 3 <= v < 2 ^ 30 /\ 4 * (m' + 1) - 5 <= 3 * v).
  { unfold v. pose proof (Z.div_mod (4 * (m' + 1)) 3 ltac:(lia)).
    pose proof (Z.mod_pos_bound (4 * (m' + 1)) 3 ltac:(lia)). lia. }
  clearbody v. pose proof (Z.log2_spec v ltac:(lia)) as [L1 L2].
  assert (Hlog : 1 <= Z.log2 v < 30).
  { split.
    - change 1 with (Z.log2 3). apply Z.log2_le_mono. lia.
    - apply Z.log2_lt_pow2; lia. }
  unfold round_up. rewrite round_up_loop_ok.
  2: lia.
  2:{ destruct v as [|p|p]; try lia. cbn [zpop]. pose proof (pop_size p). pose proof (size_nat_log2 p). lia. }
  rewrite <- Z.pow_succ_r by lia.
  assert (Hsm : 2 ^ Z.succ (Z.log2 v) < 2 ^ 32) by (apply Z.pow_lt_mono_r; lia).
  assert (0 < 2 ^ Z.succ (Z.log2 v)) by (apply Z.pow_pos_nonneg; lia).
  rewrite Z.mod_small by lia. rewrite ffs_pow2 by lia.
  replace (Z.succ (Z.log2 v) + 1 - 1) with (Z.succ (Z.log2 v)) by ring.
  eexists. split; [reflexivity|]. split; [lia|]. lia.
Qed.

(** ** the client *)
Section Client.
Context {K : Type}.
Variables (key : D -> K) (keqb : K -> K -> bool) (hashf : K -> Z).
Hypothesis keqb_ok : forall a c, keqb a c = true <-> a = c.
Hypothesis hashf_ok : forall k, 0 <= hashf k < 2 ^ 32.

(** the table [t] represents the map [M] *)
Definition rep (t : table D) (M : amap K D) : Prop :=
  wf t /\
  (forall hs d, In (hs, d) (contents (ents t)) -> hs = hashf (key d)) /\
  NoDup (map (fun c => key (snd c)) (contents (ents t))) /\
  forall d, In (hashf (key d), d) (contents (ents t)) <-> M (key d) = Some d.

Definition mok (M : amap K D) : Prop := forall k d, M k = Some d -> key d = k.

Lemma rep_perm_in t M k d : rep t M -> mok M -> M k = Some d -> In (hashf k, d) (contents (ents t)).
Proof. intros (_ & _ & _ & H) HM E. rewrite <- (HM _ _ E). apply H. rewrite (HM _ _ E). exact E. Qed.

Lemma eq_tot k (P : D -> Prop) : forall d, P d -> Some (keqb (key d) k) <> None. Proof. discriminate. Qed.

Lemma key_false a c : a <> c -> keqb a c = false.
Proof. intros H. destruct (keqb a c) eqn:E; [apply keqb_ok in E; contradiction|reflexivity]. Qed.

Lemma absent t M k : rep t M -> mok M ->
  (forall d, In (hashf k, d) (contents (ents t)) -> Some (keqb (key d) k) = Some false) -> M k = None.
Proof.
  intros R HM H. destruct (M k) as [d|] eqn:E; [|reflexivity].
  pose proof (rep_perm_in t M k d R HM E) as Hin. specialize (H _ Hin).
  assert (keqb (key d) k = true) by (apply keqb_ok; exact (HM _ _ E)). congruence.
Qed.

Lemma foreach_contents (t : table D) : foreach_list t = map snd (contents (ents t)).
Proof.
  unfold foreach_list, contents. induction (ents t) as [|[h [d|]] es IH]; cbn; auto. f_equal. exact IH.
Qed.

Lemma insert_new t0 t M d h t' : rep t M -> mok M -> wf t0 ->
  Permutation (contents (ents t0)) (contents (ents t)) -> M (key d) = None ->
  reserved t0 (hashf (key d)) h t' ->
  let t'' := mkt (bits t') (cnt t') (eset (ents t') h (hashf (key d), Some d)) in
  eget (ents t') h = (hashf (key d), None) /\ cnt t'' = cnt t + 1 /\
  exists M', rep t'' M' /\ mok M' /\ M' (key d) = Some d /\ (forall k, k <> key d -> M' k = M k).
Proof.
  intros (Hwf & Hhash & Hnd & Hin) HM W0 P0 Hnone R t''.
  destruct (reserved_fill t0 _ h t' d W0 (hashf_ok (key d)) R) as (Eg & W & Eb & P).
  split; [exact Eg|]. split.
  { destruct W as (_ & _ & Wc & _). destruct Hwf as (_ & _ & Hc & _).
    apply Permutation_length in P. apply Permutation_length in P0. fold t'' in P, Wc. cbn [length] in P.
    rewrite Wc, P, P0. lia. }
  assert (Pt : Permutation (contents (ents t'')) ((hashf (key d), d) :: contents (ents t))).
  { exact (Permutation_trans P (perm_skip _ P0)). }
  exists (fun k => if keqb k (key d) then Some d else M k).
  split; [split; [exact W|split; [|split]]|split; [|split]].
  - intros hs d' Hd'. apply (Permutation_in _ Pt) in Hd' as [E|Hd']; [congruence|exact (Hhash _ _ Hd')].
  - eapply Permutation_NoDup; [apply Permutation_map; symmetry; exact Pt|]. cbn [map snd].
    constructor; [|exact Hnd]. intros Hc. apply in_map_iff in Hc as ([hs d'] & Ek & Hd'). cbn [snd] in Ek.
    rewrite (Hhash _ _ Hd') in Hd'. apply Hin in Hd'. rewrite Ek in Hd'. congruence.
  - intros d'. split.
    + intros Hd'. apply (Permutation_in _ Pt) in Hd' as [E|Hd'].
      * injection E as _ <-. replace (keqb (key d) (key d)) with true; [reflexivity|].
        symmetry. apply keqb_ok. reflexivity.
      * apply Hin in Hd'. rewrite key_false; [exact Hd'|]. intros E. congruence.
    + destruct (keqb (key d') (key d)) eqn:E.
      * intros Heq. injection Heq as <-. apply (Permutation_in _ (Permutation_sym Pt)). left. reflexivity.
      * intros Heq. apply (Permutation_in _ (Permutation_sym Pt)). right. apply Hin. exact Heq.
  - intros k d' E. destruct (keqb k (key d)) eqn:Ek.
    + apply keqb_ok in Ek. congruence.
    + exact (HM _ _ E).
  - replace (keqb (key d) (key d)) with true; [reflexivity|]. symmetry. apply keqb_ok. reflexivity.
  - intros k Hk. rewrite key_false by exact Hk. reflexivity.
Qed.

Lemma remove_rep t t' M d hs : rep t M -> mok M -> wf t' -> 
  Permutation (contents (ents t)) ((hs, d) :: contents (ents t')) ->
  exists M', rep t' M' /\ mok M' /\ M' (key d) = None /\ (forall k, k <> key d -> M' k = M k).
Proof.
  intros (Hwf & Hhash & Hnd & Hin) HM W P.
  exists (fun k => if keqb k (key d) then None else M k).
  assert (Hnd' : NoDup (key d :: map (fun c => key (snd c)) (contents (ents t')))).
  { exact (Permutation_NoDup (Permutation_map (fun c => key (snd c)) P) Hnd). }
  apply NoDup_cons_iff in Hnd' as [Hni Hnd'].
  split; [split; [exact W|split; [|split]]|split; [|split]].
  - intros hs' d' Hd'. apply (Hhash hs' d'). apply (Permutation_in _ (Permutation_sym P)). right. exact Hd'.
  - exact Hnd'.
  - intros d'. split.
    + intros Hd'. rewrite key_false.
      * apply Hin. apply (Permutation_in _ (Permutation_sym P)). right. exact Hd'.
      * intros E. apply Hni. rewrite <- E. apply in_map_iff. exists (hashf (key d'), d'). auto.
    + destruct (keqb (key d') (key d)) eqn:E; [discriminate|]. intros Hm. apply Hin in Hm.
      apply (Permutation_in _ P) in Hm as [Eq|Hm]; [|exact Hm]. injection Eq as _ <-.
      assert (keqb (key d) (key d) = true) by (apply keqb_ok; reflexivity). congruence.
  - intros k d' E. destruct (keqb k (key d)); [discriminate|exact (HM _ _ E)].
  - replace (keqb (key d) (key d)) with true; [reflexivity|]. symmetry. apply keqb_ok. reflexivity.
  - intros k Hk. rewrite key_false by exact Hk. reflexivity.
Qed.

Lemma hexec_ok o t M : rep t M -> mok M -> (match o with OInsert _ _ => cnt t < 2 ^ 29 - 1 | _ => True end) ->
  exists r t' M', hexec key keqb hashf o t = (r, t') /\ step key M o r M' /\ rep t' M' /\ mok M' /\
    cnt t' <= cnt t + (match o with OInsert _ _ => 1 | _ => 0 end).
Proof.
  intros R HM Hc. pose proof R as (Hwf & Hhash & Hnd & Hin).
  assert (Hfound : forall k h d, slot (ents t) h = Some (hashf k, d) -> Some (keqb (key d) k) = Some true -> M k = Some d).
  { intros k h d Sl Eq. injection Eq as Eq. apply keqb_ok in Eq.
    apply slot_contents in Sl. rewrite <- Eq in Sl. apply Hin in Sl. congruence. }
  assert (Hget : forall h hs d, slot (ents t) h = Some (hs, d) -> eget (ents t) h = (hs, Some d)).
  { intros h hs d Sl. unfold slot in Sl. destruct (eget (ents t) h) as [? [?|]]; congruence. }
  destruct o as [k|d alloc|k|]; cbn [hexec].
  - destruct (find_plain true t (hashf k) (fun d => Some (keqb (key d) k)) Hwf (hashf_ok k) (eq_tot k _))
      as [(h & d & Hr & Sl & Eq & E)|(N & E)]; rewrite E.
    + rewrite (Hget _ _ _ Sl). cbn [snd]. rewrite <- (Hfound k h d Sl Eq).
      exists (RData (M k)), t, M. 
      split; [reflexivity|]. split; [apply step_find|]. split; [exact R|]. split; [exact HM|lia].
    + exists (RData (M k)), t, M. rewrite (absent t M k R HM N) at 1.
      
      split; [reflexivity|]. split; [apply step_find|]. split; [exact R|]. split; [exact HM|lia].
  - destruct (find_reserve alloc t (hashf (key d)) (fun d' => Some (keqb (key d') (key d))) Hwf (hashf_ok _) (eq_tot _ _) Hc)
      as [(h & d' & Hr & Sl & Eq & E)|[(N & h & t0 & t' & E & W0 & P0 & Rs)|(Ea & N & E)]]; rewrite E.
    + rewrite (Hget _ _ _ Sl). exists (RData (Some d')), t, M.
      split; [reflexivity|]. split; [apply step_insert_old; exact (Hfound _ h d' Sl Eq)|].
      split; [exact R|]. split; [exact HM|lia].
    + destruct (insert_new t0 t M d h t' R HM W0 P0 (absent t M _ R HM N) Rs) as (Eg & Ec & M' & R' & HM' & E1 & E2).
      rewrite Eg. eexists _, _, M'. split; [reflexivity|].
      split; [apply step_insert_new; auto; exact (absent t M _ R HM N)|].
      split; [exact R'|]. split; [exact HM'|]. rewrite Ec. lia.
    + subst alloc. exists RNull, t, M. split; [reflexivity|].
      split; [apply step_insert_oom; exact (absent t M _ R HM N)|].
      split; [exact R|]. split; [exact HM|lia].
  - destruct (find_plain true t (hashf k) (fun d => Some (keqb (key d) k)) Hwf (hashf_ok k) (eq_tot k _))
      as [(h & d & Hr & Sl & Eq & E)|(N & E)]; rewrite E.
    + destruct (remove_ok t h _ d Hwf Hr Sl) as (t' & Er & W' & P'). rewrite Er.
      rewrite (Hget _ _ _ Sl). cbn [snd].
      destruct (remove_rep t t' M d _ R HM W' P') as (M' & R' & HM' & E1 & E2).
      assert (Ek : key d = k) by (apply keqb_ok; congruence).
      rewrite Ek in E1, E2.
      rewrite <- (Hfound k h d Sl Eq). exists (RData (M k)), t', M'.
      split; [reflexivity|]. split; [apply step_remove; auto|]. split; [exact R'|]. split; [exact HM'|].
      destruct W' as (_ & _ & -> & _). destruct Hwf as (_ & _ & -> & _).
      apply Permutation_length in P'. cbn [length] in P'. lia.
    + exists (RData (M k)), t, M. pose proof (absent t M k R HM N) as Ab. rewrite Ab at 1.
      split; [reflexivity|]. split; [apply step_remove; auto|]. split; [exact R|]. split; [exact HM|lia].
  - exists (RList (foreach_list t)), t, M. split; [reflexivity|]. split; [|split; [exact R|split; [exact HM|lia]]].
    rewrite foreach_contents. constructor.
    + apply (NoDup_map_inv key). rewrite map_map. exact Hnd.
    + intros d. rewrite <- Hin. rewrite in_map_iff. split.
      * intros ([hs d'] & E & H). cbn in E. subst d'. rewrite (Hhash _ _ H) in H. exact H.
      * intros H. exists (hashf (key d), d). auto.
Qed.

Lemma hexec_all_ok os : forall t M, rep t M -> mok M -> cnt t + inserts os < 2 ^ 29 ->
  exists rs t' M', hexec_all key keqb hashf os t = (rs, t') /\ steps key M os rs M' /\ rep t' M'.
Proof.
  assert (Hge : forall os : list (hop K D), 0 <= inserts os).
  { intros l. induction l as [|[] l IH]; cbn [inserts]; lia. }
  induction os as [|o os IH]; intros t M R HM Hc; cbn [hexec_all].
  - exists [], t, M. split; [reflexivity|]. split; [constructor|exact R].
  - pose proof (Hge os). 
    destruct (hexec_ok o t M R HM) as (r & t1 & M1 & E1 & S1 & R1 & HM1 & C1).
    { destruct o; auto. cbn [inserts] in Hc. lia. }
    rewrite E1.
    destruct (IH t1 M1 R1 HM1) as (rs & t2 & M2 & E2 & S2 & R2).
    { destruct o; cbn [inserts] in Hc; lia. }
    rewrite E2. exists (r :: rs), t2, M2. split; [reflexivity|]. split; [econstructor; eauto|exact R2].
Qed.

Lemma init_rep m : m < 2 ^ 28 -> rep (table_init m) (fun _ => None) /\ cnt (@table_init D m) = 0.
Proof.
  intros Hm. destruct (table_init_ok m Hm) as (b & -> & Hb & _). split; [|reflexivity].
  split; [exact (empty_wf b Hb)|]. cbn [ents]. rewrite contents_repeat.
  split; [intros ? ? []|]. split; [constructor|]. intros d. split; [intros []|discriminate].
Qed.

Theorem history_ok m os : m < 2 ^ 28 -> inserts os < 2 ^ 29 ->
  exists rs t M, hexec_all key keqb hashf os (table_init m) = (rs, t) /\
    steps key (fun _ => None) os rs M.
Proof.
  intros Hm Hi. destruct (init_rep m Hm) as [R C].
  destruct (hexec_all_ok os (table_init m) (fun _ => None) R) as (rs & t & M & E & S & _).
  - intros k d E. discriminate.
  - rewrite C. lia.
  - eauto.
Qed.
End Client.
End Hash.

Lemma foreach_loop_ok {D S} (t : table D) (fn : D -> S -> option S) s :
  foreach_loop (ents t) fn s =
  fold_left (fun o d => match o with Some s => fn d s | None => None end) (foreach_list t) (Some s).
Proof.
  unfold foreach_list. revert s. induction (ents t) as [|[h [d|]] es IH]; intros s; cbn; auto.
  destruct (fn d s) as [s'|] eqn:E.
  - apply IH.
  - clear. induction (flat_map _ es); cbn; auto.
Qed.
