(** Proofs about IntModel. *)
From Coq Require Import ZArith List Bool Lia ZifyBool Zquot.
From Verif Require Import IntModel IntSpec.
Import ListNotations.
Open Scope Z_scope.

Ltac Zify.zify_post_hook ::= Z.div_mod_to_equations.

Lemma land1 w : Z.land w 1 = w mod 2.
Proof. change 1 with (Z.ones 1). rewrite Z.land_ones by lia. reflexivity. Qed.

Lemma is_small_odd w : is_small w = Z.odd w.
Proof.
  unfold is_small. rewrite land1.
  rewrite Zmod_odd. destruct (Z.odd w); reflexivity.
Qed.

Lemma is_big_even w : is_big w = Z.even w.
Proof. unfold is_big. rewrite is_small_odd, <- Z.negb_even. destruct (Z.even w); reflexivity. Qed.

Lemma encode_small_val v :
  encode_small v = (v mod 2 ^ 32) * 2 ^ 32 + 1.
Proof.
  unfold encode_small, u64.
  rewrite Z.shiftl_mul_pow2 by lia.
  set (x := (v mod 2 ^ 64 * 2 ^ 32) mod 2 ^ 64).
  assert (Hx : x = (v mod 2 ^ 32) * 2 ^ 32).
  { unfold x. change (2 ^ 64) with (2 ^ 32 * 2 ^ 32) at 2.
    rewrite Zmult_mod_distr_r. f_equal.
    change (2 ^ 64) with (2 ^ 32 * 2 ^ 32).
    rewrite Z.rem_mul_r by lia.
    rewrite Z.add_mod, (Z.mul_comm (2 ^ 32)), Z.mod_mul by lia.
    rewrite Z.add_0_r, !Z.mod_mod by lia. reflexivity. }
  rewrite Hx.
  assert (Hl : Z.land (v mod 2 ^ 32 * 2 ^ 32) 1 = 0).
  { rewrite land1. rewrite Zmult_mod. change (2 ^ 32 mod 2) with 0.
    rewrite Z.mul_0_r. reflexivity. }
  rewrite <- Z.lxor_lor by exact Hl.
  rewrite <- Z.add_nocarry_lxor by exact Hl. reflexivity.
Qed.

Lemma encode_small_is_small v : is_small (encode_small v) = true.
Proof.
  rewrite is_small_odd, encode_small_val.
  rewrite Z.add_1_r, Z.odd_succ, Z.even_mul. cbn. apply orb_true_r.
Qed.

Lemma s32_id v : - 2 ^ 31 <= v < 2 ^ 31 -> s32 v = v.
Proof.
  intros H. unfold s32. destruct (Z.leb_spec 0 v).
  - rewrite Z.mod_small by lia. destruct (Z.ltb_spec v (2 ^ 31)); lia.
  - replace (v mod 2 ^ 32) with (v + 2 ^ 32).
    + destruct (Z.ltb_spec (v + 2 ^ 32) (2 ^ 31)); lia.
    + apply Z.mod_unique with (q := -1); lia.
Qed.
Lemma s64_mod_id v : - 2 ^ 63 <= v < 2 ^ 63 -> s64 (v mod 2 ^ 64) = v.
Proof.
  intros H. unfold s64. rewrite Z.mod_mod by lia. destruct (Z.leb_spec 0 v).
  - rewrite Z.mod_small by lia. destruct (Z.ltb_spec v (2 ^ 63)); lia.
  - replace (v mod 2 ^ 64) with (v + 2 ^ 64).
    + destruct (Z.ltb_spec (v + 2 ^ 64) (2 ^ 63)); lia.
    + apply Z.mod_unique with (q := -1); lia.
Qed.
Lemma s64_id v : - 2 ^ 63 <= v < 2 ^ 63 -> s64 v = v.
Proof.
  intros H. rewrite <- (s64_mod_id v H) at 2. unfold s64. rewrite Z.mod_mod by lia. reflexivity.
Qed.

Lemma get_encode_small v : - 2 ^ 31 <= v < 2 ^ 31 -> get_small (encode_small v) = v.
Proof.
  intros Hv. unfold get_small. rewrite encode_small_val.
  rewrite Z.shiftr_div_pow2 by lia.
  rewrite Z.div_add_l by lia.
  change (1 / 2 ^ 32) with 0. rewrite Z.add_0_r.
  unfold s32. rewrite Z.mod_mod by lia. change (s32 v = v). apply s32_id; exact Hv.
Qed.

(** ** Digits *)
Lemma shiftr_eq0 n k : 0 <= n -> 0 <= k -> Z.shiftr n k = 0 -> n < 2 ^ k.
Proof.
  intros Hn Hk H. rewrite Z.shiftr_div_pow2 in H by lia.
  apply Z.div_small_iff in H; [|apply Z.pow_nonzero; lia].
  pose proof (Z.pow_pos_nonneg 2 k). lia.
Qed.

Lemma u32_digits num : 0 <= num < 2 ^ 32 -> of_digits DIGIT_BITS (uint32_to_digits num) = num.
Proof.
  intros H. unfold uint32_to_digits, DIGIT_BITS. cbn [to_digits of_digits].
  rewrite Z.mul_0_r. rewrite Z.shiftr_0_r.
  rewrite Z.mod_small by lia. lia.
Qed.

Lemma u64_digits num : 0 <= num < 2 ^ 64 -> of_digits DIGIT_BITS (uint64_to_digits num) = num.
Proof.
  intros H. unfold uint64_to_digits, DIGIT_BITS. cbn [to_digits].
  rewrite Z.mul_0_r, Z.shiftr_0_r. change (32 * (0 + 1)) with 32.
  rewrite Z.shiftr_div_pow2 by lia.
  destruct (Z.eqb_spec (num / 2 ^ 32) 0) as [E|E].
  - cbn [of_digits]. rewrite Z.mul_0_r, Z.add_0_r.
    rewrite (Z.mod_eq num (2 ^ 32)) by lia. rewrite E. lia.
  - cbn [of_digits]. rewrite Z.mul_0_r, Z.add_0_r.
    rewrite (Z.mod_small (num / 2 ^ 32)).
    2:{ split; [apply Z.div_pos; lia|]. apply Z.div_lt_upper_bound; lia. }
    rewrite Z.add_comm. symmetry. apply Z.div_mod. lia.
Qed.

Section P.
Variable alloc : heap -> option Z.
Hypothesis Halloc : alloc_spec alloc.

(** words stored in a heap are even (addresses) *)
Definition hwf (h : heap) : Prop := forall a, h a <> None -> is_big a = true.

(** [upd h d h' d' z]: the variable that held word [d] now holds [d'], which
    denotes [z]; everything else in the heap is untouched, and [d]'s big
    number is either reused or freed. *)
Record upd (h : heap) (d : Z) (h' : heap) (d' z : Z) : Prop := {
  u_val : denotes h' d' z;
  u_frame : forall a, a <> d -> a <> d' -> h' a = h a;
  u_new : is_big d' = true -> d' = d \/ h d' = None;
  u_old : is_big d = true -> d <> d' -> h' d = None;
  u_odd : is_small d' = true -> h' d' = h d';
  u_oddd : is_small d = true -> h' d = h d
}.

Lemma small_not_big w : is_small w = true -> is_big w = false.
Proof. unfold is_big. intros ->. reflexivity. Qed.
Lemma big_not_small w : is_big w = true -> is_small w = false.
Proof. unfold is_big. destruct (is_small w); [discriminate|reflexivity]. Qed.
Lemma not_small_big w : is_small w = false -> is_big w = true.
Proof. unfold is_big. intros ->. reflexivity. Qed.

Lemma denotes_small h w z : is_small w = true -> denotes h w z ->
  z = get_small w /\ - 2 ^ 31 < z < 2 ^ 31.
Proof. unfold denotes. intros ->. auto. Qed.
Lemma denotes_big h w z : is_small w = false -> denotes h w z -> h w = Some z.
Proof. unfold denotes. intros ->. auto. Qed.

Lemma encode_denotes h v : - 2 ^ 31 < v < 2 ^ 31 -> denotes h (encode_small v) v.
Proof.
  intros H. unfold denotes. rewrite encode_small_is_small.
  rewrite get_encode_small by lia. split; [reflexivity|lia].
Qed.

Definition owned (h : heap) (d : Z) : Prop := is_big d = true -> h d <> None.

Lemma denotes_owned h d z : denotes h d z -> owned h d.
Proof. unfold denotes, owned. intros H Hb. rewrite (big_not_small _ Hb) in H. congruence. Qed.

(** ** set_small *)
Lemma set_small_spec h d v :
  owned h d -> - 2 ^ 31 < v < 2 ^ 31 ->
  exists d' h', set_small d v h = Ok (d', h') /\ upd h d h' d' v.
Proof.
  intros Ho Hv. unfold set_small.
  assert (Hs : s32 v = v) by (apply s32_id; lia).
  destruct (is_big d) eqn:Hb.
  - unfold bind, mp_free. specialize (Ho Hb).
    destruct (h d) as [x|] eqn:Hd; [|congruence].
    unfold ret. rewrite Hs. eexists _, _. split; [reflexivity|].
    constructor.
    + apply encode_denotes; lia.
    + intros a H1 H2. unfold hupd. destruct (Z.eqb_spec a d); congruence.
    + intros Hbig. pose proof (encode_small_is_small v) as He.
      rewrite (big_not_small _ Hbig) in He. discriminate.
    + intros _ _. unfold hupd. rewrite Z.eqb_refl. reflexivity.
    + intros He. unfold hupd. destruct (Z.eqb_spec (encode_small v) d) as [E|E]; [|reflexivity].
      rewrite <- E in Hb. rewrite (big_not_small _ Hb) in He. discriminate.
    + intros He. rewrite (big_not_small _ Hb) in He. discriminate.
  - unfold ret. rewrite Hs. eexists _, _. split; [reflexivity|].
    constructor; try tauto; try congruence.
    + apply encode_denotes; lia.
    + intros Hbig. pose proof (encode_small_is_small v) as He.
      rewrite (big_not_small _ Hbig) in He. discriminate.
Qed.

(** ** reinit_big followed by a store *)
Definition store_big (d : Z) (v : Z) : M Z :=
  a <- reinit_big alloc d ;; _u <- mp_store a v ;; ret a.

Lemma alloc_big h a : alloc h = Some a -> is_big a = true /\ h a = None.
Proof. intros H. apply Halloc in H. rewrite is_big_even. tauto. Qed.

(** reinit_big either fails with OOM or gives a big word whose contents may be
    overwritten; the rest of the heap is unchanged. *)
Lemma reinit_big_spec h d :
  owned h d ->
  reinit_big alloc d h = OOM \/
  exists a h', reinit_big alloc d h = Ok (a, h') /\ is_big a = true /\
    h' a <> None /\ (forall b, b <> a -> h' b = h b) /\
    (a = d /\ h' = h \/ (is_small d = true /\ h a = None)).
Proof.
  intros Ho. unfold reinit_big. destruct (is_small d) eqn:Hs.
  - unfold mp_alloc. destruct (alloc h) as [a|] eqn:Ha; [|left; reflexivity].
    right. destruct (alloc_big _ _ Ha) as [Hb Hn].
    exists a, (hupd h a (Some 0)). split; [reflexivity|]. split; [exact Hb|].
    split; [unfold hupd; rewrite Z.eqb_refl; discriminate|].
    split; [|right; auto].
    intros b Hne. unfold hupd. destruct (Z.eqb_spec b a); congruence.
  - right. exists d, h. split; [reflexivity|].
    apply not_small_big in Hs. split; [exact Hs|]. split; [apply Ho; exact Hs|].
    split; [reflexivity|left; auto].
Qed.

(** values read through pointers are not affected by reinit_big *)
Definition ptr_ok (h : heap) (p : mpptr) (v : Z) : Prop :=
  match p with Scratch x => x = v | Ptr a => h a = Some v /\ is_big a = true end.

Lemma ptr_ok_stable h h' a p v :
  ptr_ok h p v -> (forall b, b <> a -> h' b = h b) ->
  (h' a = h a \/ h a = None) -> ptr_ok h' p v.
Proof.
  destruct p as [x|b]; cbn; [auto|]. intros [Hb Hbig] Hf Ha.
  split; [|exact Hbig]. destruct (Z.eq_dec b a) as [->|Hne].
  - destruct Ha as [Ha|Ha]; congruence.
  - rewrite Hf by exact Hne. exact Hb.
Qed.

Lemma deref_ok h p v : ptr_ok h p v -> deref p h = Ok (v, h).
Proof. destruct p; cbn; [intros ->; reflexivity|intros [-> _]; reflexivity]. Qed.

Lemma bigarg_spec h w z :
  denotes h w z ->
  exists p, bigarg_src w h = Ok (p, h) /\ ptr_ok h p z.
Proof.
  intros Hd. unfold bigarg_src. destruct (is_big w) eqn:Hb.
  - exists (Ptr w). split; [reflexivity|]. cbn. split; [|exact Hb].
    apply denotes_big; [apply big_not_small; exact Hb|exact Hd].
  - assert (Hs : is_small w = true) by (unfold is_big in Hb; destruct (is_small w); [reflexivity|discriminate]).
    destruct (denotes_small _ _ _ Hs Hd) as [Hz Hr]. rewrite <- Hz.
    destruct (Z.leb_spec 0 z).
    + eexists. split; [reflexivity|]. cbn [ptr_ok]. unfold mpz, u32.
      rewrite Z.mod_small by lia. apply u32_digits. lia.
    + unfold bind, chk32, in_s32, INT32_MIN, INT32_MAX.
      destruct (Z.leb_spec (-2147483648) (- z)); [|lia].
      destruct (Z.leb_spec (- z) 2147483647); [|lia]. cbn [andb ret].
      eexists. split; [reflexivity|]. cbn [ptr_ok]. unfold mpz, u32.
      rewrite Z.mod_small by lia. rewrite u32_digits by lia. lia.
Qed.

Lemma in_s64_true x : - 2 ^ 63 <= x < 2 ^ 63 -> in_s64 x = true.
Proof. unfold in_s64, INT64_MIN, INT64_MAX. lia. Qed.
Lemma in_s32_true x : - 2 ^ 31 <= x < 2 ^ 31 -> in_s32 x = true.
Proof. unfold in_s32, INT32_MIN, INT32_MAX. lia. Qed.
Lemma chk64_ok x h : - 2 ^ 63 <= x < 2 ^ 63 -> chk64 x h = Ok (x, h).
Proof. intros H. unfold chk64. rewrite in_s64_true by lia. reflexivity. Qed.
Lemma chk32_ok x h : - 2 ^ 31 <= x < 2 ^ 31 -> chk32 x h = Ok (x, h).
Proof. intros H. unfold chk32. rewrite in_s32_true by lia. reflexivity. Qed.

Lemma si64arg_spec h v : - 2 ^ 63 <= v < 2 ^ 63 ->
  exists p, si64arg_src v h = Ok (p, h) /\ ptr_ok h p v.
Proof.
  intros Hv. unfold si64arg_src. destruct (Z.leb_spec 0 v).
  - eexists. split; [reflexivity|]. cbn [ptr_ok]. unfold mpz, u64.
    rewrite Z.mod_small by lia. apply u64_digits. lia.
  - unfold INT64_MIN, INT64_MAX. destruct (Z.eqb_spec v (-9223372036854775808)) as [->|Hne].
    + eexists. split; [reflexivity|]. cbn [ptr_ok]. reflexivity.
    + unfold bind. rewrite chk64_ok by lia.
      eexists. split; [reflexivity|]. cbn [ptr_ok]. unfold mpz, u64.
      rewrite Z.mod_small by lia. rewrite u64_digits by lia. lia.
Qed.

Lemma siarg_spec h v : - 2 ^ 63 <= v < 2 ^ 63 ->
  exists p, siarg_src v h = Ok (p, h) /\ ptr_ok h p v.
Proof. exact (si64arg_spec h v). Qed.

Lemma uiarg_spec h v : 0 <= v < 2 ^ 64 ->
  exists p, uiarg_src v h = Ok (p, h) /\ ptr_ok h p v.
Proof.
  intros Hv. unfold uiarg_src. eexists. split; [reflexivity|]. cbn [ptr_ok].
  unfold mpz. apply u64_digits. lia.
Qed.

(** ** storing a value into the destination's big number *)
Lemma store_upd h d a h1 v :
  is_big a = true ->
  (forall b, b <> a -> h1 b = h b) ->
  (a = d /\ h1 = h \/ (is_small d = true /\ h a = None)) ->
  upd h d (hupd h1 a (Some v)) a v.
Proof.
  intros Hb Hf Hc. constructor.
  - unfold denotes. rewrite (big_not_small _ Hb). unfold hupd. rewrite Z.eqb_refl. reflexivity.
  - intros b H1 H2. unfold hupd. destruct (Z.eqb_spec b a); [congruence|]. apply Hf; congruence.
  - intros _. destruct Hc as [[-> _]|[_ Hn]]; auto.
  - intros Hd Hne. destruct Hc as [[-> _]|[Hs _]]; [congruence|].
    rewrite (big_not_small _ Hd) in Hs. discriminate.
  - intros Hs. rewrite (big_not_small _ Hb) in Hs. discriminate.
  - intros Hs. unfold hupd. destruct (Z.eqb_spec d a) as [E|E].
    + rewrite <- E in Hb. rewrite (big_not_small _ Hb) in Hs. discriminate.
    + apply Hf. congruence.
Qed.

Lemma upd_trans h d h1 d1 z1 h2 d2 z2 :
  hwf h ->
  upd h d h1 d1 z1 -> upd h1 d1 h2 d2 z2 -> upd h d h2 d2 z2.
Proof.
  intros Hwf [V1 F1 N1 O1 S1 T1] [V2 F2 N2 O2 S2 T2].
  assert (Hodd : forall w, is_small w = true -> h w = None).
  { intros w Hw. destruct (h w) eqn:E; [|reflexivity].
    assert (Hb : is_big w = true) by (apply Hwf; congruence).
    rewrite (big_not_small _ Hb) in Hw. discriminate. }
  assert (Hor : forall w, is_small w = true \/ is_big w = true).
  { intros w. unfold is_big. destruct (is_small w); auto. }
  constructor.
  - exact V2.
  - intros a H1 H2.
    destruct (Z.eq_dec a d1) as [->|Hne].
    + destruct (Hor d1) as [Hs|Hb].
      * rewrite (T2 Hs). apply S1. exact Hs.
      * rewrite O2 by congruence. destruct (N1 Hb) as [E|E]; congruence.
    + rewrite F2 by congruence. apply F1; congruence.
  - intros Hb2. destruct (N2 Hb2) as [->|Hn].
    + apply N1. exact Hb2.
    + destruct (Z.eq_dec d2 d) as [->|Hne]; [left; reflexivity|].
      destruct (Z.eq_dec d2 d1) as [->|Hne1]; [apply N1; exact Hb2|].
      right. rewrite <- F1 by congruence. exact Hn.
  - intros Hb Hne. destruct (Z.eq_dec d d1) as [->|Hne1].
    + apply O2; assumption.
    + specialize (O1 Hb Hne1). destruct (Hor d2) as [Hs2|Hb2].
      * rewrite F2 by congruence. exact O1.
      * rewrite F2 by congruence. exact O1.
  - intros Hs. rewrite (S2 Hs). destruct (Z.eq_dec d2 d) as [->|Hne]; [apply T1; exact Hs|].
    destruct (Z.eq_dec d2 d1) as [->|Hne1]; [apply S1; exact Hs|]. apply F1; congruence.
  - intros Hs. destruct (Z.eq_dec d d1) as [->|Hne1].
    + rewrite (T2 Hs). apply T1; exact Hs.
    + destruct (Z.eq_dec d d2) as [->|Hne2].
      * rewrite (S2 Hs). apply T1; exact Hs.
      * rewrite F2 by congruence. apply T1; exact Hs.
Qed.

Lemma upd_hwf h d h' d' z : hwf h -> upd h d h' d' z -> hwf h'.
Proof.
  intros Hwf [V F N O S T] a Ha.
  destruct (Z.eq_dec a d') as [->|Hne].
  - destruct (is_small d') eqn:Hs; [|apply not_small_big; exact Hs].
    rewrite (S eq_refl) in Ha. apply Hwf in Ha. rewrite (big_not_small _ Ha) in Hs. discriminate.
  - destruct (Z.eq_dec a d) as [->|Hned].
    + destruct (is_small d) eqn:Hs; [|apply not_small_big; exact Hs].
      rewrite (T eq_refl) in Ha. apply Hwf in Ha. exact Ha.
    + rewrite F in Ha by congruence. apply Hwf. exact Ha.
Qed.

Lemma upd_owned h d h' d' z : upd h d h' d' z -> owned h' d'.
Proof. intros [V _ _ _ _ _]. eapply denotes_owned; exact V. Qed.

Lemma fits_small_true v : fits_small v = true <-> - 2 ^ 31 < v < 2 ^ 31.
Proof. unfold fits_small, SMALL_MIN, SMALL_MAX, INT32_MAX. lia. Qed.

Lemma try_demote_spec h d z :
  denotes h d z ->
  exists d' h', try_demote d h = Ok (d', h') /\ upd h d h' d' z.
Proof.
  intros Hd. unfold try_demote. destruct (is_small d) eqn:Hs.
  - exists d, h. split; [reflexivity|]. constructor; auto; try congruence.
  - pose proof (denotes_big _ _ _ Hs Hd) as Hv.
    unfold bind. cbn [deref]. rewrite Hv.
    assert (Hid : upd h d h d z) by (constructor; auto; congruence).
    destruct (negb (fits_long z)); [exists d, h; split; [reflexivity|exact Hid]|].
    destruct (fits_small z) eqn:Hf; [|exists d, h; split; [reflexivity|exact Hid]].
    apply fits_small_true in Hf. apply set_small_spec; [|exact Hf].
    eapply denotes_owned; exact Hd.
Qed.

(** A computation on the destination [d] that must produce [z]. *)
Definition computes (h : heap) (d : Z) (m : M Z) (z : Z) : Prop :=
  m h = OOM \/ exists d' h', m h = Ok (d', h') /\ upd h d h' d' z.

Lemma computes_bind_ok {A} h d (m : M A) k x z :
  m h = Ok (x, h) -> computes h d (k x) z -> computes h d (bind m k) z.
Proof. intros E H. unfold computes, bind in *. rewrite E. exact H. Qed.

Lemma set_small_computes h d v :
  owned h d -> - 2 ^ 31 < v < 2 ^ 31 -> computes h d (set_small d v) v.
Proof. intros. right. apply set_small_spec; assumption. Qed.

Lemma big_op2_computes h d f demote pl pr x y :
  hwf h -> owned h d -> ptr_ok h pl x -> ptr_ok h pr y ->
  computes h d (big_op2 alloc f demote d pl pr) (f x y).
Proof.
  intros Hwf Ho Hl Hr. unfold computes, big_op2, bind.
  destruct (reinit_big_spec h d Ho) as [E|(a & h1 & E & Hb & Hne & Hf & Hc)]; rewrite E; [auto|].
  assert (Hst : h1 a = h a \/ h a = None).
  { destruct Hc as [[-> ->]|[_ Hn]]; auto. }
  rewrite (deref_ok h1 pl x) by (eapply ptr_ok_stable; eauto).
  rewrite (deref_ok h1 pr y) by (eapply ptr_ok_stable; eauto).
  unfold mp_store. destruct (h1 a) eqn:Ha; [|congruence].
  assert (Hu : upd h d (hupd h1 a (Some (f x y))) a (f x y)) by (apply store_upd; auto).
  destruct demote.
  - destruct (try_demote_spec (hupd h1 a (Some (f x y))) a (f x y)) as (d' & h' & E' & U').
    { apply Hu. }
    right. exists d', h'. split; [exact E'|]. eapply upd_trans; eauto.
  - right. eexists _, _. split; [reflexivity|]. exact Hu.
Qed.

Lemma big_div_computes h d f pl pr x y :
  hwf h -> owned h d -> ptr_ok h pl x -> ptr_ok h pr y -> y <> 0 ->
  computes h d (big_div alloc f d pl pr) (f x y).
Proof.
  intros Hwf Ho Hl Hr Hy. unfold computes, big_div, bind.
  destruct (reinit_big_spec h d Ho) as [E|(a & h1 & E & Hb & Hne & Hf & Hc)]; rewrite E; [auto|].
  assert (Hst : h1 a = h a \/ h a = None).
  { destruct Hc as [[-> ->]|[_ Hn]]; auto. }
  rewrite (deref_ok h1 pl x) by (eapply ptr_ok_stable; eauto).
  rewrite (deref_ok h1 pr y) by (eapply ptr_ok_stable; eauto).
  destruct (Z.eqb_spec y 0); [congruence|].
  unfold mp_store. destruct (h1 a) eqn:Ha; [|congruence].
  assert (Hu : upd h d (hupd h1 a (Some (f x y))) a (f x y)) by (apply store_upd; auto).
  destruct (try_demote_spec (hupd h1 a (Some (f x y))) a (f x y)) as (d' & h' & E' & U').
  { apply Hu. }
  right. exists d', h'. split; [exact E'|]. eapply upd_trans; eauto.
Qed.

(** storing a known value: set, set_si, set_ui, abs, neg in the big case *)
Lemma store_ptr_computes h d p x (f : Z -> Z) :
  hwf h -> owned h d -> ptr_ok h p x ->
  computes h d (a <- reinit_big alloc d ;; y <- deref p ;; _u <- mp_store a (f y) ;; ret a) (f x).
Proof.
  intros Hwf Ho Hp. unfold computes, bind.
  destruct (reinit_big_spec h d Ho) as [E|(a & h1 & E & Hb & Hne & Hf & Hc)]; rewrite E; [auto|].
  assert (Hst : h1 a = h a \/ h a = None).
  { destruct Hc as [[-> ->]|[_ Hn]]; auto. }
  rewrite (deref_ok h1 p x) by (eapply ptr_ok_stable; eauto).
  unfold mp_store. destruct (h1 a) eqn:Ha; [|congruence].
  right. eexists _, _. split; [reflexivity|]. apply store_upd; auto.
Qed.

Lemma store_val_computes h d x :
  hwf h -> owned h d ->
  computes h d (a <- reinit_big alloc d ;; _u <- mp_store a x ;; ret a) x.
Proof.
  intros Hwf Ho. exact (store_ptr_computes h d (Scratch x) x (fun y => y) Hwf Ho eq_refl).
Qed.

Lemma set_int64_computes h d v :
  hwf h -> owned h d -> - 2 ^ 63 <= v < 2 ^ 63 -> computes h d (set_int64 alloc d v) v.
Proof.
  intros Hwf Ho Hv. unfold set_int64. destruct (fits_small v) eqn:Hf.
  - apply fits_small_true in Hf. apply set_small_computes; assumption.
  - destruct (si64arg_spec h v Hv) as (p & E & Hp).
    eapply computes_bind_ok; [exact E|].
    exact (store_ptr_computes h d p v (fun y => y) Hwf Ho Hp).
Qed.

Lemma computes_eq h d m z z' : z = z' -> computes h d m z -> computes h d m z'.
Proof. intros ->; auto. Qed.

(** * The operations *)
Section Ops.
Variables (h : heap) (d l r x y : Z).
Hypothesis (Hwf : hwf h) (Hd : owned h d) (Hl : denotes h l x) (Hr : denotes h r y).

Ltac bigargs :=
  let pl := fresh "pl" in let El := fresh in let Pl := fresh in
  let pr := fresh "pr" in let Er := fresh in let Pr := fresh in
  destruct (bigarg_spec h l x Hl) as (pl & El & Pl);
  destruct (bigarg_spec h r y Hr) as (pr & Er & Pr);
  eapply computes_bind_ok; [exact El|]; eapply computes_bind_ok; [exact Er|].
Ltac smalls :=
  let Sl := fresh "Sl" in let Sr := fresh "Sr" in
  destruct (is_small l) eqn:Sl; destruct (is_small r) eqn:Sr; cbn [andb];
  try (destruct (denotes_small _ _ _ Sl Hl) as [Gl Rl]; rewrite <- ?Gl);
  try (destruct (denotes_small _ _ _ Sr Hr) as [Gr Rr]; rewrite <- ?Gr).
Ltac small_l :=
  let Sl := fresh "Sl" in
  destruct (is_small l) eqn:Sl; cbn [andb];
  try (destruct (denotes_small _ _ _ Sl Hl) as [Gl Rl]; rewrite <- ?Gl).

Lemma prod_bound a b A B : - A < a < A -> - B < b < B -> 0 < A -> 0 < B -> - (A * B) < a * b < A * B.
Proof. intros. nia. Qed.

Lemma add_computes : computes h d (add alloc d l r) (x + y).
Proof.
  unfold add. smalls.
  1: eapply computes_bind_ok; [apply chk64_ok; lia|]; apply set_int64_computes; auto; lia.
  all: bigargs; apply big_op2_computes; assumption.
Qed.
Lemma sub_computes : computes h d (sub alloc d l r) (x - y).
Proof.
  unfold sub. smalls.
  1: eapply computes_bind_ok; [apply chk64_ok; lia|]; apply set_int64_computes; auto; lia.
  all: bigargs; apply big_op2_computes; assumption.
Qed.
Lemma mul_computes : computes h d (mul alloc d l r) (x * y).
Proof.
  unfold mul. smalls.
  1: { pose proof (prod_bound x y (2^31) (2^31) Rl Rr ltac:(lia) ltac:(lia)).
       eapply computes_bind_ok; [apply chk64_ok; lia|]; apply set_int64_computes; auto; lia. }
  all: bigargs; apply big_op2_computes; assumption.
Qed.

Lemma add_ui_computes c : 0 <= c < 2 ^ 64 -> computes h d (add_ui alloc d l c) (x + c).
Proof.
  intros Hc. unfold add_ui.
  change (u64 INT64_MAX - u64 SMALL_MAX) with 9223372034707292160.
  destruct (bigarg_spec h l x Hl) as (pl & El & Pl).
  small_l; [destruct (Z.leb_spec c 9223372034707292160)|].
  - replace (s64 (u64 (u64 x + c))) with (x + c).
    + apply set_int64_computes; auto; lia.
    + unfold u64. rewrite Zplus_mod_idemp_l. symmetry. apply s64_mod_id. lia.
  - eapply computes_bind_ok; [exact El|]. apply big_op2_computes; auto. reflexivity.
  - eapply computes_bind_ok; [exact El|]. apply big_op2_computes; auto. reflexivity.
Qed.

Lemma sub_ui_computes c : 0 <= c < 2 ^ 64 ->
  (is_small l = true -> - 2 ^ 63 <= x - c \/ 2 ^ 63 + 2 ^ 31 - 1 <= c) ->
  computes h d (sub_ui alloc d l c) (x - c).
Proof.
  intros Hc Hcond. unfold sub_ui.
  change (u64 (u64 INT64_MIN - u64 SMALL_MIN)) with 9223372039002259455.
  destruct (bigarg_spec h l x Hl) as (pl & El & Pl).
  small_l; [destruct (Z.ltb_spec c 9223372039002259455)|].
  - specialize (Hcond eq_refl).
    replace (s64 (u64 (u64 x - c))) with (x - c).
    + apply set_int64_computes; auto; lia.
    + unfold u64. rewrite Zminus_mod_idemp_l. symmetry. apply s64_mod_id. lia.
  - eapply computes_bind_ok; [exact El|]. apply big_op2_computes; auto. reflexivity.
  - eapply computes_bind_ok; [exact El|]. apply big_op2_computes; auto. reflexivity.
Qed.

Lemma mul_2exp_computes c : 0 <= c < 2 ^ 64 -> computes h d (mul_2exp alloc d l c) (x * 2 ^ c).
Proof.
  intros Hc. unfold mul_2exp.
  destruct (bigarg_spec h l x Hl) as (pl & El & Pl).
  small_l; [destruct (Z.leb_spec c 32)|].
  - rewrite Z.shiftl_mul_pow2 by lia.
    assert (Hp : 0 < 2 ^ c <= 2 ^ 32).
    { split; [apply Z.pow_pos_nonneg; lia|apply Z.pow_le_mono_r; lia]. }
    assert (- 2 ^ 63 <= x * 2 ^ c < 2 ^ 63).
    { change (2 ^ 63) with (2 ^ 31 * 2 ^ 32).
      generalize dependent (2 ^ c). intros p Hp.
      split; [|apply Z.le_lt_trans with (Z.abs x * p)]; nia. }
    eapply computes_bind_ok; [apply chk64_ok; assumption|].
    apply set_int64_computes; auto.
  - eapply computes_bind_ok; [exact El|].
    refine (big_op2_computes h d (fun a k => a * 2 ^ k) false pl (Scratch c) x c _ _ _ _); auto; reflexivity.
  - eapply computes_bind_ok; [exact El|].
    refine (big_op2_computes h d (fun a k => a * 2 ^ k) false pl (Scratch c) x c _ _ _ _); auto; reflexivity.
Qed.

Lemma mul_si_computes c : - 2 ^ 63 <= c < 2 ^ 63 -> computes h d (mul_si alloc d l c) (x * c).
Proof.
  intros Hc. unfold mul_si, LONG_MIN, INT64_MIN, UINT32_MAX.
  destruct (bigarg_spec h l x Hl) as (pl & El & Pl).
  destruct (siarg_spec h c Hc) as (pr & Er & Pr).
  destruct (is_small l && (-9223372036854775808 <? c) && (Z.abs c <=? 4294967295)) eqn:G.
  - apply andb_prop in G as [G Hle]. apply andb_prop in G as [Sl _].
    destruct (denotes_small _ _ _ Sl Hl) as [Gl Rl]; rewrite <- ?Gl.
    pose proof (prod_bound x c (2^31) (2^32) Rl ltac:(lia) ltac:(lia) ltac:(lia)).
    eapply computes_bind_ok; [apply chk64_ok; lia|]; apply set_int64_computes; auto; lia.
  - eapply computes_bind_ok; [exact El|]. eapply computes_bind_ok; [exact Er|].
    apply big_op2_computes; auto.
Qed.

Lemma mul_ui_computes c : 0 <= c < 2 ^ 64 -> computes h d (mul_ui alloc d l c) (x * c).
Proof.
  intros Hc. unfold mul_ui, UINT32_MAX.
  destruct (bigarg_spec h l x Hl) as (pl & El & Pl).
  destruct (uiarg_spec h c Hc) as (pr & Er & Pr).
  destruct (is_small l && (c <=? 4294967295)) eqn:G.
  - apply andb_prop in G as [Sl Hle].
    destruct (denotes_small _ _ _ Sl Hl) as [Gl Rl]; rewrite <- ?Gl.
    replace (s64 c) with c.
    2:{ unfold s64. rewrite Z.mod_small by lia. destruct (Z.ltb_spec c (2^63)); lia. }
    pose proof (prod_bound x c (2^31) (2^32) Rl ltac:(lia) ltac:(lia) ltac:(lia)).
    eapply computes_bind_ok; [apply chk64_ok; lia|]; apply set_int64_computes; auto; lia.
  - eapply computes_bind_ok; [exact El|]. eapply computes_bind_ok; [exact Er|].
    apply big_op2_computes; auto.
Qed.

Lemma set_computes : computes h d (set alloc d l) x.
Proof.
  unfold set. destruct (is_small l) eqn:Sl.
  - destruct (denotes_small _ _ _ Sl Hl) as [Gl Rl]; rewrite <- Gl.
    apply set_small_computes; assumption.
  - pose proof (denotes_big _ _ _ Sl Hl) as Hv.
    apply (store_ptr_computes h d (Ptr l) x (fun y => y)); auto.
    cbn. split; [exact Hv|apply not_small_big; exact Sl].
Qed.

Lemma abs_computes : computes h d (abs alloc d l) (Z.abs x).
Proof.
  unfold abs, labs. destruct (is_small l) eqn:Sl.
  - destruct (denotes_small _ _ _ Sl Hl) as [Gl Rl]; rewrite <- Gl.
    eapply computes_bind_ok; [apply chk64_ok; lia|].
    apply set_small_computes; auto; lia.
  - pose proof (denotes_big _ _ _ Sl Hl) as Hv.
    apply (store_ptr_computes h d (Ptr l) x Z.abs); auto.
    cbn. split; [exact Hv|apply not_small_big; exact Sl].
Qed.

Lemma neg_computes : computes h d (neg alloc d l) (- x).
Proof.
  unfold neg. destruct (is_small l) eqn:Sl.
  - destruct (denotes_small _ _ _ Sl Hl) as [Gl Rl]; rewrite <- Gl.
    eapply computes_bind_ok; [apply chk32_ok; lia|].
    apply set_small_computes; auto; lia.
  - pose proof (denotes_big _ _ _ Sl Hl) as Hv.
    apply (store_ptr_computes h d (Ptr l) x Z.opp); auto.
    cbn. split; [exact Hv|apply not_small_big; exact Sl].
Qed.

Lemma set_si_computes c : - 2 ^ 63 <= c < 2 ^ 63 -> computes h d (set_si alloc d c) c.
Proof.
  intros Hc. unfold set_si. destruct (fits_small c) eqn:Hf.
  - apply fits_small_true in Hf. apply set_small_computes; assumption.
  - apply store_val_computes; assumption.
Qed.
Lemma set_ui_computes c : 0 <= c < 2 ^ 64 -> computes h d (set_ui alloc d c) c.
Proof.
  intros Hc. unfold set_ui, SMALL_MAX, INT32_MAX. destruct (Z.leb_spec c 2147483647).
  - apply set_small_computes; auto; lia.
  - apply store_val_computes; assumption.
Qed.

(** ** gcd *)
Lemma smallgcd_loop_spec fuel : forall a b,
  0 <= a -> 0 <= b -> a * b < 2 ^ (Z.of_nat fuel) ->
  b <= a \/ (Z.of_nat fuel > 0 /\ 2 * (a * b) < 2 ^ (Z.of_nat fuel)) ->
  smallgcd_loop fuel a b = Some (Z.gcd a b).
Proof.
  induction fuel as [|f IH]; intros a b Ha Hb Hlt Hor.
  - cbn in Hlt. cbn [smallgcd_loop]. destruct (Z.eqb_spec b 0) as [->|Hb0].
    + rewrite Z.gcd_0_r, Z.abs_eq by lia. reflexivity.
    + exfalso. destruct Hor as [H|[H _]]; [nia|lia].
  - cbn [smallgcd_loop]. destruct (Z.eqb_spec b 0) as [->|Hb0].
    + rewrite Z.gcd_0_r, Z.abs_eq by lia. reflexivity.
    + assert (Hrem : Z.rem a b = a mod b) by (apply Z.rem_mod_nonneg; lia).
      rewrite Hrem.
      assert (Hm : 0 <= a mod b < b) by (apply Z.mod_pos_bound; lia).
      rewrite Nat2Z.inj_succ, Z.pow_succ_r in Hlt, Hor by lia.
      rewrite IH; [|lia|lia| |left; lia].
      * f_equal. rewrite Z.gcd_comm, Z.gcd_mod by lia. apply Z.gcd_comm.
      * destruct Hor as [Hle|[_ H2]].
        -- (* b <= a: a mod b <= a - b and a mod b < b, so 2*(a mod b) < = a *)
           assert (a mod b <= a - b).
           { pose proof (Z.div_mod a b Hb0). assert (1 <= a / b) by (apply Z.div_le_lower_bound; lia). nia. }
           nia.
        -- destruct (Z.le_gt_cases b a) as [Hle|Hgt].
           ++ assert (a mod b <= a - b).
              { pose proof (Z.div_mod a b Hb0). assert (1 <= a / b) by (apply Z.div_le_lower_bound; lia). nia. }
              nia.
           ++ rewrite Z.mod_small by lia. nia.
Qed.

Lemma smallgcd_ok a b :
  - 2 ^ 31 < a < 2 ^ 31 -> - 2 ^ 31 < b < 2 ^ 31 ->
  smallgcd a b h = Ok (Z.gcd a b, h).
Proof.
  intros Ha Hb. unfold smallgcd, labs, bind.
  rewrite chk64_ok by lia. rewrite chk64_ok by lia.
  unfold u32. rewrite !Z.mod_small by lia.
  rewrite smallgcd_loop_spec.
  - rewrite Z.gcd_abs_l, Z.gcd_abs_r. reflexivity.
  - lia.
  - lia.
  - change (2 ^ Z.of_nat 64) with (2 ^ 32 * 2 ^ 32). nia.
  - right. split; [lia|]. change (2 ^ Z.of_nat 64) with (2 * (2 ^ 32 * 2 ^ 31)). nia.
Qed.

Lemma gcd_small a b : - 2 ^ 31 < a < 2 ^ 31 -> - 2 ^ 31 < b < 2 ^ 31 -> 0 <= Z.gcd a b < 2 ^ 31.
Proof.
  intros Ha Hb. split; [apply Z.gcd_nonneg|].
  destruct (Z.eq_dec a 0) as [->|Ha0].
  - rewrite Z.gcd_0_l. lia.
  - pose proof (Z.gcd_divide_l a b) as Hdiv.
    apply Z.divide_abs_r in Hdiv.
    apply Z.divide_pos_le in Hdiv; lia.
Qed.

Lemma gcd_computes : computes h d (gcd alloc d l r) (Z.gcd x y).
Proof.
  unfold gcd. smalls.
  1: { eapply computes_bind_ok; [apply smallgcd_ok; assumption|].
       pose proof (gcd_small x y Rl Rr). apply set_small_computes; auto; lia. }
  all: bigargs; apply big_op2_computes; assumption.
Qed.

Lemma cdiv_ok a b : b <> 0 -> cdiv a b h = Ok (Z.quot a b, h).
Proof. intros H. unfold cdiv. destruct (Z.eqb_spec b 0); [congruence|reflexivity]. Qed.
Lemma cmod_ok a b : b <> 0 -> cmod a b h = Ok (Z.rem a b, h).
Proof. intros H. unfold cmod. destruct (Z.eqb_spec b 0); [congruence|reflexivity]. Qed.

Lemma lcm_computes : computes h d (lcm alloc d l r) (Z.lcm x y).
Proof.
  unfold lcm. smalls.
  1: { destruct (Z.eqb_spec x 0) as [Ex|Ex]; cbn [orb].
       { rewrite Ex, Z.lcm_0_l. apply set_small_computes; auto; lia. }
       destruct (Z.eqb_spec y 0) as [Ey|Ey].
       { rewrite Ey, Z.lcm_0_r. apply set_small_computes; auto; lia. }
       pose proof (gcd_small x y Rl Rr) as Hg.
       assert (Hg0 : Z.gcd x y <> 0) by (intros Hg0; apply Z.gcd_eq_0_l in Hg0; congruence).
       eapply computes_bind_ok; [apply smallgcd_ok; assumption|].
       eapply computes_bind_ok; [apply chk32_ok; lia|].
       eapply computes_bind_ok; [apply chk32_ok; lia|].
       eapply computes_bind_ok; [apply cdiv_ok; assumption|].
       assert (Hprod : 0 <= Z.abs x * Z.abs y < 2 ^ 62) by nia.
       replace (u64 (u64 (Z.abs x) * u64 (Z.abs y))) with (Z.abs x * Z.abs y)
         by (unfold u64; rewrite (Z.mod_small (Z.abs x)), (Z.mod_small (Z.abs y)), Z.mod_small by lia; reflexivity).
       rewrite Z.quot_div_nonneg by lia.
       assert (Hl2 : Z.abs x * Z.abs y / Z.gcd x y = Z.lcm x y).
       { unfold Z.lcm. destruct (Z.gcd_divide_r x y) as [q Hq].
         remember (Z.gcd x y) as g.
         assert (Eq : y / g = q) by (rewrite Hq; apply Z.div_mul; lia).
         rewrite Eq, Hq, !Z.abs_mul, (Z.abs_eq g) by lia.
         rewrite Z.mul_assoc. apply Z.div_mul. lia. }
       assert (0 <= Z.abs x * Z.abs y / Z.gcd x y < 2 ^ 62).
       { split; [apply Z.div_pos; lia|]. apply Z.div_lt_upper_bound; nia. }
       rewrite Hl2 in *.
       replace (s64 (Z.lcm x y)) with (Z.lcm x y).
       2:{ unfold s64. rewrite Z.mod_small by lia. destruct (Z.ltb_spec (Z.lcm x y) (2^63)); lia. }
       apply set_int64_computes; auto; lia. }
  all: bigargs; apply big_op2_computes; assumption.
Qed.

(** ** division *)
Lemma quot_abs_le a b : b <> 0 -> Z.abs (Z.quot a b) <= Z.abs a.
Proof.
  intros Hb. rewrite <- Z.quot_abs by lia.
  rewrite Z.quot_div_nonneg by lia.
  apply Z.div_le_upper_bound; nia.
Qed.

Lemma tdiv_q_computes : y <> 0 -> computes h d (tdiv_q alloc d l r) (Z.quot x y).
Proof.
  intros Hy. unfold tdiv_q. smalls.
  1: { eapply computes_bind_ok; [apply cdiv_ok; assumption|].
       pose proof (quot_abs_le x y Hy). apply set_small_computes; auto; lia. }
  all: bigargs; apply big_div_computes; assumption.
Qed.

Lemma tdiv_q_ui_computes c : 0 < c < 2 ^ 64 -> computes h d (tdiv_q_ui alloc d l c) (Z.quot x c).
Proof.
  intros Hc. unfold tdiv_q_ui, INT32_MAX.
  destruct (bigarg_spec h l x Hl) as (pl & El & Pl).
  destruct (uiarg_spec h c ltac:(lia)) as (pr & Er & Pr).
  destruct (is_small l && (c <=? 2147483647)) eqn:G.
  - apply andb_prop in G as [Sl Hle].
    destruct (denotes_small _ _ _ Sl Hl) as [Gl Rl]; rewrite <- ?Gl.
    rewrite s32_id by lia.
    eapply computes_bind_ok; [apply cdiv_ok; lia|].
    pose proof (quot_abs_le x c ltac:(lia)). apply set_small_computes; auto; lia.
  - destruct (Z.leb_spec c LONG_MAX).
    + eapply computes_bind_ok; [exact El|]. apply big_div_computes; auto; [reflexivity|lia].
    + eapply computes_bind_ok; [exact El|]. eapply computes_bind_ok; [exact Er|].
      apply big_div_computes; auto; lia.
Qed.

(** C's truncating quotient expressed with floor division on non-negatives *)
Lemma quot_uniq a b q m : b <> 0 -> a = b * q + m -> Z.abs m < Z.abs b -> 0 <= m * a -> Z.quot a b = q.
Proof.
  intros Hb Ha Hm Hs. symmetry. apply Zquot_mod_unique_full with (r := m); [|exact Ha].
  destruct (Z.lt_trichotomy a 0) as [Hn|[Hz|Hp]].
  - right. nia.
  - rewrite Hz in *. assert (m = 0 \/ m <> 0) as [->|Hm0] by lia.
    + left. lia.
    + exfalso. assert (q <> 0) by nia. nia.
  - left. nia.
Qed.

Lemma div_bounds a b : b <> 0 -> Z.abs (a / b) <= Z.abs a.
Proof.
  intros Hb. pose proof (Z.div_mod a b Hb) as E.
  assert (Hm := Z.mod_bound_or a b Hb).
  destruct (Z.lt_trichotomy b 0) as [H|[H|H]]; [|lia|].
  - pose proof (Z.mod_neg_bound a b H). destruct (Z.le_gt_cases a 0).
    + assert (0 <= a / b) by nia. nia.
    + nia.
  - pose proof (Z.mod_pos_bound a b H). destruct (Z.le_gt_cases 0 a).
    + assert (0 <= a / b) by nia. nia.
    + nia.
Qed.

Lemma ceil_bounds a b : b <> 0 -> Z.abs (ceil_div a b) <= Z.abs a.
Proof. intros Hb. unfold ceil_div. pose proof (div_bounds (- a) b Hb). lia. Qed.

Lemma fdiv_q_computes : y <> 0 -> computes h d (fdiv_q alloc d l r) (x / y).
Proof.
  intros Hy. unfold fdiv_q. smalls.
  1: { pose proof (div_bounds x y Hy) as Hb.
       assert (E : (if (x <? 0) && (0 <=? y)
          then n <- chk64 (x - (y - 1)) ;; cdiv n y
          else if (0 <=? x) && (y <? 0)
          then n <- chk64 (x - (y + 1)) ;; cdiv n y
          else cdiv x y) h = Ok (x / y, h)).
       { pose proof (Z.div_mod x y Hy) as E.
         destruct (Z.ltb_spec x 0), (Z.leb_spec 0 y), (Z.leb_spec 0 x), (Z.ltb_spec y 0);
           cbn [andb]; try lia; unfold bind;
           rewrite ?chk64_ok by lia; rewrite cdiv_ok by lia; do 2 f_equal.
         - pose proof (Z.mod_pos_bound x y ltac:(lia)).
           apply quot_uniq with (m := x mod y - (y - 1)); nia.
         - pose proof (Z.mod_neg_bound x y ltac:(lia)).
           apply quot_uniq with (m := x mod y); nia.
         - pose proof (Z.mod_pos_bound x y ltac:(lia)).
           apply quot_uniq with (m := x mod y); nia.
         - pose proof (Z.mod_neg_bound x y ltac:(lia)).
           apply quot_uniq with (m := x mod y - (y + 1)); nia. }
       eapply computes_bind_ok; [exact E|].
       rewrite s32_id by lia.
       apply set_small_computes; auto; lia. }
  all: bigargs; apply big_div_computes; assumption.
Qed.

Lemma cdiv_q_computes : y <> 0 -> computes h d (cdiv_q alloc d l r) (- (- x / y)).
Proof.
  intros Hy. unfold cdiv_q. smalls.
  1: { pose proof (ceil_bounds x y Hy) as Hb.
       assert (E : (if (0 <=? x) && (0 <=? y)
          then n <- chk64 (x + y - 1) ;; cdiv n y
          else if (x <? 0) && (y <? 0)
          then n <- chk64 (x + y + 1) ;; cdiv n y
          else cdiv x y) h = Ok (ceil_div x y, h)).
       { pose proof (Z.div_mod (- x) y Hy) as E. unfold ceil_div.
         destruct (Z.leb_spec 0 x), (Z.leb_spec 0 y), (Z.ltb_spec x 0), (Z.ltb_spec y 0);
           cbn [andb]; try lia; unfold bind;
           rewrite ?chk64_ok by lia; rewrite cdiv_ok by lia; do 2 f_equal.
         - pose proof (Z.mod_pos_bound (- x) y ltac:(lia)).
           apply quot_uniq with (m := y - 1 - (- x) mod y); nia.
         - pose proof (Z.mod_neg_bound (- x) y ltac:(lia)).
           apply quot_uniq with (m := - ((- x) mod y)); nia.
         - pose proof (Z.mod_pos_bound (- x) y ltac:(lia)).
           apply quot_uniq with (m := - ((- x) mod y)); nia.
         - pose proof (Z.mod_neg_bound (- x) y ltac:(lia)).
           apply quot_uniq with (m := y + 1 - (- x) mod y); nia. }
       eapply computes_bind_ok; [exact E|].
       rewrite s32_id by lia.
       apply set_small_computes; auto; fold (ceil_div x y); lia. }
  all: bigargs; apply (big_div_computes h d ceil_div); assumption.
Qed.

Lemma fdiv_q_ui_computes c : 0 < c < 2 ^ 64 -> computes h d (fdiv_q_ui alloc d l c) (x / c).
Proof.
  intros Hc. unfold fdiv_q_ui, INT32_MAX.
  destruct (bigarg_spec h l x Hl) as (pl & El & Pl).
  destruct (uiarg_spec h c ltac:(lia)) as (pr & Er & Pr).
  destruct (is_small l && (c <=? 2147483647)) eqn:G.
  - apply andb_prop in G as [Sl Hle].
    destruct (denotes_small _ _ _ Sl Hl) as [Gl Rl]; rewrite <- ?Gl.
    rewrite s64_id by lia.
    pose proof (div_bounds x c ltac:(lia)) as Hb.
    assert (E : (if 0 <=? x then cdiv (u32 x) c
                 else n <- chk64 (x - (c - 1)) ;; cdiv n c) h = Ok (x / c, h)).
    { pose proof (Z.div_mod x c ltac:(lia)) as E.
      pose proof (Z.mod_pos_bound x c ltac:(lia)).
      destruct (Z.leb_spec 0 x); unfold bind; rewrite ?chk64_ok by lia;
        rewrite cdiv_ok by lia; do 2 f_equal.
      - unfold u32. rewrite Z.mod_small by lia. apply Z.quot_div_nonneg; lia.
      - apply quot_uniq with (m := x mod c - (c - 1)); nia. }
    eapply computes_bind_ok; [exact E|].
    rewrite s32_id by lia. apply set_small_computes; auto; lia.
  - eapply computes_bind_ok; [exact El|]. eapply computes_bind_ok; [exact Er|].
    apply big_div_computes; auto; lia.
Qed.

Lemma cdiv_q_ui_computes c : 0 < c < 2 ^ 64 -> computes h d (cdiv_q_ui alloc d l c) (- (- x / c)).
Proof.
  intros Hc. unfold cdiv_q_ui, INT32_MAX.
  destruct (bigarg_spec h l x Hl) as (pl & El & Pl).
  destruct (uiarg_spec h c ltac:(lia)) as (pr & Er & Pr).
  destruct (is_small l && (c <=? 2147483647)) eqn:G.
  - apply andb_prop in G as [Sl Hle].
    destruct (denotes_small _ _ _ Sl Hl) as [Gl Rl]; rewrite <- ?Gl.
    rewrite s64_id, (s32_id c) by lia.
    pose proof (ceil_bounds x c ltac:(lia)) as Hb. unfold ceil_div in Hb.
    assert (E : (if 0 <=? x then n <- chk64 (x + (c - 1)) ;; cdiv n c
                 else cdiv x c) h = Ok (- (- x / c), h)).
    { pose proof (Z.div_mod (- x) c ltac:(lia)) as E.
      pose proof (Z.mod_pos_bound (- x) c ltac:(lia)).
      destruct (Z.leb_spec 0 x); unfold bind; rewrite ?chk64_ok by lia;
        rewrite cdiv_ok by lia; do 2 f_equal.
      - apply quot_uniq with (m := c - 1 - (- x) mod c); nia.
      - apply quot_uniq with (m := - ((- x) mod c)); nia. }
    eapply computes_bind_ok; [exact E|].
    rewrite s32_id by lia. apply set_small_computes; auto; lia.
  - eapply computes_bind_ok; [exact El|]. eapply computes_bind_ok; [exact Er|].
    apply (big_div_computes h d ceil_div); auto; lia.
Qed.

Lemma fdiv_r_computes : y <> 0 -> computes h d (fdiv_r alloc d l r) (x mod y).
Proof.
  intros Hy. unfold fdiv_r. smalls.
  1: { pose proof (Z.quot_rem' x y) as E1.
       pose proof (Z.rem_bound_abs x y Hy) as B1.
       eapply computes_bind_ok; [apply cmod_ok; assumption|].
       eapply computes_bind_ok; [apply chk64_ok; lia|].
       eapply computes_bind_ok; [apply cmod_ok; assumption|].
       assert (E : Z.rem (y + Z.rem x y) y = x mod y).
       { pose proof (Z.div_mod x y Hy) as E2.
         pose proof (Z.quot_rem' (y + Z.rem x y) y) as E3.
         pose proof (Z.rem_bound_abs (y + Z.rem x y) y Hy) as B3.
         pose proof (Z.rem_sign_nz (y + Z.rem x y) y Hy) as S3.
         pose proof (Z.mod_bound_or x y Hy) as B2.
         assert (Hs : Z.sgn (y + Z.rem x y) = Z.sgn y) by lia.
         assert (Hrange : 0 <= Z.rem (y + Z.rem x y) y < y \/ y < Z.rem (y + Z.rem x y) y <= 0).
         { destruct (Z.eq_dec (Z.rem (y + Z.rem x y) y) 0) as [Hz|Hz]; [lia|].
           specialize (S3 Hz). rewrite Hs in S3. lia. }
         apply Z.mod_unique with (q := Z.quot x y - 1 + Z.quot (y + Z.rem x y) y).
         - exact Hrange.
         - lia. }
       rewrite E.
       assert (- 2 ^ 31 < x mod y < 2 ^ 31).
       { pose proof (Z.mod_bound_or x y Hy). lia. }
       rewrite s32_id by lia. apply set_small_computes; auto. }
  all: bigargs; apply big_div_computes; assumption.
Qed.

Lemma computes_then h0 d0 m (k : Z -> M Z) z1 z2 :
  hwf h0 -> computes h0 d0 m z1 ->
  (forall d1 h1, upd h0 d0 h1 d1 z1 -> hwf h1 -> computes h1 d1 (k d1) z2) ->
  computes h0 d0 (bind m k) z2.
Proof.
  intros W [E|(d1 & h1 & E & U)] Hk; unfold computes, bind; rewrite E; [auto|].
  assert (W1 : hwf h1) by (eapply upd_hwf; eauto).
  destruct (Hk d1 h1 U W1) as [E2|(d2 & h2 & E2 & U2)]; rewrite E2; [auto|].
  right. exists d2, h2. split; [reflexivity|]. eapply upd_trans; eauto.
Qed.

End Ops.

Lemma pow_ui_computes h d l x c :
  hwf h -> owned h d -> denotes h l x -> 0 <= c < 2 ^ 64 ->
  computes h d (pow_ui alloc d l c) (x ^ c).
Proof.
  intros Hwf Hd Hl Hc. unfold pow_ui.
  destruct (Z.eqb_spec c 0) as [->|H0].
  { rewrite Z.pow_0_r. apply set_small_computes; auto; lia. }
  destruct (Z.eqb_spec c 1) as [->|H1].
  { rewrite Z.pow_1_r. apply set_computes; auto. }
  destruct (Z.eqb_spec c 2) as [->|H2].
  { rewrite Z.pow_2_r. apply mul_computes; auto. }
  destruct (bigarg_spec h l x Hl) as (pl & El & Pl).
  destruct (uiarg_spec h c Hc) as (pr & Er & Pr).
  assert (Hfull : computes h d (pl <- bigarg_src l ;; pr <- uiarg_src c ;;
     big_op2 alloc Z.pow true d pl pr) (x ^ c)).
  { eapply computes_bind_ok; [exact El|]. eapply computes_bind_ok; [exact Er|].
    apply big_op2_computes; auto. }
  destruct (is_small l) eqn:Sl; [|exact Hfull].
  destruct (denotes_small _ _ _ Sl Hl) as [Gl Rl]; rewrite <- Gl.
  destruct (Z.eqb_spec x 0) as [->|X0].
  { rewrite Z.pow_0_l by lia. apply set_small_computes; auto; lia. }
  destruct (Z.eqb_spec x 1) as [->|X1].
  { rewrite Z.pow_1_l by lia. apply set_small_computes; auto; lia. }
  destruct (Z.eqb_spec x 2) as [->|X2].
  { apply computes_then with (z1 := 1); auto.
    - apply set_small_computes; auto; lia.
    - intros d1 h1 U W1. apply computes_eq with (1 * 2 ^ c); [lia|].
      apply mul_2exp_computes; auto; [eapply upd_owned; eauto|apply U]. }
  destruct ((u64 LONG_MIN <=? c) && (c <=? u64 LONG_MAX)); [|exact Hfull].
  apply (big_op2_computes h d Z.pow true (Scratch x) (Scratch c) x c); auto; reflexivity.
Qed.

(** ** temporaries: addmul and friends *)
Lemma init_small : is_small init = true.
Proof. reflexivity. Qed.

Lemma upd_init_frame h h1 tmp v a :
  upd h init h1 tmp v -> hwf h -> h a <> None -> h1 a = h a.
Proof.
  intros U W Ha. destruct U as [V F N O S T].
  assert (a <> init).
  { intros ->. apply W in Ha. discriminate. }
  destruct (Z.eq_dec a tmp) as [->|Hne]; [|apply F; congruence].
  apply W in Ha as Hb. destruct (N Hb); congruence.
Qed.

Lemma denotes_frame h h1 w z :
  (forall a, h a <> None -> h1 a = h a) -> denotes h w z -> denotes h1 w z.
Proof.
  intros F. unfold denotes. destruct (is_small w); [auto|].
  intros E. rewrite F by congruence. exact E.
Qed.

Lemma tmp_computes h d m (k : Z -> M Z) v z :
  hwf h -> owned h d -> computes h init m v ->
  (forall tmp h1, hwf h1 -> (forall a, h a <> None -> h1 a = h a) ->
     denotes h1 tmp v -> computes h1 d (k tmp) z) ->
  computes h d (tmp <- m ;; d' <- k tmp ;; _u <- clear tmp ;; ret d') z.
Proof.
  intros W Ho [E|(tmp & h1 & E & U)] Hk; unfold computes, bind; rewrite E; [auto|].
  assert (W1 : hwf h1) by (eapply upd_hwf; eauto).
  assert (F1 : forall a, h a <> None -> h1 a = h a) by (intros; eapply upd_init_frame; eauto).
  pose proof (u_val _ _ _ _ _ U) as Vt.
  destruct (Hk tmp h1 W1 F1 Vt) as [E2|(d' & h2 & E2 & U2)]; rewrite E2; [auto|].
  right. unfold clear. destruct (is_small tmp) eqn:St.
  - exists d', h2. split; [reflexivity|].
    assert (E1 : forall a, h1 a = h a).
    { intros a. destruct (h a) eqn:Ha; [rewrite F1 by congruence; exact Ha|].
      destruct (Z.eq_dec a init) as [->|N1]; [rewrite (u_oddd _ _ _ _ _ U init_small); exact Ha|].
      destruct (Z.eq_dec a tmp) as [->|N2]; [rewrite (u_odd _ _ _ _ _ U St); exact Ha|].
      rewrite (u_frame _ _ _ _ _ U) by congruence. exact Ha. }
    destruct U2 as [V F N O S T]. constructor; auto.
    + intros a N1 N2. rewrite F by congruence. apply E1.
    + intros Hb. rewrite <- E1. apply N; exact Hb.
    + intros Hs. rewrite <- E1. apply S; exact Hs.
    + intros Hs. rewrite <- E1. apply T; exact Hs.
  - pose proof (denotes_big _ _ _ St Vt) as Ht.
    pose proof (not_small_big _ St) as Bt.
    assert (Hnd : tmp <> d).
    { intros ->. specialize (Ho Bt). destruct (u_new _ _ _ _ _ U Bt) as [->|Hn]; [|congruence].
      discriminate. }
    assert (Hn : h tmp = None).
    { destruct (u_new _ _ _ _ _ U Bt) as [->|Hn]; [discriminate|exact Hn]. }
    assert (Hnd' : tmp <> d').
    { intros ->. destruct (u_new _ _ _ _ _ U2 Bt) as [H|H]; congruence. }
    assert (Ht2 : h2 tmp = Some v).
    { rewrite (u_frame _ _ _ _ _ U2) by congruence. exact Ht. }
    unfold mp_free. rewrite Ht2. exists d', (hupd h2 tmp None). split; [reflexivity|].
    assert (E1 : forall a, a <> tmp -> h1 a = h a).
    { intros a Hne. destruct (h a) eqn:Ha; [rewrite F1 by congruence; exact Ha|].
      destruct (Z.eq_dec a init) as [->|N1]; [rewrite (u_oddd _ _ _ _ _ U init_small); exact Ha|].
      rewrite (u_frame _ _ _ _ _ U) by congruence. exact Ha. }
    assert (Hh : forall a, a <> tmp -> hupd h2 tmp None a = h2 a).
    { intros a Hne. unfold hupd. destruct (Z.eqb_spec a tmp); congruence. }
    destruct U2 as [V F N O S T]. constructor.
    + unfold denotes in *. destruct (is_small d'); [exact V|]. rewrite Hh by congruence. exact V.
    + intros a N1 N2. destruct (Z.eq_dec a tmp) as [->|Hne].
      * unfold hupd. rewrite Z.eqb_refl. congruence.
      * rewrite Hh, F, E1 by congruence. reflexivity.
    + intros Hb. destruct (N Hb) as [->|H]; [auto|]. right. rewrite <- E1 by congruence. exact H.
    + intros Hb Hne. rewrite Hh by congruence. apply O; auto.
    + intros Hs. rewrite Hh, S, E1 by congruence. reflexivity.
    + intros Hs. rewrite Hh, T, E1 by congruence. reflexivity.
Qed.

Lemma owned_init h : owned h init.
Proof. intros H. discriminate. Qed.

Section Ops2.
Variables (h : heap) (d l r w x y : Z).
Hypothesis (Hwf : hwf h) (Hd : denotes h d w) (Hl : denotes h l x) (Hr : denotes h r y).

Let Ho : owned h d := denotes_owned _ _ _ Hd.

Lemma addmul_computes : computes h d (addmul alloc d l r) (w + x * y).
Proof.
  unfold addmul. apply tmp_computes with (k := fun tmp => add alloc d d tmp) (v := x * y); auto.
  - apply mul_computes; auto. apply owned_init.
  - intros tmp h1 W1 F1 Vt. pose proof (denotes_frame _ _ _ _ F1 Hd).
    apply add_computes; auto. eapply denotes_owned; eauto.
Qed.
Lemma submul_computes : computes h d (submul alloc d l r) (w - x * y).
Proof.
  unfold submul. apply tmp_computes with (k := fun tmp => sub alloc d d tmp) (v := x * y); auto.
  - apply mul_computes; auto. apply owned_init.
  - intros tmp h1 W1 F1 Vt. pose proof (denotes_frame _ _ _ _ F1 Hd).
    apply sub_computes; auto. eapply denotes_owned; eauto.
Qed.
Lemma addmul_ui_computes c : 0 <= c < 2 ^ 64 -> computes h d (addmul_ui alloc d l c) (w + x * c).
Proof.
  intros Hc. unfold addmul_ui.
  apply tmp_computes with (k := fun tmp => add alloc d d tmp) (v := x * c); auto.
  - apply mul_ui_computes; auto. apply owned_init.
  - intros tmp h1 W1 F1 Vt. pose proof (denotes_frame _ _ _ _ F1 Hd).
    apply add_computes; auto. eapply denotes_owned; eauto.
Qed.
Lemma submul_ui_computes c : 0 <= c < 2 ^ 64 -> computes h d (submul_ui alloc d l c) (w - x * c).
Proof.
  intros Hc. unfold submul_ui.
  apply tmp_computes with (k := fun tmp => sub alloc d d tmp) (v := x * c); auto.
  - apply mul_ui_computes; auto. apply owned_init.
  - intros tmp h1 W1 F1 Vt. pose proof (denotes_frame _ _ _ _ F1 Hd).
    apply sub_computes; auto. eapply denotes_owned; eauto.
Qed.
End Ops2.

(** * Programs *)
Lemma lset_length {A} (l : list A) n x : length (lset l n x) = length l.
Proof. revert n; induction l as [|a l IH]; intros [|n]; cbn; auto. Qed.
Lemma nth_lset {A} (l : list A) n x i def :
  (n < length l)%nat -> nth i (lset l n x) def = if Nat.eqb i n then x else nth i l def.
Proof.
  revert n i; induction l as [|a l IH]; intros n i Hn; cbn in Hn; [lia|].
  destruct n as [|n]; destruct i as [|i]; cbn; auto. apply IH. lia.
Qed.

Lemma represents_hwf h s env : represents h s env -> hwf h.
Proof. intros R a Ha. destruct (rep_own _ _ _ R a Ha) as (i & _ & _ & Hb). exact Hb. Qed.

Lemma represents_upd h s env r h' d' z :
  represents h s env -> (r < length s)%nat ->
  upd h (rd s r) h' d' z ->
  represents h' (lset s r d') (lset env r z).
Proof.
  intros R Hr U. pose proof (represents_hwf _ _ _ R) as W.
  destruct R as [RL RV RS RO].
  assert (Hre : (r < length env)%nat) by lia.
  assert (Hnew : is_big d' = true -> forall j, (j < length s)%nat -> j <> r -> nth j s init <> d').
  { intros Hb j Hj Hne E. destruct (u_new _ _ _ _ _ U Hb) as [E2|Hn].
    - apply Hne. apply (RS j r); auto; unfold rd in E2; congruence.
    - pose proof (denotes_owned _ _ _ (RV j Hj)) as Hown.
      unfold owned in Hown. rewrite E in Hown. apply (Hown Hb). exact Hn. }
  constructor.
  - rewrite !lset_length. exact RL.
  - intros i Hi. rewrite lset_length in Hi. rewrite !nth_lset by lia.
    destruct (Nat.eqb_spec i r) as [->|Hne]; [apply U|].
    specialize (RV i Hi). unfold denotes in *.
    destruct (is_small (nth i s init)) eqn:Sm; [exact RV|].
    rewrite (u_frame _ _ _ _ _ U); [exact RV| |].
    + intros E. apply Hne. apply (RS i r); auto. apply not_small_big; exact Sm.
    + intros E. assert (is_big d' = true) by (rewrite <- E; apply not_small_big; exact Sm).
      eapply Hnew; eauto.
  - intros i j Hi Hj. rewrite lset_length in Hi, Hj. rewrite !nth_lset by lia.
    destruct (Nat.eqb_spec i r) as [->|Hne]; destruct (Nat.eqb_spec j r) as [->|Hne2]; auto.
    + intros Hb E. exfalso. eapply (Hnew Hb j); eauto.
    + intros Hb E. exfalso. assert (Hb' : is_big d' = true) by congruence. eapply (Hnew Hb' i); eauto.
  - intros a Ha. rewrite lset_length.
    destruct (Z.eq_dec a d') as [->|Hne].
    + exists r. split; [lia|]. rewrite nth_lset by lia. rewrite Nat.eqb_refl. split; [reflexivity|].
      eapply upd_hwf; eauto.
    + destruct (Z.eq_dec a (rd s r)) as [E|Hne2].
      * exfalso. assert (Hb : is_big a = true) by (eapply upd_hwf; eauto).
        rewrite E in *. rewrite (u_old _ _ _ _ _ U Hb) in Ha by congruence. congruence.
      * rewrite (u_frame _ _ _ _ _ U) in Ha by congruence.
        destruct (RO a Ha) as (i & Hi & E & Hb). exists i. split; [lia|]. split; [|exact Hb].
        rewrite nth_lset by lia. destruct (Nat.eqb_spec i r) as [->|]; [|exact E].
        unfold rd in Hne2. congruence.
Qed.

Lemma iexec_step h s env o env' :
  represents h s env -> sub_ui_small o = true -> ispec o env = Some env' ->
  iexec alloc o s h = OOM \/
  exists s' h', iexec alloc o s h = Ok (s', h') /\ represents h' s' env'.
Proof.
  intros R Hsub Hsp. pose proof (represents_hwf _ _ _ R) as W.
  pose proof (rep_len _ _ _ R) as RL.
  assert (V : forall i, (i < length env)%nat -> denotes h (rd s i) (nth i env 0)).
  { intros i Hi. apply R. lia. }
  assert (O : forall i, (i < length env)%nat -> owned h (rd s i)).
  { intros i Hi. eapply denotes_owned. apply V; exact Hi. }
  assert (K : forall r m z, (r < length env)%nat -> computes h (rd s r) m z ->
     (w <- m ;; ret (lset s r w)) h = OOM \/
     exists s' h', (w <- m ;; ret (lset s r w)) h = Ok (s', h') /\ represents h' s' (lset env r z)).
  { intros r m z Hr [E|(d' & h' & E & U)]; unfold bind; rewrite E; [auto|].
    right. eexists _, _. split; [reflexivity|]. eapply represents_upd; eauto. lia. }
  unfold is_ulong, is_slong in *.
  destruct o; cbn [ispec iexec] in *; unfold is_ulong, is_slong in *;
    match type of Hsp with
    | (if ?b then _ else _) = _ => destruct b eqn:B; [|discriminate]
    end; injection Hsp as <-; cbn [forallb sub_ui_small] in *;
    rewrite ?andb_true_iff, ?Nat.ltb_lt, ?negb_true_iff, ?Z.eqb_neq, ?Z.leb_le, ?Z.ltb_lt in *;
    try (apply K; [tauto|]).
  - apply set_computes; intuition.
  - apply set_si_computes; intuition.
  - apply set_ui_computes; intuition.
  - apply abs_computes; intuition.
  - apply neg_computes; intuition.
  - (* swap *)
    right. eexists _, _. split; [reflexivity|].
    destruct R as [_ RV RS RO].
    assert (Hi : (i < length s)%nat) by lia. assert (Hj : (j < length s)%nat) by lia.
    assert (Nv : forall k, nth k (lset (lset s i (rd s j)) j (rd s i)) init =
       nth (if Nat.eqb k j then i else if Nat.eqb k i then j else k) s init).
    { intros k. rewrite !nth_lset by (rewrite ?lset_length; lia). unfold rd.
      destruct (Nat.eqb k j); [reflexivity|]. destruct (Nat.eqb k i); reflexivity. }
    assert (Ne : forall k, nth k (lset (lset env i (nth j env 0)) j (nth i env 0)) 0 =
       nth (if Nat.eqb k j then i else if Nat.eqb k i then j else k) env 0).
    { intros k. rewrite !nth_lset by (rewrite ?lset_length; lia).
      destruct (Nat.eqb k j); [reflexivity|]. destruct (Nat.eqb k i); reflexivity. }
    constructor.
    + rewrite !lset_length. exact RL.
    + intros k Hk. rewrite !lset_length in Hk. rewrite Nv, Ne. apply RV.
      destruct (Nat.eqb k j); [lia|]. destruct (Nat.eqb k i); lia.
    + intros k1 k2 H1 H2. rewrite !lset_length in H1, H2. rewrite !Nv. intros Hb E.
      apply RS in E; [|destruct (Nat.eqb k1 j), (Nat.eqb k1 i); lia
                      |destruct (Nat.eqb k2 j), (Nat.eqb k2 i); lia|exact Hb].
      destruct (Nat.eqb_spec k1 j), (Nat.eqb_spec k1 i), (Nat.eqb_spec k2 j), (Nat.eqb_spec k2 i); lia.
    + intros a Ha. destruct (RO a Ha) as (k & Hk & E & Hb).
      exists (if Nat.eqb k j then i else if Nat.eqb k i then j else k).
      rewrite !lset_length. split; [destruct (Nat.eqb k j), (Nat.eqb k i); lia|].
      split; [|exact Hb]. rewrite Nv. rewrite <- E. f_equal.
      destruct (Nat.eqb_spec k j), (Nat.eqb_spec k i);
      repeat match goal with |- context [Nat.eqb ?a ?b] => destruct (Nat.eqb_spec a b) end; lia.
  - apply add_ui_computes; intuition.
  - apply sub_ui_computes; intuition.
    match goal with H : is_small _ = true |- _ =>
      destruct (denotes_small _ _ _ H (V i ltac:(assumption))) as [_ ?] end. lia.
  - apply add_computes; intuition.
  - apply sub_computes; intuition.
  - apply mul_computes; intuition.
  - apply mul_2exp_computes; intuition.
  - apply mul_si_computes; intuition.
  - apply mul_ui_computes; intuition.
  - apply pow_ui_computes; intuition.
  - apply addmul_computes; intuition.
  - apply addmul_ui_computes; intuition.
  - apply submul_computes; intuition.
  - apply submul_ui_computes; intuition.
  - apply gcd_computes; intuition.
  - apply lcm_computes; intuition.
  - apply tdiv_q_computes; intuition.
  - apply tdiv_q_ui_computes; intuition; lia.
  - apply cdiv_q_computes; intuition.
  - apply cdiv_q_ui_computes; intuition; lia.
  - apply fdiv_q_computes; intuition.
  - apply fdiv_q_ui_computes; intuition; lia.
  - apply fdiv_r_computes; intuition.
Qed.

Theorem iexec_all_refines h s env os env' :
  represents h s env -> forallb sub_ui_small os = true -> ispec_all os env = Some env' ->
  iexec_all alloc os s h = OOM \/
  exists s' h', iexec_all alloc os s h = Ok (s', h') /\ represents h' s' env'.
Proof.
  revert h s env. induction os as [|o os IH]; intros h s env R Hsub Hsp; cbn in *.
  - injection Hsp as <-. right. exists s, h. split; [reflexivity|exact R].
  - apply andb_prop in Hsub as [Hs1 Hs2].
    destruct (ispec o env) as [env1|] eqn:E1; [|discriminate].
    destruct (iexec_step h s env o env1 R Hs1 E1) as [E|(s1 & h1 & E & R1)];
      unfold bind; rewrite E; [auto|].
    eapply IH; eauto.
Qed.

End P.

(** * Observations *)
Lemma cmp3_spec a b : cmp3 a b = Z.sgn (a - b).
Proof. unfold cmp3. destruct (Z.gtb_spec a b), (Z.ltb_spec a b); lia. Qed.

Lemma deref_ptr h w z : is_small w = false -> denotes h w z -> deref (Ptr w) h = Ok (z, h).
Proof. intros S D. cbn. rewrite (denotes_big _ _ _ S D). reflexivity. Qed.

Lemma sgn_ok h w z : denotes h w z -> sgn w h = Ok (Z.sgn z, h).
Proof.
  intros D. unfold sgn. destruct (is_small w) eqn:S.
  - destruct (denotes_small _ _ _ S D) as [<- R]. unfold ret. rewrite cmp3_spec, Z.sub_0_r. reflexivity.
  - unfold bind. rewrite (deref_ptr _ _ _ S D). unfold ret, mp_compare. rewrite cmp3_spec, Z.sub_0_r. reflexivity.
Qed.

Lemma bigarg_deref h w z (k : Z -> M Z) : denotes h w z ->
  (p <- bigarg_src w ;; x <- deref p ;; k x) h = k z h.
Proof.
  intros D. destruct (bigarg_spec h w z D) as (p & E & P).
  unfold bind. rewrite E, (deref_ok _ _ _ P). reflexivity.
Qed.

Lemma cmp_ok h w1 w2 z1 z2 :
  denotes h w1 z1 -> denotes h w2 z2 -> cmp w1 w2 h = Ok (Z.sgn (z1 - z2), h).
Proof.
  intros D1 D2. unfold cmp. destruct (is_small w1) eqn:S1; destruct (is_small w2) eqn:S2; cbn [andb].
  - destruct (denotes_small _ _ _ S1 D1) as [<- _], (denotes_small _ _ _ S2 D2) as [<- _].
    unfold ret. rewrite cmp3_spec. reflexivity.
  - destruct (denotes_small _ _ _ S1 D1) as [<- _]. rewrite (bigarg_deref _ _ _ _ D2).
    unfold ret, mp_compare. rewrite cmp3_spec. do 2 f_equal. lia.
  - destruct (denotes_small _ _ _ S2 D2) as [<- _]. rewrite (bigarg_deref _ _ _ _ D1).
    unfold ret, mp_compare. rewrite cmp3_spec. reflexivity.
  - unfold bind. rewrite (deref_ptr _ _ _ S1 D1), (deref_ptr _ _ _ S2 D2).
    unfold ret, mp_compare. rewrite cmp3_spec. reflexivity.
Qed.

Lemma cmp_si_ok h w z c : denotes h w z -> cmp_si w c h = Ok (Z.sgn (z - c), h).
Proof.
  intros D. unfold cmp_si. destruct (is_small w) eqn:S.
  - destruct (denotes_small _ _ _ S D) as [<- R]. unfold ret. rewrite cmp3_spec. reflexivity.
  - unfold bind. rewrite (deref_ptr _ _ _ S D). unfold ret, mp_compare. rewrite cmp3_spec. reflexivity.
Qed.

Lemma abs_cmp_ok h w1 w2 z1 z2 :
  denotes h w1 z1 -> denotes h w2 z2 -> abs_cmp w1 w2 h = Ok (Z.sgn (Z.abs z1 - Z.abs z2), h).
Proof.
  intros D1 D2. unfold abs_cmp.
  destruct (bigarg_spec h w1 z1 D1) as (p1 & E1 & P1).
  destruct (bigarg_spec h w2 z2 D2) as (p2 & E2 & P2).
  destruct (is_small w1 && is_small w2) eqn:S.
  - apply andb_prop in S as [S1 S2].
    destruct (denotes_small _ _ _ S1 D1) as [<- R1], (denotes_small _ _ _ S2 D2) as [<- R2].
    unfold bind, labs. rewrite !chk64_ok by lia. rewrite !s32_id by lia.
    unfold ret. rewrite cmp3_spec. reflexivity.
  - unfold bind. rewrite E1, E2, (deref_ok _ _ _ P1), (deref_ok _ _ _ P2).
    unfold ret, mp_compare. rewrite cmp3_spec. reflexivity.
Qed.

Definition divides_dec (a b : Z) : bool := if b =? 0 then a =? 0 else a mod b =? 0.
Lemma divides_dec_spec a b : divides_dec a b = true <-> (b | a).
Proof.
  unfold divides_dec. destruct (Z.eqb_spec b 0) as [->|H].
  - rewrite Z.eqb_eq. split; [intros ->; apply Z.divide_0_r|apply Z.divide_0_l].
  - rewrite Z.eqb_eq. apply Z.mod_divide. exact H.
Qed.

Lemma is_divisible_by_ok h w1 w2 z1 z2 :
  denotes h w1 z1 -> denotes h w2 z2 ->
  exists b, is_divisible_by w1 w2 h = Ok (b, h) /\ (b = true <-> (z2 | z1)).
Proof.
  intros D1 D2. exists (divides_dec z1 z2). split; [|apply divides_dec_spec].
  unfold is_divisible_by, divides_dec, bind. rewrite (sgn_ok _ _ _ D2).
  destruct (Z.eqb_spec z2 0) as [->|H0].
  - cbn [Z.sgn Z.eqb]. rewrite (sgn_ok _ _ _ D1). unfold ret. do 2 f_equal.
    destruct (Z.eqb_spec z1 0); lia.
  - destruct (Z.eqb_spec (Z.sgn z2) 0); [lia|].
    assert (Hrem : (Z.rem z1 z2 =? 0) = (z1 mod z2 =? 0)).
    { apply eq_true_iff_eq. rewrite !Z.eqb_eq. rewrite Z.rem_divide, Z.mod_divide by exact H0. tauto. }
    destruct (bigarg_spec h w1 z1 D1) as (p1 & E1 & P1).
    destruct (bigarg_spec h w2 z2 D2) as (p2 & E2 & P2).
    destruct (is_small w1) eqn:S1; destruct (is_small w2) eqn:S2; cbn [andb].
    + destruct (denotes_small _ _ _ S1 D1) as [<- R1], (denotes_small _ _ _ S2 D2) as [<- R2].
      rewrite cmod_ok by exact H0. unfold ret. rewrite Hrem. reflexivity.
    + rewrite E1, E2, (deref_ok _ _ _ P1), (deref_ok _ _ _ P2), cmod_ok by exact H0.
      unfold ret. rewrite Hrem. reflexivity.
    + destruct (denotes_small _ _ _ S2 D2) as [<- R2].
      rewrite E1, (deref_ok _ _ _ P1), cmod_ok by exact H0. unfold ret. rewrite Hrem. reflexivity.
    + rewrite E1, E2, (deref_ok _ _ _ P1), (deref_ok _ _ _ P2), cmod_ok by exact H0.
      unfold ret. rewrite Hrem. reflexivity.
Qed.

Lemma digits_of_small v : 0 <= v < 2 ^ 32 -> digits_of v = [v].
Proof.
  intros H. unfold digits_of, DIGIT_BITS.
  destruct (Z.to_nat (Z.log2 v)); cbn [digits_fuel].
  - rewrite Z.mod_small by lia. reflexivity.
  - rewrite Z.div_small, Z.mod_small by lia. reflexivity.
Qed.

Lemma hash_ok h w z h0 : denotes h w z ->
  hash w h0 h = Ok (hash_digits (if z <? 0 then hash_byte h0 255 else h0) (digits_of (Z.abs z)), h).
Proof.
  intros D. unfold hash. destruct (is_small w) eqn:S.
  - destruct (denotes_small _ _ _ S D) as [<- R]. unfold bind, labs. rewrite chk64_ok by lia.
    unfold ret, u32. rewrite (Z.mod_small (Z.abs z)) by lia. rewrite digits_of_small by lia.
    unfold uint32_to_digits, DIGIT_BITS. cbn [to_digits]. rewrite Z.mul_0_r, Z.shiftr_0_r.
    rewrite Z.mod_small by lia. reflexivity.
  - unfold bind. rewrite (deref_ptr _ _ _ S D). reflexivity.
Qed.

Lemma fits_slong_ok h w z : denotes h w z ->
  fits_slong w h = Ok ((- 2 ^ 63 <=? z) && (z <? 2 ^ 63), h).
Proof.
  intros D. unfold fits_slong, fits_long, LONG_MIN, LONG_MAX, INT64_MIN, INT64_MAX.
  destruct (is_small w) eqn:S.
  - destruct (denotes_small _ _ _ S D) as [_ R]. unfold ret. do 2 f_equal. symmetry.
    apply andb_true_intro. lia.
  - unfold bind. rewrite (deref_ptr _ _ _ S D). unfold ret. do 2 f_equal. lia.
Qed.
Lemma get_si_ok h w z : denotes h w z -> - 2 ^ 63 <= z < 2 ^ 63 -> get_si w h = Ok (z, h).
Proof.
  intros D R. unfold get_si, fits_long, LONG_MIN, LONG_MAX, INT64_MIN, INT64_MAX.
  destruct (is_small w) eqn:S.
  - destruct (denotes_small _ _ _ S D) as [<- _]. reflexivity.
  - unfold bind. rewrite (deref_ptr _ _ _ S D).
    replace ((-9223372036854775808 <=? z) && (z <=? 9223372036854775807)) with true by lia. reflexivity.
Qed.
Lemma fits_ulong_ok h w z : denotes h w z ->
  fits_ulong w h = Ok ((0 <=? z) && (z <? 2 ^ 64), h).
Proof.
  intros D. unfold fits_ulong, fits_ulong_v.
  destruct (is_small w) eqn:S.
  - destruct (denotes_small _ _ _ S D) as [<- R]. unfold ret. do 2 f_equal.
    rewrite (proj2 (Z.ltb_lt z (2 ^ 64))) by lia. rewrite andb_true_r. reflexivity.
  - unfold bind. rewrite (deref_ptr _ _ _ S D). reflexivity.
Qed.
Lemma get_ui_ok h w z : denotes h w z -> 0 <= z < 2 ^ 64 -> get_ui w h = Ok (z, h).
Proof.
  intros D R. unfold get_ui, fits_ulong_v, u64.
  destruct (is_small w) eqn:S.
  - destruct (denotes_small _ _ _ S D) as [<- _]. unfold ret. rewrite Z.mod_small by lia. reflexivity.
  - unfold bind. rewrite (deref_ptr _ _ _ S D).
    rewrite (proj2 (Z.ltb_lt z (2 ^ 64))) by lia. rewrite (proj2 (Z.leb_le 0 z)) by lia. reflexivity.
Qed.
Lemma get_d_small h w z : denotes h w z -> Z.abs z < 2 ^ 32 -> get_d w h = Ok (z, h).
Proof.
  intros D R. unfold get_d. destruct (is_small w) eqn:S.
  - destruct (denotes_small _ _ _ S D) as [<- _]. reflexivity.
  - unfold bind. rewrite (deref_ptr _ _ _ S D). rewrite digits_of_small by lia.
    cbn [fold_left]. unfold ret. do 2 f_equal. destruct (Z.ltb_spec z 0); lia.
Qed.

(** releasing all variables leaves an empty heap: no double free, no leak *)
Lemma clear_all_ok s : forall h env, represents h s env ->
  exists h', clear_all s h = Ok (tt, h') /\ forall a, h' a = None.
Proof.
  induction s as [|w s IH]; intros h env R.
  - exists h. split; [reflexivity|]. intros a. destruct (h a) eqn:E; [|reflexivity].
    destruct (rep_own _ _ _ R a) as (i & Hi & _); [congruence|]. cbn in Hi. lia.
  - destruct env as [|z env]; [destruct R as [RL _ _ _]; discriminate|].
    pose proof R as [RL RV RS RO]. cbn in RL.
    cbn [clear_all]. unfold bind, clear.
    pose proof (RV 0%nat ltac:(cbn; lia)) as V0. cbn [nth] in V0.
    assert (Hkeep : forall h', (forall a, is_small w = true \/ a <> w -> h' a = h a) ->
              (is_small w = false -> h' w = None) -> represents h' s env).
    { intros h' HF HN. constructor.
      - lia.
      - intros i Hi. specialize (RV (S i) ltac:(cbn; lia)). cbn [nth] in RV.
        unfold denotes in *. destruct (is_small (nth i s init)) eqn:Sm; [exact RV|].
        rewrite HF; [exact RV|]. right. intros E.
        assert (S i = 0)%nat; [|lia].
        apply RS; cbn [nth length]; try lia. apply not_small_big; exact Sm.
      - intros i j Hi Hj Hb E. assert (S i = S j); [|lia].
        apply RS; cbn [nth length]; try lia; auto.
      - intros a Ha.
        assert (Hd : is_small w = true \/ a <> w).
        { destruct (is_small w) eqn:Sw; [auto|]. right. intros ->. apply Ha. apply HN. reflexivity. }
        rewrite HF in Ha by exact Hd. destruct (RO a Ha) as ([|i] & Hi & E & Hb).
        + exfalso. cbn [nth] in E. subst a. destruct Hd as [Hd|Hd]; [|congruence].
          rewrite (big_not_small _ Hb) in Hd. discriminate.
        + exists i. cbn [nth length] in Hi, E. split; [lia|]. auto. }
    destruct (is_small w) eqn:Sw.
    + unfold ret. apply IH with env. apply Hkeep; [auto|discriminate].
    + pose proof (denotes_big _ _ _ Sw V0) as Hv. unfold mp_free. rewrite Hv.
      apply IH with env. apply Hkeep.
      * intros a [Ha|Ha]; [discriminate|]. unfold hupd. destruct (Z.eqb_spec a w); congruence.
      * intros _. unfold hupd. rewrite Z.eqb_refl. reflexivity.
Qed.

(** ** statements in the form used by PropsInt *)
Lemma division_steps alloc : alloc_spec alloc ->
  forall h s env (r i j : nat),
    represents h s env ->
    (r < length s)%nat -> (i < length s)%nat -> (j < length s)%nat ->
    forall x y, nth i env 0 = x -> nth j env 0 = y -> y <> 0 ->
    forall o z,
      In (o, z) [(ITdivQ r i j, Z.quot x y); (IFdivQ r i j, x / y);
                 (ICdivQ r i j, - (- x / y)); (IFdivR r i j, x mod y)] ->
      iexec alloc o s h = OOM \/
      exists s' h', iexec alloc o s h = Ok (s', h') /\ represents h' s' (lset env r z).
Proof.
  intros Ha h s env r i j R Hr Hi Hj x y <- <- Hy o z Hin.
  pose proof (rep_len _ _ _ R) as RL. rewrite RL in *.
  assert (G : Nat.ltb r (length env) && (Nat.ltb i (length env) && (Nat.ltb j (length env) && true))
              && negb (nth j env 0 =? 0) = true).
  { rewrite (proj2 (Nat.ltb_lt _ _) Hr), (proj2 (Nat.ltb_lt _ _) Hi), (proj2 (Nat.ltb_lt _ _) Hj).
    destruct (Z.eqb_spec (nth j env 0) 0); [congruence|reflexivity]. }
  cbn [In] in Hin.
  destruct Hin as [E|[E|[E|[E|[]]]]]; injection E as <- <-;
    (apply (iexec_step alloc Ha h s env); [exact R|reflexivity|]);
    cbn [ispec forallb]; rewrite G; reflexivity.
Qed.

Lemma observations_ok h w1 w2 z1 z2 : denotes h w1 z1 -> denotes h w2 z2 ->
    sgn w1 h = Ok (Z.sgn z1, h) /\
    cmp w1 w2 h = Ok (Z.sgn (z1 - z2), h) /\
    (forall c, cmp_si w1 c h = Ok (Z.sgn (z1 - c), h)) /\
    abs_cmp w1 w2 h = Ok (Z.sgn (Z.abs z1 - Z.abs z2), h) /\
    (exists b, is_divisible_by w1 w2 h = Ok (b, h) /\ (b = true <-> (z2 | z1))) /\
    fits_slong w1 h = Ok ((- 2 ^ 63 <=? z1) && (z1 <? 2 ^ 63), h) /\
    (- 2 ^ 63 <= z1 < 2 ^ 63 -> get_si w1 h = Ok (z1, h)) /\
    fits_ulong w1 h = Ok ((0 <=? z1) && (z1 <? 2 ^ 64), h) /\
    (0 <= z1 < 2 ^ 64 -> get_ui w1 h = Ok (z1, h)).
Proof.
  intros D1 D2. repeat apply conj.
  - apply sgn_ok; assumption.
  - apply cmp_ok; assumption.
  - intros c. apply cmp_si_ok; assumption.
  - apply abs_cmp_ok; assumption.
  - apply is_divisible_by_ok; assumption.
  - apply fits_slong_ok; assumption.
  - apply get_si_ok; assumption.
  - apply fits_ulong_ok; assumption.
  - apply get_ui_ok; assumption.
Qed.

Lemma hash_indep h w h' w' z : denotes h w z -> denotes h' w' z ->
  forall h0, exists v, hash w h0 h = Ok (v, h) /\ hash w' h0 h' = Ok (v, h').
Proof.
  intros D D' h0. eexists. split; [exact (hash_ok _ _ _ h0 D)|exact (hash_ok _ _ _ h0 D')].
Qed.

(** a concrete allocator for examples: the first free even address below 128 *)
Definition alloc0 (h : heap) : option Z :=
  find (fun a => match h a with None => true | _ => false end)
       (map (fun n => 2 * Z.of_nat n) (seq 1 63)).
Lemma alloc0_spec : alloc_spec alloc0.
Proof.
  intros h a E. unfold alloc0 in E. apply find_some in E as [Hin Hn].
  apply in_map_iff in Hin as (n & <- & Hn2). apply in_seq in Hn2.
  split; [destruct (h (2 * Z.of_nat n)); [discriminate|reflexivity]|].
  split; [rewrite Z.even_mul; reflexivity|lia].
Qed.

Lemma sub_ui_refuted :
  exists w c, denotes (fun _ => None) w 0 /\ 0 <= c < 2 ^ 64 /\
    exists d' h', sub_ui alloc0 init w c (fun _ => None) = Ok (d', h') /\
      denotes h' d' (2 ^ 63 - 1) /\ 0 - c <> 2 ^ 63 - 1.
Proof.
  exists init, (2 ^ 63 + 1). split; [vm_compute; repeat split; reflexivity|].
  split; [lia|]. eexists _, _. split; [vm_compute; reflexivity|].
  split; [vm_compute; reflexivity|lia].
Qed.

Lemma sub_ui_step alloc : alloc_spec alloc ->
  forall h s env (r i : nat) c,
    represents h s env -> (r < length s)%nat -> (i < length s)%nat ->
    0 <= c < 2 ^ 64 ->
    (- 2 ^ 63 <= nth i env 0 - c \/ 2 ^ 63 + 2 ^ 31 - 1 <= c \/
     is_big (nth i s init) = true) ->
    iexec alloc (ISubUi r i c) s h = OOM \/
    exists s' h', iexec alloc (ISubUi r i c) s h = Ok (s', h') /\
                  represents h' s' (lset env r (nth i env 0 - c)).
Proof.
  intros Ha h s env r i c R Hr Hi Hc Hcond.
  pose proof (represents_hwf _ _ _ R) as W.
  pose proof (rep_val _ _ _ R i Hi) as Vi. pose proof (rep_val _ _ _ R r Hr) as Vr.
  destruct (sub_ui_computes alloc Ha h (rd s r) (rd s i) (nth i env 0) W
              (denotes_owned _ _ _ Vr) Vi c Hc) as [E|(d' & h' & E & U)].
  - intros Sm. unfold rd in Sm. destruct Hcond as [H|[H|H]]; auto.
    rewrite (big_not_small _ H) in Sm. discriminate.
  - left. cbn [iexec]. unfold bind. rewrite E. reflexivity.
  - right. cbn [iexec]. unfold bind. rewrite E. eexists _, _. split; [reflexivity|].
    eapply represents_upd; eauto.
Qed.

Lemma get_d_refuted : exists h w, denotes h w (2 ^ 32) /\ get_d w h = Ok (1, h).
Proof.
  exists (fun a => if a =? 2 then Some (2 ^ 32) else None), 2.
  split; vm_compute; reflexivity.
Qed.
