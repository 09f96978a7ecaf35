(** Proofs about IdModel. *)
From Coq Require Import ZArith List Bool Lia ZifyBool Permutation.
From Verif Require Import HashModel HashProofs IdModel IdSpec.
Import ListNotations.
Open Scope Z_scope.

Lemma lxor_range n a b : 0 <= n -> 0 <= a < 2 ^ n -> 0 <= b < 2 ^ n -> 0 <= Z.lxor a b < 2 ^ n.
Proof.
  intros Hn Ha Hb. split; [apply Z.lxor_nonneg; lia|].
  assert (L : Z.lxor a b = Z.lxor a b mod 2 ^ n).
  { apply Z.bits_inj'. intros i Hi. destruct (Z_lt_dec i n).
    - rewrite Z.mod_pow2_bits_low by lia. reflexivity.
    - rewrite Z.mod_pow2_bits_high by lia. rewrite Z.lxor_spec.
      rewrite <- (Z.mod_small a (2 ^ n)), <- (Z.mod_small b (2 ^ n)) by assumption.
      rewrite !Z.mod_pow2_bits_high by lia. reflexivity. }
  rewrite L. apply Z.mod_pos_bound. apply Z.pow_pos_nonneg; lia.
Qed.
Lemma hash_chars_range s : forall h, 0 <= h < 2 ^ 32 -> 0 <= hash_chars h s < 2 ^ 32.
Proof.
  unfold hash_chars. induction s as [|c s IH]; intros h Hh; [exact Hh|]. cbn [fold_left]. apply IH.
  unfold hash_byte. apply lxor_range; [lia| |]; apply Z.mod_pos_bound; lia.
Qed.
Lemma id_hash_range k : 0 <= id_hash k < 2 ^ 32.
Proof. unfold id_hash. destruct (fst k); apply hash_chars_range; unfold hash_init; lia. Qed.

Lemma str_eqb_spec a b : str_eqb a b = true <-> a = b.
Proof.
  revert b. induction a as [|x a IH]; intros [|y b]; cbn; try (split; congruence).
  rewrite andb_true_iff, Z.eqb_eq. fold str_eqb. unfold str_eqb in IH. rewrite IH.
  split; [intros [-> ->]; reflexivity|intros E; injection E; auto].
Qed.
Lemma has_spec id k : has_name_and_user id k = true <-> nu id = k.
Proof.
  unfold has_name_and_user. destruct (nu id) as [n u], k as [n' u']. cbn [fst snd].
  destruct (Z.eqb_spec u u') as [->|Hu]; cbn [negb]; [|split; congruence].
  destruct n as [a|], n' as [b|]; try (split; congruence).
  rewrite str_eqb_spec. split; congruence.
Qed.

Definition R (s : istate) : Prop :=
  wf (tbl s) /\
  (forall hs a, In (hs, a) (contents (ents (tbl s))) <-> exists id, heap s a = Some id /\ hs = id_hash (nu id)) /\
  NoDup (map snd (contents (ents (tbl s)))) /\
  (forall a id, heap s a = Some id -> 1 <= ref id /\ hash id = id_hash (nu id)) /\
  (forall a b i j, heap s a = Some i -> heap s b = Some j -> nu i = nu j -> a = b).

Lemma R_init : R iinit.
Proof.
  unfold R, iinit. cbn [heap tbl].
  destruct (table_init_ok (D:=nat) 0 ltac:(lia)) as (b & -> & Hb & _).
  split; [apply empty_wf; exact Hb|]. cbn [ents]. rewrite contents_repeat.
  split; [intros; cbn; split; [tauto|intros (? & ? & _); discriminate]|].
  split; [constructor|]. split; [discriminate|]. intros; discriminate.
Qed.

(** changing the counters and the callback of an identifier *)
Lemma R_touch s a id r f : R s -> heap s a = Some id -> 1 <= r ->
  R (mki (hupd (heap s) a (Some (mkid r (nu id) (hash id) f))) (tbl s) (log s)).
Proof.
  intros (W & C & N & L & U) E Hr. unfold R. cbn [tbl heap].
  assert (G : forall b j, hupd (heap s) a (Some (mkid r (nu id) (hash id) f)) b = Some j ->
    exists j0, heap s b = Some j0 /\ nu j0 = nu j /\ hash j0 = hash j /\ (1 <= ref j0 -> 1 <= ref j)).
  { intros b j. unfold hupd. destruct (Nat.eqb_spec b a) as [->|].
    - intros [= <-]. exists id. cbn. auto.
    - intros Ej. exists j. auto. }
  assert (G' : forall b j0, heap s b = Some j0 -> exists j, hupd (heap s) a (Some (mkid r (nu id) (hash id) f)) b = Some j /\ nu j0 = nu j).
  { intros b j. unfold hupd. destruct (Nat.eqb_spec b a) as [->|]; intros Ej; [|eauto].
    eexists. split; [reflexivity|]. cbn. congruence. }
  split; [exact W|]. split.
  { intros hs b. rewrite C. split.
    - intros (j & Ej & ->). destruct (G' _ _ Ej) as (j' & Ej' & En). exists j'. split; [exact Ej'|]. congruence.
    - intros (j & Ej & ->). destruct (G _ _ Ej) as (j' & Ej' & En & _). exists j'. split; [exact Ej'|]. congruence. }
  split; [exact N|]. split.
  { intros b j Ej. destruct (G _ _ Ej) as (j' & Ej' & En & Eh & Hr'). destruct (L _ _ Ej') as [A B].
    split; [auto|congruence]. }
  intros b c i j Ei Ej En. destruct (G _ _ Ei) as (i' & Ei' & Eni & _). destruct (G _ _ Ej) as (j' & Ej' & Enj & _).
  apply (U b c i' j' Ei' Ej'). congruence.
Qed.

Lemma R_tbl s t : R s -> wf t -> Permutation (contents (ents t)) (contents (ents (tbl s))) ->
  R (mki (heap s) t (log s)).
Proof.
  intros (W & C & N & L & U) W' P. unfold R. cbn [tbl heap]. split; [exact W'|]. split.
  - intros hs a. rewrite <- C. split; apply Permutation_in; [exact P|symmetry; exact P].
  - split; [|split; assumption]. apply (Permutation_NoDup (l := map snd (contents (ents (tbl s))))); [|exact N].
    symmetry. apply Permutation_map. exact P.
Qed.

Lemma live_count s l : R s -> NoDup l -> (forall a, live (abs s) a <> None <-> In a l) ->
  cnt (tbl s) = Z.of_nat (length l).
Proof.
  intros (W & C & N & L & U) Nl Hl. destruct W as (_ & _ & -> & _). f_equal.
  rewrite <- (map_length snd). apply Permutation_length. apply NoDup_Permutation; [exact N|exact Nl|].
  intros a. rewrite <- Hl. cbn [abs live]. rewrite in_map_iff. split.
  - intros ([hs b] & <- & Hin). apply C in Hin as (id & E & _). cbn [snd]. rewrite E. discriminate.
  - destruct (heap s a) as [id|] eqn:E; [intros _|intros H; exfalso; apply H; reflexivity].
    exists (id_hash (nu id), a). split; [reflexivity|]. apply C. eauto.
Qed.

Lemma abs_touch s a id : seq (mkst (lupdate (live (abs s)) a (Some (abs_rec id))) (log s))
  (abs (mki (hupd (heap s) a (Some id)) (tbl s) (log s))).
Proof.
  split; [|reflexivity]. intros b. cbn. unfold lupdate, hupd.
  destruct (Nat.eq_dec b a), (Nat.eqb_spec b a); try congruence. reflexivity.
Qed.
Lemma seq_sym S T : seq S T -> seq T S.
Proof. intros [A B]. split; [intros; symmetry; apply A|congruence]. Qed.
Lemma seq_trans S T V : seq S T -> seq T V -> seq S V.
Proof. intros [A B] [C D]. split; [intros; rewrite A; apply C|congruence]. Qed.
Lemma seq_refl S : seq S S. Proof. split; reflexivity. Qed.

Lemma iexec_ok o s : R s -> sok o (abs s) ->
  exists r s' S', iexec o s = Some (r, s') /\ R s' /\ sstep o (abs s) r S' /\ seq S' (abs s').
Proof.
  intros HR Hok. pose proof HR as (W & C & N & L & U).
  destruct o as [k m g|a|a|a f]; cbn [sok] in Hok.
  - destruct Hok as [Hm (l & Nl & Hl & Hlen)]. rewrite <- (live_count s l HR Nl Hl) in Hlen.
    cbn [iexec]. unfold id_alloc.
    set (eq := at_id (heap s) (fun id => has_name_and_user id k)).
    assert (Hnone : (forall d, In (id_hash k, d) (contents (ents (tbl s))) -> eq d = Some false) ->
                    forall b r, live (abs s) b = Some r -> skey r <> k).
    { intros Hf b r Er Hk. cbn in Er. destruct (heap s b) as [id|] eqn:Eb; [|discriminate]. injection Er as <-.
      cbn in Hk. subst k. specialize (Hf b). unfold eq, at_id in Hf. rewrite Eb in Hf.
      assert (Ht : has_name_and_user id (nu id) = true) by (apply has_spec; reflexivity).
      rewrite Ht in Hf. discriminate Hf. apply C. eauto. }
    destruct (find_reserve g (tbl s) (id_hash k) eq W (id_hash_range k)) as [F|[F|F]].
    + intros d Hd. apply C in Hd as (id & E & _). unfold eq, at_id. rewrite E. discriminate.
    + exact Hlen.
    + destruct F as (h & a & Hh & Sl & Eq & ->).
      assert (Eg : eget (ents (tbl s)) h = (id_hash k, Some a)).
      { unfold slot in Sl. destruct (eget _ h) as [? [?|]]; congruence. }
      rewrite Eg. unfold id_copy. cbn [heap tbl log].
      unfold eq, at_id in Eq. destruct (heap s a) as [id|] eqn:Ea; [|discriminate].
      assert (Hk : nu id = k) by (apply has_spec; congruence).
      destruct (L a id Ea) as [Hr Hh']. replace (ref id <? 0) with false by lia.
      eexists _, _, _. split; [reflexivity|]. split; [apply R_touch; [exact HR|exact Ea|lia]|].
      split; [apply (SHit k m g a (abs_rec id)); [cbn; rewrite Ea; reflexivity|exact Hk]|].
      rewrite <- Hk. apply (abs_touch s a (mkid (ref id + 1) (nu id) (hash id) (free_user id))).
    + destruct F as (Hf & h & t0 & t' & -> & W0 & P & Rs). pose proof (Hnone Hf) as Hn.
      destruct m as [a|].
      * destruct (reserved_fill t0 (id_hash k) h t' a W0 (id_hash_range k) Rs) as (Eg & W' & _ & P').
        rewrite Eg. eexists _, _, _. split; [reflexivity|].
        specialize (Hm a eq_refl). cbn in Hm. destruct (heap s a) as [|] eqn:Ea; [discriminate|].
        assert (P'' : Permutation (contents (ents (mkt (bits t') (cnt t') (eset (ents t') h (id_hash k, Some a)))))
                        ((id_hash k, a) :: contents (ents (tbl s)))).
        { rewrite P'. constructor. exact P. }
        split.
        { unfold R. cbn [heap tbl]. split; [exact W'|]. split.
          { intros hs b. transitivity (In (hs, b) ((id_hash k, a) :: contents (ents (tbl s)))).
            { split; apply Permutation_in; [exact P''|symmetry; exact P'']. }
            cbn [In]. rewrite C. unfold hupd. destruct (Nat.eqb_spec b a) as [->|Hba].
            - split.
              + intros [E|(id & E & _)]; [|congruence]. injection E as <-. eexists. split; [reflexivity|]. reflexivity.
              + intros (id & E & ->). injection E as <-. left. reflexivity.
            - split; [intros [E|X]; [congruence|exact X]|intros X; right; exact X]. }
          split.
          { apply (Permutation_NoDup (l := map snd ((id_hash k, a) :: contents (ents (tbl s))))).
            - symmetry. apply Permutation_map. exact P''.
            - cbn [map snd]. constructor; [|exact N]. intros Hin. apply in_map_iff in Hin as ([hs b] & E & Hin).
              cbn in E. subst b. apply C in Hin as (id & E & _). congruence. }
          split.
          - intros b id. unfold hupd. destruct (Nat.eqb_spec b a) as [->|]; [|apply L].
            intros [= <-]. cbn. lia.
          - intros b c i j. unfold hupd. destruct (Nat.eqb_spec b a) as [->|], (Nat.eqb_spec c a) as [->|]; auto.
            + intros [= <-] Ej. cbn. intros En. exfalso. apply (Hn c (abs_rec j)); [cbn; rewrite Ej; reflexivity|].
              cbn. congruence.
            + intros Ei [= <-]. cbn. intros En. exfalso. apply (Hn b (abs_rec i)); [cbn; rewrite Ei; reflexivity|].
              cbn. congruence.
            + apply U. }
        split; [apply SNew; exact Hn|].
        apply (seq_trans _ _ _ (abs_touch s a (mkid 1 k (id_hash k) 0))). split; reflexivity.
      * destruct (reserved_undo t0 (id_hash k) h t' W0 Rs) as (Eg & W' & Ec). rewrite Eg.
        eexists _, _, _. split; [reflexivity|].
        split; [apply R_tbl; [exact HR|exact W'|rewrite Ec; exact P]|].
        split; [apply SNull; auto|split; reflexivity].
    + destruct F as (-> & Hf & ->). eexists _, _, _. split; [reflexivity|].
      split; [destruct s; exact HR|]. split; [apply SNull; [apply Hnone; exact Hf|auto]|split; reflexivity].
  - cbn [iexec]. unfold id_copy. cbn in Hok. destruct (heap s a) as [id|] eqn:Ea; [|cbn in Hok; congruence].
    destruct (L a id Ea) as [Hr _]. replace (ref id <? 0) with false by lia.
    eexists _, _, _. split; [reflexivity|]. split; [apply R_touch; [exact HR|exact Ea|lia]|].
    split; [apply (SCopy a (abs_rec id)); cbn; rewrite Ea; reflexivity|].
    apply (abs_touch s a (mkid (ref id + 1) (nu id) (hash id) (free_user id))).
  - cbn [iexec]. unfold id_free. cbn in Hok. destruct (heap s a) as [id|] eqn:Ea; [|cbn in Hok; congruence].
    destruct (L a id Ea) as [Hr Hh]. replace (ref id <? 0) with false by lia. cbn [ref].
    destruct (Z.ltb_spec 0 (ref id - 1)) as [H1|H1].
    + eexists _, _, _. split; [reflexivity|]. split; [apply R_touch; [exact HR|exact Ea|lia]|].
      split; [apply (SRelease a (abs_rec id)); cbn; [rewrite Ea; reflexivity|lia]|].
      apply (abs_touch s a (mkid (ref id - 1) (nu id) (hash id) (free_user id))).
    + cbn [hash nu free_user]. rewrite Hh.
      destruct (find_plain true (tbl s) (id_hash (nu id)) (fun b => Some (Nat.eqb b a)) W (id_hash_range _)) as [F|F].
      * discriminate.
      * destruct F as (h & b & Hh' & Sl & Eq & ->).
        assert (b = a) as -> by (injection Eq as Eq; apply Nat.eqb_eq; exact Eq).
        destruct (remove_ok (tbl s) h _ _ W Hh' Sl) as (t' & -> & W' & P).
        eexists _, _, _. split; [reflexivity|].
        assert (N' : NoDup (map snd ((id_hash (nu id), a) :: contents (ents t')))).
        { apply (Permutation_NoDup (l := map snd (contents (ents (tbl s))))); [apply Permutation_map; exact P|exact N]. }
        cbn [map snd] in N'. apply NoDup_cons_iff in N' as [Na N'].
        split.
        { unfold R. cbn [heap tbl]. split; [exact W'|]. split.
          { intros hs b. transitivity (In (hs, b) (contents (ents (tbl s))) /\ b <> a).
            - split.
              + intros Hin. split; [apply (Permutation_in _ (Permutation_sym P)); right; exact Hin|].
                intros ->. apply Na. apply in_map_iff. exists (hs, a). auto.
              + intros [Hin Hba]. apply (Permutation_in _ P) in Hin as [E|Hin]; [congruence|exact Hin].
            - rewrite C. unfold hupd. destruct (Nat.eqb_spec b a) as [->|Hba].
              + split; [intros [_ X]; congruence|intros (? & ? & _); discriminate].
              + tauto. }
          split; [exact N'|]. split.
          - intros b j. unfold hupd. destruct (Nat.eqb_spec b a); [discriminate|]. apply L.
          - intros b c i j. unfold hupd. destruct (Nat.eqb_spec b a); [discriminate|].
            destruct (Nat.eqb_spec c a); [discriminate|]. apply U. }
        split; [apply (SLast a (abs_rec id)); cbn; [rewrite Ea; reflexivity|lia]|].
        split; [|cbn; destruct (Z.eqb_spec (free_user id) 0), (Z.eq_dec (free_user id) 0); try congruence; apply app_nil_r].
        intros b. cbn. unfold lupdate, hupd. destruct (Nat.eq_dec b a), (Nat.eqb_spec b a); try congruence; reflexivity.
      * exfalso. destruct F as [Hf _]. assert (Hin : In (id_hash (nu id), a) (contents (ents (tbl s)))) by (apply C; eauto).
        specialize (Hf a Hin). cbn in Hf. rewrite Nat.eqb_refl in Hf. discriminate.
  - cbn [iexec]. unfold id_set_free_user. cbn in Hok. destruct (heap s a) as [id|] eqn:Ea; [|cbn in Hok; congruence].
    destruct (L a id Ea) as [Hr _].
    eexists _, _, _. split; [reflexivity|]. split; [apply R_touch; [exact HR|exact Ea|lia]|].
    split; [apply (SSetFree a f (abs_rec id)); cbn; rewrite Ea; reflexivity|].
    apply (abs_touch s a (mkid (ref id) (nu id) (hash id) f)).
Qed.

Lemma iexec_all_ok os : forall s, R s -> svalid os (abs s) ->
  exists rs s', iexec_all os s = Some (rs, s') /\ R s' /\ sruns os (abs s) rs (abs s').
Proof.
  induction os as [|o os IH]; intros s HR Hv; cbn [iexec_all].
  - exists [], s. split; [reflexivity|]. split; [exact HR|constructor].
  - destruct Hv as [Hok Hv]. destruct (iexec_ok o s HR Hok) as (r & s' & S' & -> & HR' & St & Sq).
    assert (Hst : step o (abs s) r (abs s')) by (exists S'; auto).
    destruct (IH s' HR' (Hv _ _ Hst)) as (rs & s'' & -> & HR'' & Rn).
    exists (r :: rs), s''. split; [reflexivity|]. split; [exact HR''|]. econstructor; eassumption.
Qed.

Lemma refines os : svalid os sinit ->
  exists rs s', iexec_all os iinit = Some (rs, s') /\ sruns os sinit rs (abs s').
Proof.
  intros Hv. destruct (iexec_all_ok os iinit R_init Hv) as (rs & s' & A & _ & B). exists rs, s'. auto.
Qed.
Lemma unique os rs s : svalid os sinit -> iexec_all os iinit = Some (rs, s) ->
  forall a b i j, heap s a = Some i -> heap s b = Some j -> (nu i = nu j <-> a = b).
Proof.
  intros Hv E. destruct (iexec_all_ok os iinit R_init Hv) as (rs' & s' & A & (_ & _ & _ & _ & U) & _).
  rewrite E in A. injection A as <- <-. intros a b i j Ei Ej. split; [apply (U a b i j Ei Ej)|]. intros ->. congruence.
Qed.

(** ** isl_id_cmp *)
Lemma strcmp_eq a : forall b, strcmp a b = 0 <-> a = b.
Proof.
  induction a as [|x a IH]; intros [|y b]; cbn; try (split; congruence).
  destruct (Z.eqb_spec x y) as [->|Hn].
  - rewrite IH. split; congruence.
  - destruct (_ <? _); split; congruence.
Qed.
Lemma strcmp_range a : forall b, strcmp a b = -1 \/ strcmp a b = 0 \/ strcmp a b = 1.
Proof.
  induction a as [|x a IH]; intros [|y b]; cbn; auto. destruct (x =? y); auto. destruct (_ <? _); auto.
Qed.
Definition okc (s : list Z) := Forall (fun c => -128 <= c < 128) s.
Lemma mod256 x : -128 <= x < 128 -> x mod 256 = if x <? 0 then x + 256 else x.
Proof.
  intros H. destruct (Z.ltb_spec x 0).
  - rewrite <- (Z.mod_small (x + 256) 256) by lia. rewrite <- Z.add_mod_idemp_r by lia.
    rewrite Z.mod_same by lia. f_equal. lia.
  - apply Z.mod_small. lia.
Qed.
Lemma strcmp_antisym a : forall b, okc a -> okc b -> strcmp b a = - strcmp a b.
Proof.
  induction a as [|x a IH]; intros [|y b] Ha Hb; cbn; auto.
  apply Forall_cons_iff in Ha as [Hx Ha]. apply Forall_cons_iff in Hb as [Hy Hb].
  rewrite Z.eqb_sym. destruct (Z.eqb_spec x y) as [->|Hn]; [apply IH; assumption|].
  rewrite !mod256 by assumption.
  destruct (Z.ltb_spec x 0), (Z.ltb_spec y 0); repeat match goal with |- context [?u <? ?v] => destruct (Z.ltb_spec u v) end; lia.
Qed.
Lemma strcmp_trans a : forall b c, okc a -> okc b -> okc c -> strcmp a b < 0 -> strcmp b c < 0 -> strcmp a c < 0.
Proof.
  induction a as [|x a IH]; intros [|y b] [|z c] Ha Hb Hc; cbn; try lia.
  apply Forall_cons_iff in Ha as [Hx Ha]. apply Forall_cons_iff in Hb as [Hy Hb]. apply Forall_cons_iff in Hc as [Hz Hc].
  destruct (Z.eqb_spec x y) as [->|Hxy].
  - destruct (Z.eqb_spec y z) as [->|Hyz]; [apply IH; assumption|]. auto.
  - destruct (Z.eqb_spec y z) as [->|Hyz].
    + destruct (Z.eqb_spec x z) as [->|]; [congruence|auto].
    + rewrite !mod256 by assumption.
      destruct (Z.ltb_spec x 0), (Z.ltb_spec y 0), (Z.ltb_spec z 0), (Z.eqb_spec x z);
      repeat match goal with |- context [?u <? ?v] => destruct (Z.ltb_spec u v) end; lia.
Qed.

Definition kcmp (k1 k2 : nukey) : Z :=
  let n1 := match fst k1 with None => 1 | Some _ => 0 end in
  let n2 := match fst k2 with None => 1 | Some _ => 0 end in
  if negb (n1 =? n2) then n1 - n2
  else
    let c := match fst k1, fst k2 with Some x, Some y => strcmp x y | _, _ => 0 end in
    if negb (c =? 0) then c
    else if snd k1 <? snd k2 then -1 else 1.
Lemma kcmp_antisym k1 k2 : key_ok k1 -> key_ok k2 -> k1 <> k2 -> kcmp k2 k1 = - kcmp k1 k2.
Proof.
  destruct k1 as [[s1|] u1], k2 as [[s2|] u2]; unfold kcmp, key_ok; cbn; intros H1 H2 Hn; auto.
  - rewrite (strcmp_antisym s1 s2) by assumption.
    destruct (Z.eqb_spec (strcmp s1 s2) 0) as [E|E].
    + rewrite E. cbn. apply strcmp_eq in E as ->. assert (u1 <> u2) by congruence.
      destruct (Z.ltb_spec u1 u2), (Z.ltb_spec u2 u1); lia.
    + destruct (Z.eqb_spec (- strcmp s1 s2) 0); [lia|]. reflexivity.
  - assert (u1 <> u2) by congruence. destruct (Z.ltb_spec u1 u2), (Z.ltb_spec u2 u1); lia.
Qed.
Lemma kcmp_trans k1 k2 k3 : key_ok k1 -> key_ok k2 -> key_ok k3 -> 
  kcmp k1 k2 < 0 -> kcmp k2 k3 < 0 -> kcmp k1 k3 < 0.
Proof.
  destruct k1 as [[s1|] u1], k2 as [[s2|] u2], k3 as [[s3|] u3]; unfold kcmp, key_ok; cbn; intros H1 H2 H3; try lia.
  - pose proof (strcmp_trans s1 s2 s3 H1 H2 H3) as T.
    destruct (Z.eqb_spec (strcmp s1 s2) 0) as [E|E]; cbn [negb];
    destruct (Z.eqb_spec (strcmp s2 s3) 0) as [F|F]; cbn [negb].
    + apply strcmp_eq in E as ->. apply strcmp_eq in F as ->. rewrite (proj2 (strcmp_eq s3 s3) eq_refl). cbn.
      destruct (Z.ltb_spec u1 u2), (Z.ltb_spec u2 u3), (Z.ltb_spec u1 u3); lia.
    + apply strcmp_eq in E as ->. destruct (Z.eqb_spec (strcmp s2 s3) 0); cbn [negb]; [congruence|]. auto.
    + apply strcmp_eq in F as ->. destruct (Z.eqb_spec (strcmp s1 s3) 0); cbn [negb]; [congruence|]. auto.
    + intros A B. specialize (T A B). destruct (Z.eqb_spec (strcmp s1 s3) 0); cbn [negb]; lia.
  - destruct (Z.ltb_spec u1 u2), (Z.ltb_spec u2 u3), (Z.ltb_spec u1 u3); lia.
Qed.

Lemma id_cmp_kcmp h a b i j : h a = Some i -> h b = Some j ->
  id_cmp h (Some a) (Some b) = Some (if Nat.eqb a b then 0 else kcmp (nu i) (nu j)).
Proof.
  intros Ei Ej. unfold id_cmp. destruct (Nat.eqb a b); [reflexivity|]. rewrite Ei, Ej. unfold kcmp.
  destruct (negb _); [reflexivity|]. destruct (negb _); [reflexivity|]. destruct (_ <? _); reflexivity.
Qed.
Lemma kcmp_nz k1 k2 : kcmp k1 k2 <> 0.
Proof.
  unfold kcmp. destruct (Z.eqb_spec (match fst k1 with None => 1 | Some _ => 0 end) (match fst k2 with None => 1 | Some _ => 0 end)); cbn [negb]; [|lia].
  destruct (Z.eqb_spec (match fst k1, fst k2 with Some x, Some y => strcmp x y | _, _ => 0 end) 0); cbn [negb]; [|assumption].
  destruct (_ <? _); lia.
Qed.

(** on the live identifiers of a context, isl_id_cmp is a total order *)
Lemma cmp_order (s : istate) :
  (forall a b i j, heap s a = Some i -> heap s b = Some j -> (nu i = nu j <-> a = b)) ->
  (forall a i, heap s a = Some i -> key_ok (nu i)) ->
  forall p q r,
    (forall a, p = Some a -> heap s a <> None) -> (forall a, q = Some a -> heap s a <> None) ->
    (forall a, r = Some a -> heap s a <> None) ->
  exists x y z x', id_cmp (heap s) p q = Some x /\ id_cmp (heap s) q r = Some y /\
    id_cmp (heap s) p r = Some z /\ id_cmp (heap s) q p = Some x' /\
    (x = 0 <-> p = q) /\ x' = - x /\ (x < 0 -> y < 0 -> z < 0).
Proof.
  intros U K p q r Hp Hq Hr.
  assert (G : forall p, (forall a, p = Some a -> heap s a <> None) -> p = None \/ exists a i, p = Some a /\ heap s a = Some i).
  { intros [a|] H; [right|left; reflexivity]. specialize (H a eq_refl). destruct (heap s a) as [i|] eqn:E; [eauto|congruence]. }
  assert (S2 : forall p q, (forall a, p = Some a -> heap s a <> None) -> (forall a, q = Some a -> heap s a <> None) ->
    exists x, id_cmp (heap s) p q = Some x /\ id_cmp (heap s) q p = Some (- x) /\ (x = 0 <-> p = q)).
  { clear p q r Hp Hq Hr. intros p q Hp Hq.
    destruct (G p Hp) as [->|(a & i & -> & Ei)], (G q Hq) as [->|(b & j & -> & Ej)].
    - exists 0. cbn. tauto.
    - exists (-1). cbn. split; [reflexivity|]. split; [reflexivity|]. split; [lia|discriminate].
    - exists 1. cbn. split; [reflexivity|]. split; [reflexivity|]. split; [lia|discriminate].
    - eexists. rewrite (id_cmp_kcmp _ a b i j Ei Ej), (id_cmp_kcmp _ b a j i Ej Ei), (Nat.eqb_sym b a).
      split; [reflexivity|]. destruct (Nat.eqb_spec a b) as [->|Hn]; [split; [reflexivity|tauto]|].
      split; [|split; [intros X; destruct (kcmp_nz _ _ X)|congruence]].
      f_equal. apply kcmp_antisym; [exact (K _ _ Ei)|exact (K _ _ Ej)|]. intros E. apply Hn. apply (U a b i j Ei Ej). exact E. }
  destruct (S2 p q Hp Hq) as (x & Ex & Ex' & Zx), (S2 q r Hq Hr) as (y & Ey & Ey' & Zy), (S2 p r Hp Hr) as (z & Ez & Ez' & Zz).
  exists x, y, z, (- x). split; [exact Ex|]. split; [exact Ey|]. split; [exact Ez|]. split; [exact Ex'|].
  split; [exact Zx|]. split; [reflexivity|]. intros Lx Ly.
  destruct (G p Hp) as [->|(a & i & -> & Ei)], (G q Hq) as [->|(b & j & -> & Ej)], (G r Hr) as [->|(c & k & -> & Ek)];
    try (cbn in Ex, Ey, Ez; injection Ex as <-; lia); try (cbn in Ey; injection Ey as <-; lia); try (cbn in Ez; injection Ez as <-; lia).
  rewrite (id_cmp_kcmp _ a b i j Ei Ej) in Ex. rewrite (id_cmp_kcmp _ b c j k Ej Ek) in Ey.
  rewrite (id_cmp_kcmp _ a c i k Ei Ek) in Ez. injection Ex as <-. injection Ey as <-. injection Ez as <-.
  destruct (Nat.eqb_spec a b) as [->|Hab]; [lia|]. destruct (Nat.eqb_spec b c) as [->|Hbc]; [lia|].
  pose proof (kcmp_trans (nu i) (nu j) (nu k) (K _ _ Ei) (K _ _ Ej) (K _ _ Ek) Lx Ly) as T.
  destruct (Nat.eqb_spec a c) as [->|Hac]; [|exact T].
  exfalso. assert (i = k) by congruence. subst k. 
  rewrite (kcmp_antisym (nu i) (nu j)) in Ly; [lia|exact (K _ _ Ei)|exact (K _ _ Ej)|].
  intros E. apply Hab. apply (U c b i j Ei Ej). exact E.
Qed.
Lemma cmp_reachable os rs s : svalid os sinit -> iexec_all os iinit = Some (rs, s) ->
  (forall a i, heap s a = Some i -> key_ok (nu i)) ->
  forall p q r,
    (forall a, p = Some a -> heap s a <> None) -> (forall a, q = Some a -> heap s a <> None) ->
    (forall a, r = Some a -> heap s a <> None) ->
  exists x y z x', id_cmp (heap s) p q = Some x /\ id_cmp (heap s) q r = Some y /\
    id_cmp (heap s) p r = Some z /\ id_cmp (heap s) q p = Some x' /\
    (x = 0 <-> p = q) /\ x' = - x /\ (x < 0 -> y < 0 -> z < 0).
Proof. intros Hv E K. apply cmp_order; [|exact K]. exact (unique os rs s Hv E). Qed.

(** ** Deciding whether a concrete history is valid (used by the examples) *)
Notation alist := (list (nat * srec)).
Definition alook (l : alist) (a : nat) : option srec :=
  match List.find (fun p => Nat.eqb (fst p) a) l with Some p => Some (snd p) | None => None end.
Definition arem (l : alist) (a : nat) : alist := filter (fun p => negb (Nat.eqb (fst p) a)) l.
Definition keyb (k1 k2 : nukey) : bool := has_name_and_user (mkid 0 k1 0 0) k2.
Lemma keyb_spec k1 k2 : keyb k1 k2 = true <-> k1 = k2.
Proof. unfold keyb. rewrite has_spec. reflexivity. Qed.
Definition xstep (o : iop) (l : alist) : option alist :=
  match o with
  | IAlloc k (Some a) true =>
    match alook l a, filter (fun p => keyb (skey (snd p)) k) l with
    | None, [] => Some ((a, mks k 1 0) :: l)
    | None, [(b, r)] => if Nat.eqb (length (filter (fun p => Nat.eqb (fst p) b) l)) 1
                        then Some ((b, mks k (srefs r + 1) (sfree r)) :: arem l b) else None
    | _, _ => None
    end
  | ICopy a => match alook l a with
               | Some r => Some ((a, mks (skey r) (srefs r + 1) (sfree r)) :: arem l a) | None => None end
  | ISetFree a f => match alook l a with
                    | Some r => Some ((a, mks (skey r) (srefs r) f) :: arem l a) | None => None end
  | IFree a => match alook l a with
               | Some r => if srefs r =? 1 then Some (arem l a)
                           else if 1 <? srefs r then Some ((a, mks (skey r) (srefs r - 1) (sfree r)) :: arem l a)
                           else None
               | None => None end
  | _ => None
  end.
Definition small (l : alist) : Prop := Z.of_nat (length l) < 2 ^ 29 - 1.
Lemma alook_in l a r : alook l a = Some r -> In (a, r) l.
Proof.
  unfold alook. destruct (List.find _ l) as [[b r']|] eqn:E; [|discriminate]. apply find_some in E as [Hin Hb].
  cbn in Hb. apply Nat.eqb_eq in Hb as <-. intros [= <-]. exact Hin.
Qed.
Lemma alook_ex l a r : In (a, r) l -> exists r', alook l a = Some r'.
Proof.
  unfold alook. intros Hin. destruct (List.find _ l) as [p|] eqn:E; [eauto|].
  apply (find_none _ _ E) in Hin. cbn in Hin. rewrite Nat.eqb_refl in Hin. discriminate.
Qed.
Lemma alook_arem l a b : alook (arem l a) b = if Nat.eq_dec b a then None else alook l b.
Proof.
  unfold alook, arem. induction l as [|[c r] l IH]; cbn [filter List.find fst].
  - destruct (Nat.eq_dec b a); reflexivity.
  - destruct (Nat.eqb_spec c a) as [->|Hc]; cbn [negb List.find fst].
    + rewrite IH. destruct (Nat.eq_dec b a) as [->|]; [reflexivity|]. destruct (Nat.eqb_spec a b); [congruence|reflexivity].
    + destruct (Nat.eqb_spec c b) as [->|]; [|exact IH]. destruct (Nat.eq_dec b a); [congruence|reflexivity].
Qed.
Lemma alook_cons a r l b : alook ((a, r) :: l) b = if Nat.eq_dec b a then Some r else alook l b.
Proof.
  unfold alook. cbn [List.find fst]. destruct (Nat.eqb_spec a b), (Nat.eq_dec b a); congruence || reflexivity.
Qed.
Lemma alook_put l a r b : alook ((a, r) :: arem l a) b = lupdate (alook l) a (Some r) b.
Proof. rewrite alook_cons, alook_arem. unfold lupdate. destruct (Nat.eq_dec b a); reflexivity. Qed.
Lemma lupdate_ext f g a o b : (forall c, f c = g c) -> lupdate f a o b = lupdate g a o b.
Proof. intros H. unfold lupdate. rewrite H. reflexivity. Qed.

Lemma count_ok l S : small l -> (forall a, live S a = alook l a) ->
  exists m, NoDup m /\ (forall a, live S a <> None <-> In a m) /\ Z.of_nat (length m) < 2 ^ 29 - 1.
Proof.
  intros Hs HS. exists (nodup Nat.eq_dec (map fst l)). split; [apply NoDup_nodup|]. split.
  - intros a. rewrite HS, nodup_In, in_map_iff. split.
    + destruct (alook l a) as [r|] eqn:E; [|congruence]. intros _. exists (a, r). split; [reflexivity|]. apply alook_in. exact E.
    + intros ([b r] & Eb & Hin). cbn in Eb. subst b. destruct (alook_ex _ _ _ Hin) as (r' & ->). discriminate.
  - unfold small in Hs. pose proof (NoDup_incl_length (NoDup_nodup Nat.eq_dec (map fst l)) (l' := map fst l)) as H.
    rewrite map_length in H. assert (incl (nodup Nat.eq_dec (map fst l)) (map fst l)); [|specialize (H H0); lia].
    intros x. rewrite nodup_In. auto.
Qed.
Lemma xstep_ok o l l' S : small l -> (forall a, live S a = alook l a) -> xstep o l = Some l' ->
  sok o S /\ forall r S', step o S r S' -> forall a, live S' a = alook l' a.
Proof.
  intros Hs HS Hx. destruct o as [k m g|a|a|a f]; [destruct m as [a|]; [destruct g|]| | |]; cbn [xstep] in Hx; try discriminate.
  - destruct (alook l a) as [|] eqn:Ea; [discriminate|]. split.
    { split; [intros b [= <-]; rewrite HS; exact Ea|]. exact (count_ok l S Hs HS). }
    intros r S' (T & St & [Sq _]) c. rewrite <- Sq.
    destruct (filter _ l) as [|[b rb] [|]] eqn:Ef; [| |discriminate].
    + injection Hx as <-. rewrite alook_cons.
      inversion St; subst; cbn [live].
      * exfalso. assert (Hin : In (a0, r0) l) by (apply alook_in; rewrite <- HS; assumption).
        assert (In (a0, r0) []); [|contradiction]. rewrite <- Ef. apply filter_In. split; [exact Hin|].
        cbn. apply keyb_spec. reflexivity.
      * rewrite (lupdate_ext _ _ _ _ _ HS). reflexivity.
      * match goal with H : _ = None \/ _ |- _ => destruct H; discriminate end.
    + destruct (Nat.eqb_spec (length (filter (fun p => Nat.eqb (fst p) b) l)) 1) as [El|]; [|discriminate].
      injection Hx as <-. assert (Hb : In (b, rb) l /\ keyb (skey rb) k = true).
      { assert (Hin : In (b, rb) (filter (fun p => keyb (skey (snd p)) k) l)) by (rewrite Ef; left; reflexivity).
        apply filter_In in Hin. exact Hin. }
      destruct Hb as [Hb Kb]. apply keyb_spec in Kb.
      assert (Eb : alook l b = Some rb).
      { destruct (alook_ex _ _ _ Hb) as (r' & Er). rewrite Er. apply alook_in in Er.
        assert (I1 : In (b, rb) (filter (fun p => Nat.eqb (fst p) b) l)) by (apply filter_In; split; [exact Hb|apply Nat.eqb_refl]).
        assert (I2 : In (b, r') (filter (fun p => Nat.eqb (fst p) b) l)) by (apply filter_In; split; [exact Er|apply Nat.eqb_refl]).
        destruct (filter (fun p => Nat.eqb (fst p) b) l) as [|x [|]]; cbn in El; try lia.
        destruct I1 as [->|[]], I2 as [[= ->]|[]]. reflexivity. }
      rewrite alook_put. inversion St; subst; cbn [live].
      * assert (Hin : In (a0, r0) l) by (apply alook_in; rewrite <- HS; assumption).
        assert (Hin' : In (a0, r0) [(b, rb)]).
        { rewrite <- Ef. apply filter_In. split; [exact Hin|]. cbn. apply keyb_spec. congruence. }
        destruct Hin' as [[= <- <-]|[]]. apply lupdate_ext. exact HS.
      * exfalso. match goal with H : forall b r, live S b = Some r -> _ |- _ => apply (H b rb) end; [rewrite HS; exact Eb|reflexivity].
      * match goal with H : _ = None \/ _ |- _ => destruct H; discriminate end.
  - destruct (alook l a) as [r0|] eqn:Ea; [|discriminate]. injection Hx as <-.
    split; [cbn; rewrite HS, Ea; discriminate|]. intros r S' (T & St & [Sq _]) c. rewrite <- Sq, alook_put.
    inversion St; subst; cbn [live]. assert (r1 = r0) as -> by (rewrite HS in *; congruence). apply lupdate_ext. exact HS.
  - destruct (alook l a) as [r0|] eqn:Ea; [|discriminate].
    split; [cbn; rewrite HS, Ea; discriminate|]. intros r S' (T & St & [Sq _]) c. rewrite <- Sq.
    inversion St; subst; cbn [live]; assert (r1 = r0) as -> by (rewrite HS in *; congruence).
    + destruct (Z.eqb_spec (srefs r0) 1); [lia|]. destruct (1 <? srefs r0); [|discriminate]. injection Hx as <-.
      rewrite alook_put. apply lupdate_ext. exact HS.
    + destruct (Z.eqb_spec (srefs r0) 1); [|lia]. injection Hx as <-. rewrite alook_arem. unfold lupdate.
      rewrite HS. reflexivity.
  - destruct (alook l a) as [r0|] eqn:Ea; [|discriminate]. injection Hx as <-.
    split; [cbn; rewrite HS, Ea; discriminate|]. intros r S' (T & St & [Sq _]) c. rewrite <- Sq, alook_put.
    inversion St; subst; cbn [live]. assert (r1 = r0) as -> by (rewrite HS in *; congruence). apply lupdate_ext. exact HS.
Qed.
Fixpoint xvalid (os : list iop) (l : alist) : bool :=
  match os with
  | [] => true
  | o :: os' => (Z.of_nat (length l) <? 2 ^ 29 - 1) &&
                match xstep o l with Some l' => xvalid os' l' | None => false end
  end.
Lemma xvalid_ok os : forall l S, (forall a, live S a = alook l a) -> xvalid os l = true -> svalid os S.
Proof.
  induction os as [|o os IH]; intros l S HS Hx; cbn [svalid]; [exact Logic.I|]. cbn [xvalid] in Hx.
  apply andb_true_iff in Hx as [Hl Hx]. destruct (xstep o l) as [l'|] eqn:E; [|discriminate].
  destruct (xstep_ok o l l' S) as [A B]; [unfold small; lia|exact HS|exact E|]. split; [exact A|].
  intros r S' St. apply (IH l'); [|exact Hx]. exact (B r S' St).
Qed.
Lemma xvalid_init os : xvalid os [] = true -> svalid os sinit.
Proof. apply xvalid_ok. reflexivity. Qed.
