(** Proofs about StreamModel. *)
From Coq Require Import ZArith List Bool String Lia ZifyBool QArith.
From Verif Require Import ValModel ValSpec ValProofs StreamModel.
Import ListNotations.
Open Scope Z_scope.

(** the stream [s] still has the characters [l] to deliver, and at most [k]
    of them come from the unget buffer *)
Definition at_ (k : nat) (s : stream) (l : list Z) : Prop :=
  s_tok s = [] /\
  (s_eof s = false /\ s_un s ++ s_str s = l /\ (List.length (s_un s) <= k)%nat \/
   s_eof s = true /\ l = []).

Lemma at_weaken s l : at_ 0 s l -> at_ 1 s l.
Proof. intros (T & [(E & U & L) | (E & U)]); (split; [exact T|]); [left|right; auto].
  repeat split; auto; lia. Qed.

Lemma getc_cons s c l : at_ 1 s (c :: l) -> exists s', stream_getc s = (c, s') /\ at_ 0 s' l.
Proof.
  intros (T & [(E & U & L) | (E & U)]); [|discriminate]. unfold stream_getc. rewrite E.
  destruct (s_un s) as [|u [|u' un]] eqn:Un; cbn in U, L; try lia.
  - destruct (s_str s) as [|c' str]; [discriminate|]. injection U as -> ->.
    eexists. split; [reflexivity|]. split; [exact T|]. left. cbn. auto.
  - injection U as -> <-. eexists. split; [reflexivity|]. split; [exact T|]. left. cbn. auto.
Qed.
Lemma getc_nil s : at_ 1 s [] -> exists s', stream_getc s = (-1, s') /\ at_ 0 s' [].
Proof.
  intros (T & [(E & U & L) | (E & U)]); unfold stream_getc; rewrite E.
  - apply app_eq_nil in U as [-> ->]. eexists. split; [reflexivity|]. split; [exact T|]. right. auto.
  - eexists. split; [reflexivity|]. split; [exact T|]. right; auto.
Qed.
Lemma sgetc_cons s c l : at_ 1 s (c :: l) -> c <> 92 -> exists s', sgetc s = Some (c, s') /\ at_ 0 s' l.
Proof.
  intros H Hc. destruct (getc_cons _ _ _ H) as (s' & E & H'). exists s'. split; [|exact H'].
  unfold sgetc, sfuel. cbn [sgetc_loop]. rewrite E. destruct (Z.eqb_spec c 92); [congruence|reflexivity].
Qed.
Lemma sgetc_nil s : at_ 1 s [] -> exists s', sgetc s = Some (-1, s') /\ at_ 0 s' [].
Proof.
  intros H. destruct (getc_nil _ H) as (s' & E & H'). exists s'. split; [|exact H'].
  unfold sgetc, sfuel. cbn [sgetc_loop]. rewrite E. reflexivity.
Qed.
Lemma unget_at s c l : at_ 0 s l -> (c = -1 /\ l = [] \/ c <> -1 /\ s_eof s = false) ->
  at_ 1 (unget_if s c) (if c =? -1 then [] else c :: l).
Proof.
  intros H [(-> & ->) | (Hc & He)].
  - cbn. apply at_weaken. exact H.
  - unfold unget_if. destruct (Z.eqb_spec c (-1)); [congruence|].
    destruct H as (T & [(E & U & L) | (E & U)]); [|congruence].
    unfold stream_ungetc. destruct (s_un s); cbn in L; [|lia].
    split; [exact T|]. left. cbn in *. repeat split; auto. congruence.
Qed.
Lemma getc_cons_eof s c l : at_ 1 s (c :: l) -> forall s', stream_getc s = (c, s') -> s_eof s' = false.
Proof.
  intros (T & [(E & U & L) | (E & U)]) s'; [|discriminate]. unfold stream_getc. rewrite E.
  destruct (s_un s), (s_str s); intros H; injection H as H1 <-; try reflexivity.
  cbn in U. discriminate.
Qed.
Lemma sgetc_cons' s c l : at_ 1 s (c :: l) -> c <> 92 ->
  exists s', sgetc s = Some (c, s') /\ at_ 0 s' l /\ s_eof s' = false.
Proof.
  intros H Hc. destruct (getc_cons _ _ _ H) as (s' & E & H'). exists s'.
  pose proof (getc_cons_eof _ _ _ H _ E). split; [|auto].
  unfold sgetc, sfuel. cbn [sgetc_loop]. rewrite E. destruct (Z.eqb_spec c 92); [congruence|reflexivity].
Qed.

(** next character: the head of [l] or EOF *)
Definition hd_ (l : list Z) : Z := match l with [] => -1 | c :: _ => c end.
Lemma sgetc_hd s l : at_ 1 s l -> hd_ l <> 92 -> (l <> [] -> hd_ l <> -1) ->
  exists s', sgetc s = Some (hd_ l, s') /\ at_ 0 s' (tl l) /\ at_ 1 (unget_if s' (hd_ l)) l.
Proof.
  intros H H92 Hm1. destruct l as [|c l].
  - destruct (sgetc_nil s H) as (s' & E & H'). exists s'. split; [exact E|]. split; [exact H'|].
    cbn. apply at_weaken. exact H'.
  - destruct (sgetc_cons' s c l H H92) as (s' & E & H' & Ee). exists s'. split; [exact E|].
    split; [exact H'|]. cbn [hd_] in *. specialize (Hm1 ltac:(discriminate)).
    pose proof (unget_at s' c l H' (or_intror (conj Hm1 Ee))) as K.
    destruct (Z.eqb_spec c (-1)); [congruence|exact K].
Qed.

Lemma take_while_ok P : forall ds rest fuel s,
  (List.length ds < fuel)%nat -> at_ 1 s (ds ++ rest) ->
  (forall c, In c ds -> P c = true /\ c <> 92 /\ c <> -1) ->
  (P (hd_ rest) = false \/ rest = []) -> hd_ rest <> 92 -> (rest <> [] -> hd_ rest <> -1) ->
  exists s', take_while P fuel s = Some (ds, hd_ rest, s') /\ at_ 1 (unget_if s' (hd_ rest)) rest.
Proof.
  induction ds as [|d ds IH]; intros rest [|fuel] s Hf H Hd Hr H92 Hm; try (cbn in Hf; lia).
  - cbn [take_while app] in *. destruct (sgetc_hd s rest H H92 Hm) as (s' & E & _ & K).
    rewrite E. exists s'. split; [|exact K].
    destruct Hr as [-> | ->]; [rewrite andb_false_r; reflexivity|reflexivity].
  - cbn [take_while]. destruct (Hd d (or_introl eq_refl)) as (Pd & D92 & Dm).
    cbn [app] in H. destruct (sgetc_cons s d _ H D92) as (s' & E & K). rewrite E.
    destruct (Z.eqb_spec d (-1)); [congruence|]. rewrite Pd. cbn [negb andb].
    destruct (IH rest fuel s') as (s2 & E2 & K2); auto.
    + cbn in Hf. lia.
    + apply at_weaken. exact K.
    + intros c Hc. apply Hd. right. exact Hc.
    + rewrite E2. exists s2. auto.
Qed.

(** ** decimal digits *)
Definition digits_ok (l : list Z) := forall c, In c l -> is_digit c = true.

Lemma dec_digits_spec : forall fuel n acc,
  0 <= n < 2 ^ Z.of_nat fuel -> (0 < fuel)%nat ->
  exists ds, dec_digits fuel n acc = ds ++ acc /\ digits_ok ds /\ ds <> [] /\ dec_value ds = n.
Proof.
  induction fuel as [|f IH]; intros n acc Hn Hf; [lia|].
  cbn [dec_digits].
  pose proof (Z.mod_pos_bound n 10 ltac:(lia)) as Mb.
  pose proof (Z.div_mod n 10 ltac:(lia)) as Dm.
  assert (Hd : is_digit (48 + n mod 10) = true) by (unfold is_digit; lia).
  destruct (Z.eqb_spec (n / 10) 0) as [E|E].
  - exists [48 + n mod 10]. split; [reflexivity|]. split; [intros c [<-|[]]; exact Hd|].
    split; [discriminate|]. unfold dec_value. cbn [fold_left]. lia.
  - assert (Hf' : (0 < f)%nat).
    { destruct f; [|lia]. cbn in Hn. assert (n / 10 = 0) by (apply Z.div_small; lia). congruence. }
    destruct (IH (n / 10) (48 + n mod 10 :: acc)) as (ds & Ed & Dd & Dn & Dv).
    + split; [apply Z.div_pos; lia|]. apply Z.div_lt_upper_bound; [lia|].
      rewrite Nat2Z.inj_succ, Z.pow_succ_r in Hn by lia.
      assert (0 < 2 ^ Z.of_nat f) by (apply Z.pow_pos_nonneg; lia). lia.
    + exact Hf'.
    + exists (ds ++ [48 + n mod 10]). split; [rewrite Ed, <- app_assoc; reflexivity|].
      split; [intros c Hc; apply in_app_or in Hc as [Hc|[<-|[]]]; auto|].
      split; [destruct ds; discriminate|].
      unfold dec_value in *. rewrite fold_left_app, Dv. cbn [fold_left]. lia.
Qed.
Lemma dec_print_spec n : 0 <= n -> exists ds, dec_print n = ds /\ digits_ok ds /\ ds <> [] /\ dec_value ds = n.
Proof.
  intros Hn. unfold dec_print. destruct (Z.ltb_spec n 0); [lia|].
  destruct (dec_digits_spec (S (Z.to_nat (Z.log2 n))) n []) as (ds & E & A).
  - split; [exact Hn|]. rewrite Nat2Z.inj_succ, Z2Nat.id by apply Z.log2_nonneg.
    destruct (Z.eq_dec n 0) as [->|]; [reflexivity|]. apply Z.log2_spec. lia.
  - lia.
  - exists ds. rewrite app_nil_r in E. auto.
Qed.
Lemma int_read_digits d l : is_digit d = true -> int_read (d :: l) = dec_value (d :: l).
Proof.
  intros H. unfold is_digit in H.
  assert (d <> 45) by lia. unfold int_read.
  destruct d as [|p|p]; try reflexivity.
  do 6 (destruct p as [p|p|]; try reflexivity); cbn in H0; congruence.
Qed.

(** ** tokens *)
Lemma skip_space_hd s c l : at_ 1 s (c :: l) -> c <> 92 -> c <> -1 -> c <> 35 -> is_space c = false ->
  exists s', skip_space (sfuel s) s = Some (c, s') /\ at_ 0 s' l.
Proof.
  intros H H92 Hm H35 Hs. unfold sfuel. cbn [skip_space].
  destruct (sgetc_cons s c l H H92) as (s' & E & K). rewrite E.
  destruct (Z.eqb_spec c (-1)); [congruence|]. destruct (Z.eqb_spec c 35); [congruence|].
  rewrite Hs. cbn [negb]. eauto.
Qed.

Definition sep (rest : list Z) : Prop := rest = [] \/ exists r, rest = 47 :: r.
Lemma sep_hd rest : sep rest -> is_digit (hd_ rest) = false /\ hd_ rest <> 92 /\ (rest <> [] -> hd_ rest <> -1) /\
  (is_digit (hd_ rest) = false \/ rest = []).
Proof. intros [-> | (r & ->)]; cbn; repeat split; auto; try lia; congruence. Qed.

Lemma at_fuel s l : at_ 1 s l -> (List.length l < sfuel s)%nat.
Proof.
  intros (T & [(E & U & L) | (E & U)]); unfold sfuel; subst; [|cbn; lia].
  rewrite app_length. lia.
Qed.

Lemma digit_single c : is_digit c = true -> single c = false.
Proof.
  unfold is_digit. intros H. assert (H' : 48 <= c <= 57) by lia.
  assert (D : c = 48 \/ c = 49 \/ c = 50 \/ c = 51 \/ c = 52 \/ c = 53 \/ c = 54 \/ c = 55 \/ c = 56 \/ c = 57) by lia.
  repeat destruct D as [->|D]; try reflexivity. subst; reflexivity.
Qed.

Lemma token_nonneg s n rest : 0 <= n -> at_ 1 s (dec_print n ++ rest) -> sep rest ->
  exists s', stream_next_token s = Some (Some (TVal n), s') /\ at_ 1 s' rest.
Proof.
  intros Hn H Hsep. destruct (dec_print_spec n Hn) as (ds & E & Dd & Dn & Dv). rewrite E in H.
  destruct ds as [|d ds]; [congruence|]. clear Dn. cbn [app] in H.
  pose proof (Dd d (or_introl eq_refl)) as Hd.
  destruct (skip_space_hd s d (ds ++ rest) H) as (s1 & E1 & K1); try (unfold is_digit in Hd; lia).
  { unfold is_digit in Hd; unfold is_space; lia. }
  unfold stream_next_token. destruct H as (T & _). rewrite T, E1.
  replace (d =? -1) with false by (unfold is_digit in Hd; lia).
  rewrite (digit_single d Hd).
  replace (d =? 45) with false by (unfold is_digit in Hd; lia). rewrite Hd. cbn [orb andb].
  destruct (sep_hd rest Hsep) as (S1 & S2 & S3 & S4).
  destruct (take_while_ok is_digit ds rest (sfuel s1) s1) as (s2 & E2 & K2); auto.
  - pose proof (at_fuel s1 (ds ++ rest) (at_weaken _ _ K1)) as F. rewrite app_length in F. lia.
  - apply at_weaken. exact K1.
  - intros c Hc. pose proof (Dd c (or_intror Hc)) as D. split; [exact D|]. unfold is_digit in D; lia.
  - rewrite E2. exists (unget_if s2 (hd_ rest)). split; [|exact K2].
    rewrite int_read_digits by exact Hd. rewrite Dv. reflexivity.
Qed.

Lemma token_neg s n rest : 0 < n -> at_ 1 s (45 :: dec_print n ++ rest) -> sep rest ->
  exists s', stream_next_token s = Some (Some (TVal (- n)), s') /\ at_ 1 s' rest.
Proof.
  intros Hn H Hsep. destruct (dec_print_spec n ltac:(lia)) as (ds & E & Dd & Dn & Dv). rewrite E in H.
  destruct (skip_space_hd s 45 (ds ++ rest) H) as (s1 & E1 & K1); try lia; [reflexivity|].
  unfold stream_next_token. destruct H as (T & _). rewrite T, E1.
  change (45 =? -1) with false. change (single 45) with false. change (45 =? 45) with true. cbv iota.
  destruct ds as [|d ds]; [congruence|]. clear Dn. cbn [app] in K1.
  pose proof (Dd d (or_introl eq_refl)) as Hd. unfold is_digit in Hd.
  destruct (sgetc_hd s1 (d :: ds ++ rest) (at_weaken _ _ K1)) as (s2 & E2 & _ & K2);
    [cbn; lia|intros _; cbn; lia|]. cbn [hd_] in E2, K2. rewrite E2.
  replace (d =? 62) with false by lia. fold (is_digit d) in Hd. rewrite Hd. cbn [negb orb andb].
  destruct (sep_hd rest Hsep) as (S1 & S2 & S3 & S4).
  destruct (take_while_ok is_digit (d :: ds) rest (sfuel (unget_if s2 d)) (unget_if s2 d)) as (s3 & E3 & K3); auto.
  - pose proof (at_fuel _ _ K2) as F. cbn [List.length] in *. rewrite app_length in F. lia.
  - intros c Hc. pose proof (Dd c Hc) as D. split; [exact D|]. unfold is_digit in D; lia.
  - rewrite E3. exists (unget_if s3 (hd_ rest)). split; [|exact K3].
    unfold int_read. rewrite Dv. destruct (Z.eqb_spec (- n) 0); [lia|reflexivity].
Qed.

Lemma token_slash s n rest : 0 <= n -> at_ 1 s (47 :: dec_print n ++ rest) ->
  exists s', stream_next_token s = Some (Some (TChar 47), s') /\ at_ 1 s' (dec_print n ++ rest).
Proof.
  intros Hn H. destruct (dec_print_spec n Hn) as (ds & E & Dd & Dn & Dv). rewrite E in *.
  destruct (skip_space_hd s 47 (ds ++ rest) H) as (s1 & E1 & K1); try lia; [reflexivity|].
  unfold stream_next_token. destruct H as (T & _). rewrite T, E1.
  change (47 =? -1) with false. change (single 47) with false. change (47 =? 45) with false. cbv iota.
  change (is_digit 47) with false. change (is_alpha 47) with false. cbn [orb].
  change (47 =? 95) with false. change (47 =? 34) with false. change (47 =? 61) with false.
  change (47 =? 58) with false. change (47 =? 62) with false. change (47 =? 60) with false.
  change (47 =? 38) with false. change (47 =? 124) with false. change (47 =? 47) with true. cbv iota.
  destruct ds as [|d ds]; [congruence|]. clear Dn. cbn [app] in *.
  pose proof (Dd d (or_introl eq_refl)) as Hd. unfold is_digit in Hd.
  destruct (sgetc_hd s1 (d :: ds ++ rest) (at_weaken _ _ K1)) as (s2 & E2 & _ & K2);
    [cbn; lia|intros _; cbn; lia|]. cbn [hd_] in E2, K2. rewrite E2.
  replace (d =? 92) with false by lia. replace (d =? 47) with false by lia. eauto.
Qed.

Lemma token_eof s : at_ 1 s [] -> exists s', stream_next_token s = Some (None, s') /\ at_ 1 s' [].
Proof.
  intros H. destruct (sgetc_nil s H) as (s' & E & K). unfold stream_next_token. destruct H as (T & _).
  rewrite T. unfold sfuel. cbn [skip_space]. rewrite E. cbn. exists s'. split; [reflexivity|].
  apply at_weaken. exact K.
Qed.

Lemma push_pop s t l : at_ 1 s l ->
  exists s', stream_next_token (push_token s t) = Some (Some t, s') /\ at_ 1 s' l.
Proof.
  intros (T & H). unfold push_token. rewrite T. cbn [List.length Nat.ltb Nat.leb].
  unfold stream_next_token. cbn. eexists. split; [reflexivity|]. split; [reflexivity|exact H].
Qed.

(** reading an integer followed by EOF *)
Lemma in_token_eof s s1 n : stream_next_token s = Some (Some (TVal n), s1) -> at_ 1 s1 [] ->
  exists s2, in_next_token s = Some (Some (TVal n), s2) /\ at_ 1 s2 [].
Proof.
  intros E H. unfold in_next_token. rewrite E. unfold eat_if_available.
  destruct (token_eof s1 H) as (s2 & E2 & K2). rewrite E2. cbn. eauto.
Qed.
(** reading an integer followed by a slash; the slash token stays pushed *)
Lemma in_token_slash s s1 n d rest : stream_next_token s = Some (Some (TVal n), s1) -> 0 <= d ->
  at_ 1 s1 (47 :: dec_print d ++ rest) ->
  exists s2, in_next_token s = Some (Some (TVal n), push_token s2 (TChar 47)) /\ at_ 1 s2 (dec_print d ++ rest).
Proof.
  intros E Hd H. unfold in_next_token. rewrite E. unfold eat_if_available.
  destruct (token_slash s1 d rest Hd H) as (s2 & E2 & K2). rewrite E2. cbn [is_char_tok].
  change (94 =? 47) with false. cbn. eauto.
Qed.

Lemma read_number s s1 n d :
  stream_next_token s = Some (Some (TVal n), s1) -> 0 < d ->
  at_ 1 s1 (if d =? 1 then [] else 47 :: dec_print d) ->
  exists s2, stream_read_val s = Some (Some (if d =? 1 then v_int n else v_normalize (mkv n d)), s2).
Proof.
  intros E Hd H. unfold stream_read_val. destruct (Z.eqb_spec d 1) as [->|D1].
  - destruct (in_token_eof s s1 n E H) as (s2 & E2 & K2). rewrite E2. cbn [is_char_tok].
    unfold eat_if_available. destruct (token_eof s2 K2) as (s3 & E3 & K3). rewrite E3. cbn. eauto.
  - rewrite <- (app_nil_r (dec_print d)) in H.
    destruct (in_token_slash s s1 n d [] E ltac:(lia) H) as (s2 & E2 & K2). rewrite E2. cbn [is_char_tok].
    unfold eat_if_available at 1. destruct (push_pop s2 (TChar 47) _ K2) as (s3 & E3 & K3).
    rewrite E3. cbn [is_char_tok]. change (47 =? 47) with true. cbv iota.
    destruct (token_nonneg s3 d [] ltac:(lia) K3 (or_introl eq_refl)) as (s4 & E4 & K4).
    destruct (in_token_eof s3 s4 d E4 K4) as (s5 & E5 & K5). rewrite E5. unfold v_rat_raw. eauto.
Qed.

Theorem val_round_trip v : canonical v -> val_read_from_str (val_print v) = Some (Some v).
Proof.
  intros [e H]. destruct e as [|[|]|q].
  - destruct v as [n d]; cbn in H; destruct H as [-> ->]. vm_compute. reflexivity.
  - destruct v as [n d]; cbn in H; destruct H as [-> ->]. vm_compute. reflexivity.
  - destruct v as [n d]; cbn in H; destruct H as [-> ->]. vm_compute. reflexivity.
  - pose proof H as (D & G & E). unfold val_read_from_str.
    assert (Hv : (if vd v =? 1 then v_int (vn v) else v_normalize (mkv (vn v) (vd v))) = v).
    { destruct (Z.eqb_spec (vd v) 1) as [E1|E1].
      - unfold v_int. destruct v; cbn in *; congruence.
      - eapply means_unique; [apply normalize_means; [lia|exact E]|exact H|cbn; reflexivity]. }
    set (str := val_print v).
    assert (Hs : at_ 1 (stream_new_str str) str).
    { split; [reflexivity|]. left. cbn. auto. }
    assert (Hp : str = (if vn v <? 0 then [45] else []) ++ dec_print (Z.abs (vn v)) ++
       (if vd v =? 1 then [] else 47 :: dec_print (vd v))).
    { unfold str, val_print. replace (vd v =? 0) with false by lia. cbn [negb andb].
      destruct (Z.ltb_spec (vn v) 0); destruct (Z.eqb_spec (vd v) 1);
        rewrite ?Z.abs_neq, ?Z.abs_eq by lia; reflexivity. }
    assert (Hsep : sep (if vd v =? 1 then [] else 47 :: dec_print (vd v))).
    { destruct (vd v =? 1); [left|right]; eauto. }
    rewrite Hp in Hs at 2. destruct (Z.ltb_spec (vn v) 0) as [N|N].
    + destruct (token_neg _ (Z.abs (vn v)) _ ltac:(lia) Hs Hsep) as (s1 & E1 & K1).
      destruct (read_number _ s1 _ (vd v) E1 D K1) as (s2 & ->).
      replace (- Z.abs (vn v)) with (vn v) by lia. rewrite Hv. reflexivity.
    + destruct (token_nonneg _ (Z.abs (vn v)) _ ltac:(lia) Hs Hsep) as (s1 & E1 & K1).
      destruct (read_number _ s1 _ (vd v) E1 D K1) as (s2 & ->).
      replace (Z.abs (vn v)) with (vn v) by lia. rewrite Hv. reflexivity.
Qed.
