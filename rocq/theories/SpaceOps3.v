(** What the operations on spaces compute, in terms of views. *)
From Coq Require Import ZArith List Bool Lia Arith.
From Verif Require Import SpaceModel SpaceSpec SpaceBase SpaceOps SpaceOps2.
Import ListNotations.

Lemma spc_parts s P a b : spc s (V P a b) -> wf s /\ dl s Param = P /\ tup_in s = a /\ tup_out s = b.
Proof. intros [W E]. unfold view_of in E. injection E as A B C. auto. Qed.
Lemma spc_of s P a b : wf s -> dl s Param = P -> tup_in s = a -> tup_out s = b -> spc s (V P a b).
Proof. intros W A B C. split; [exact W|]. unfold view_of. now rewrite A, B, C. Qed.
Lemma wf_spc s : wf s -> spc s (view_of s).
Proof. split; auto. Qed.
Lemma in_parts s P i d n b : spc s (V P (T i d n) b) -> id0 s = i /\ dl s In = d /\ inn (nest0 s) = n.
Proof. intros H. apply spc_parts in H as (_ & _ & H & _). rewrite tup_in_eq in H. now injection H. Qed.
Lemma out_parts s P i d n a : spc s (V P a (T i d n)) -> id1 s = i /\ dl s Out = d /\ inn (nest1 s) = n.
Proof. intros H. apply spc_parts in H as (_ & _ & _ & H). rewrite tup_out_eq in H. now injection H. Qed.
Lemma is_set_false s P a b : spc s (V P a b) -> a <> no_tuple -> is_set s = false.
Proof. intros H N. destruct (is_set s) eqn:E; [|reflexivity]. apply is_set_ok in E. apply spc_parts in H as (_ & _ & H & _). congruence. Qed.
Lemma is_set_true s P b : spc s (V P no_tuple b) -> is_set s = true.
Proof. intros H. apply is_set_ok. apply spc_parts in H as (_ & _ & H & _). exact H. Qed.
(** wrapped tuples *)
Lemma nested_in s P i d a b c : spc s (V P (T i d (Some (a, b))) c) ->
  exists n, nest0 s = Some n /\ spc n (V P a b) /\ length d = length (dims a) + length (dims b).
Proof.
  intros H. pose proof (in_parts _ _ _ _ _ _ H) as (_ & D & N). apply spc_parts in H as (W & P' & _ & _). destruct (nest0 s) as [n|] eqn:E; [|discriminate].
  exists n. split; [reflexivity|]. apply wf_eq in W as (_ & N0 & _). rewrite E in N0. destruct N0 as (Wn & L & Pn).
  cbn [inn] in N. rewrite tuples_eq in N. injection N as A B.
  split; [apply spc_of; congruence|]. rewrite <- D, <- A, <- B, dl_length, tup_in_eq, tup_out_eq. cbn [dims dim]. rewrite !dl_length. cbn [dim]. lia.
Qed.
Lemma nested_out s P i d a b c : spc s (V P c (T i d (Some (a, b)))) ->
  exists n, nest1 s = Some n /\ spc n (V P a b) /\ length d = length (dims a) + length (dims b).
Proof.
  intros H. pose proof (out_parts _ _ _ _ _ _ H) as (_ & D & N). apply spc_parts in H as (W & P' & _ & _). destruct (nest1 s) as [n|] eqn:E; [|discriminate].
  exists n. split; [reflexivity|]. apply wf_eq in W as (_ & _ & N0). rewrite E in N0. destruct N0 as (Wn & L & Pn).
  cbn [inn] in N. rewrite tuples_eq in N. injection N as A B.
  split; [apply spc_of; congruence|]. rewrite <- D, <- A, <- B, dl_length, tup_in_eq, tup_out_eq. cbn [dims dim]. rewrite !dl_length. cbn [dim]. lia.
Qed.
Lemma nested_in_None s P a b : spc s (V P a b) -> inner a = None -> nest0 s = None.
Proof. intros H. apply spc_parts in H as (_ & _ & <- & _). rewrite tup_in_eq. cbn. destruct (nest0 s); [discriminate|reflexivity]. Qed.
Lemma nested_out_None s P a b : spc s (V P a b) -> inner b = None -> nest1 s = None.
Proof. intros H. apply spc_parts in H as (_ & _ & _ & <-). rewrite tup_out_eq. cbn. destruct (nest1 s); [discriminate|reflexivity]. Qed.

(** ** reverse *)
Lemma same_leaf a b : same a b -> dims a = dims b -> inner a = None -> a = b.
Proof.
  intros S D N. apply same_eq in S as (A & _ & C). destruct a as [i d n], b as [i' d' n']. cbn in *. subst.
  destruct n' as [[? ?]|]; [destruct C|reflexivity].
Qed.
Lemma same_leaf2 a b : same a b -> dims a = dims b -> inner b = None -> a = b.
Proof. intros S D N. symmetry. apply same_leaf; auto. now apply same_sym. Qed.
Lemma reverse_gen s P a b : spc s (V P a b) -> (same a b -> dims a = dims b -> a = b) ->
  exists s', reverse s = Some s' /\ spc s' (V P b a).
Proof.
  intros [W E] H. destruct (reverse_ok s W) as (s' & R & W' & [(S & D & ->)|(_ & Vw)]).
  - exists s. split; [exact R|]. split; [exact W|]. unfold view_of in *. injection E as E1 E2 E3. subst P a b. now rewrite (H S D).
  - exists s'. split; [exact R|]. split; [exact W'|]. rewrite Vw, E. reflexivity.
Qed.
Lemma reverse_leaf_in s P a b : spc s (V P a b) -> inner a = None -> exists s', reverse s = Some s' /\ spc s' (V P b a).
Proof. intros H N. apply reverse_gen; [exact H|]. intros. now apply same_leaf. Qed.
Lemma reverse_leaf_out s P a b : spc s (V P a b) -> inner b = None -> exists s', reverse s = Some s' /\ spc s' (V P b a).
Proof. intros H N. apply reverse_gen; [exact H|]. intros. now apply same_leaf2. Qed.

(** ** dropping all dimensions of a tuple *)
Lemma cut_all d : cut d 0 (length d) = [].
Proof. unfold cut. cbn. apply skipn_all. Qed.
Lemma drop_out_all s P a b : spc s (V P a b) -> exists s', drop_dims s Out 0 (n_out s) = Some s' /\ spc s' (V P a unit_tuple).
Proof.
  intros H. apply spc_parts in H as (W & A & B & C). destruct (drop_dims_ok s Out 0 (n_out s)) as (s' & E & W' & P' & T1 & T2); [congruence|exact W|cbn; lia|].
  exists s'. split; [exact E|]. apply spc_of; [exact W'|congruence| |].
  - rewrite <- B. apply (T2 In). congruence.
  - change (tup_out s') with (tup s' Out). rewrite T1. replace (n_out s) with (length (dl s Out)) by apply dl_length. now rewrite cut_all.
Qed.
Lemma drop_in_all s P a b : spc s (V P a b) -> exists s', drop_dims s In 0 (n_in s) = Some s' /\ spc s' (V P unit_tuple b).
Proof.
  intros H. apply spc_parts in H as (W & A & B & C). destruct (drop_dims_ok s In 0 (n_in s)) as (s' & E & W' & P' & T1 & T2); [congruence|exact W|cbn; lia|].
  exists s'. split; [exact E|]. apply spc_of; [exact W'|congruence| |].
  - change (tup_in s') with (tup s' In). rewrite T1. replace (n_in s) with (length (dl s In)) by apply dl_length. now rewrite cut_all.
  - rewrite <- C. apply (T2 Out). congruence.
Qed.
Lemma mark_ok s P i d n b : spc s (V P (T i d n) b) -> spc (mark_as_set s) (V P (T (Some id_none) d n) b).
Proof.
  intros H. pose proof (in_parts _ _ _ _ _ _ H) as (_ & D & N). apply spc_parts in H as (W & A & _ & C).
  assert (DL : forall t, dl (mark_as_set s) t = dl s t) by (intros t; apply dl_with; destruct t; reflexivity).
  apply spc_of.
  - apply wf_eq. rewrite DL. apply wf_eq in W as (O & N0 & N1). split; [exact O|]. split; assumption.
  - now rewrite DL.
  - rewrite tup_in_eq, DL, D. unfold mark_as_set, set_tuple_id. cbn [id0 nest0 with_tuple_id]. now rewrite N.
  - rewrite tup_out_eq, DL, <- C, tup_out_eq. reflexivity.
Qed.
Lemma domain_ok s P a b : spc s (V P a b) -> exists s', domain s = Some s' /\ spc s' (V P no_tuple a).
Proof.
  intros H. unfold domain. destruct (drop_out_all _ _ _ _ H) as (s1 & -> & H1). cbn [bind].
  destruct (reverse_leaf_out _ _ _ _ H1 eq_refl) as (s2 & -> & H2). cbn [bind]. eexists. split; [reflexivity|]. exact (mark_ok _ _ _ _ _ _ H2).
Qed.
Lemma range_ok s P a b : spc s (V P a b) -> exists s', range s = Some s' /\ spc s' (V P no_tuple b).
Proof.
  intros H. unfold range. destruct (drop_in_all _ _ _ _ H) as (s1 & -> & H1). cbn [bind]. eexists. split; [reflexivity|]. exact (mark_ok _ _ _ _ _ _ H1).
Qed.
Lemma reset_out s P a i d n : spc s (V P a (T i d n)) -> spc (reset s Out) (V P a (T None d None)).
Proof.
  intros H. pose proof (out_parts _ _ _ _ _ _ H) as (_ & D & _). apply spc_parts in H as (W & A & B & C).
  destruct (reset_ok s Out) as (W' & P' & T1 & T2 & _); [congruence|exact W|]. apply spc_of; [exact W'|congruence| |].
  - rewrite <- B. apply (T2 In). congruence.
  - change (tup_out (reset s Out)) with (tup (reset s Out) Out). now rewrite T1, D.
Qed.
Lemma reset_in s P b i d n : spc s (V P (T i d n) b) -> spc (reset s In) (V P (T None d None) b).
Proof.
  intros H. pose proof (in_parts _ _ _ _ _ _ H) as (_ & D & _). apply spc_parts in H as (W & A & B & C).
  destruct (reset_ok s In) as (W' & P' & T1 & T2 & _); [congruence|exact W|]. apply spc_of; [exact W'|congruence| |].
  - change (tup_in (reset s In)) with (tup (reset s In) In). now rewrite T1, D.
  - rewrite <- C. apply (T2 Out). congruence.
Qed.
Lemma from_domain_ok s P a : spc s (V P no_tuple a) -> exists s', from_domain s = Some s' /\ spc s' (V P a unit_tuple).
Proof.
  intros H. unfold from_domain. rewrite (is_set_true _ _ _ H). destruct (reverse_leaf_in _ _ _ _ H eq_refl) as (s1 & -> & H1). cbn [bind].
  eexists. split; [reflexivity|]. exact (reset_out _ _ _ _ _ _ H1).
Qed.
Lemma from_range_ok s P a : spc s (V P no_tuple a) -> exists s', from_range s = Some s' /\ spc s' (V P unit_tuple a).
Proof. intros H. unfold from_range. rewrite (is_set_true _ _ _ H). eexists. split; [reflexivity|]. exact (reset_in _ _ _ _ _ _ H). Qed.
Lemma wrap_spc s P a b : spc s (V P a b) -> exists w, wrap s = Some w /\ spc w (V P no_tuple (wrapped a b)).
Proof. intros [W E]. destruct (wrap_ok s W) as (w & A & Ww & Vw & _). exists w. split; [exact A|]. split; [exact Ww|]. rewrite Vw, E. reflexivity. Qed.
Lemma unwrap_ok s P i d a b : spc s (V P no_tuple (T i d (Some (a, b)))) -> exists n, unwrap s = Some n /\ spc n (V P a b).
Proof.
  intros H. unfold unwrap, is_wrapping. rewrite (is_set_true _ _ _ H). destruct (nested_out _ _ _ _ _ _ _ H) as (n & E & Hn & _). rewrite E. cbn.
  exists n. auto.
Qed.
Lemma join_spc l r P a b b' c : spc l (V P a b) -> spc r (V P b' c) -> same b b' -> exists s, join l r = Some s /\ spc s (V P a c).
Proof.
  intros Hl Hr S. apply spc_parts in Hl as (Wl & Pl & Al & Bl). apply spc_parts in Hr as (Wr & Pr & Ar & Br).
  destruct (join_ok l r Wl Wr) as (s & E & W & Vw); [congruence|congruence|]. exists s. split; [exact E|]. split; [exact W|]. rewrite Vw. congruence.
Qed.
Lemma domain_is_wrapping_ok s P a b : spc s (V P a b) -> domain_is_wrapping s = is_some (inner a).
Proof.
  intros H. unfold domain_is_wrapping. destruct (inner a) as [[x y]|] eqn:I.
  - destruct a as [i d n]. cbn in I. subst n. destruct (nested_in _ _ _ _ _ _ _ H) as (n & -> & _). rewrite (is_set_false _ _ _ _ H); [reflexivity|discriminate].
  - rewrite (nested_in_None _ _ _ _ H I). apply andb_false_r.
Qed.
Lemma range_is_wrapping_ok s P a b : spc s (V P a b) -> a <> no_tuple -> range_is_wrapping s = is_some (inner b).
Proof.
  intros H N. unfold range_is_wrapping. rewrite (is_set_false _ _ _ _ H N). destruct (inner b) as [[x y]|] eqn:I.
  - destruct b as [i d n]. cbn in I. subst n. destruct (nested_out _ _ _ _ _ _ _ H) as (n & -> & _). reflexivity.
  - now rewrite (nested_out_None _ _ _ _ H I).
Qed.
Lemma range_is_wrapping_set s P b : spc s (V P no_tuple b) -> range_is_wrapping s = false.
Proof. intros H. unfold range_is_wrapping. now rewrite (is_set_true _ _ _ H). Qed.
Ltac op L H s HS := destruct (L _ _ _ _ H) as (s & -> & HS); cbn [bind].

Lemma map_from_domain_and_range_ok d r P a b : spc d (V P no_tuple a) -> spc r (V P no_tuple b) ->
  exists s, map_from_domain_and_range d r = Some s /\ spc s (V P a b).
Proof.
  intros Hd Hr. unfold map_from_domain_and_range. rewrite (is_set_true _ _ _ Hd), (is_set_true _ _ _ Hr). cbn [andb].
  destruct (reverse_leaf_in _ _ _ _ Hd eq_refl) as (s1 & -> & H1). cbn [bind]. exact (join_spc _ _ _ _ _ _ _ H1 Hr (same_refl _)).
Qed.

(** ** curry, uncurry, zip *)
Lemma curry_ok s P i d a b c : spc s (V P (T i d (Some (a, b))) c) -> exists s', curry s = Some s' /\ spc s' (V P a (wrapped b c)).
Proof.
  intros H. unfold curry. rewrite (domain_is_wrapping_ok _ _ _ _ H). cbn [inner is_some].
  destruct (domain_ok _ _ _ _ H) as (s1 & -> & H1). cbn [bind]. destruct (unwrap_ok _ _ _ _ _ _ H1) as (s2 & -> & H2). cbn [bind].
  destruct (range_ok _ _ _ _ H) as (s3 & -> & H3). cbn [bind].
  destruct (domain_ok _ _ _ _ H2) as (s4 & -> & H4). cbn [bind]. destruct (range_ok _ _ _ _ H2) as (s5 & -> & H5). cbn [bind].
  destruct (from_domain_ok _ _ _ H5) as (s6 & -> & H6). cbn [bind]. destruct (from_range_ok _ _ _ H3) as (s7 & -> & H7). cbn [bind].
  destruct (join_spc _ _ _ _ _ _ _ H6 H7 (same_refl _)) as (s8 & -> & H8). cbn [bind].
  destruct (from_domain_ok _ _ _ H4) as (s9 & -> & H9). cbn [bind]. destruct (wrap_spc _ _ _ _ H8) as (s10 & -> & H10). cbn [bind].
  destruct (from_range_ok _ _ _ H10) as (s11 & -> & H11). cbn [bind]. exact (join_spc _ _ _ _ _ _ _ H9 H11 (same_refl _)).
Qed.
Lemma uncurry_ok s P i d a b c : spc s (V P a (T i d (Some (b, c)))) -> a <> no_tuple -> exists s', uncurry s = Some s' /\ spc s' (V P (wrapped a b) c).
Proof.
  intros H N. unfold uncurry. rewrite (range_is_wrapping_ok _ _ _ _ H N). cbn [inner is_some].
  destruct (domain_ok _ _ _ _ H) as (s1 & -> & H1). cbn [bind]. destruct (range_ok _ _ _ _ H) as (s3 & -> & H3). cbn [bind].
  destruct (unwrap_ok _ _ _ _ _ _ H3) as (s2 & -> & H2). cbn [bind].
  destruct (domain_ok _ _ _ _ H2) as (s4 & -> & H4). cbn [bind]. destruct (range_ok _ _ _ _ H2) as (s5 & -> & H5). cbn [bind].
  destruct (from_domain_ok _ _ _ H1) as (s6 & -> & H6). cbn [bind]. destruct (from_range_ok _ _ _ H4) as (s7 & -> & H7). cbn [bind].
  destruct (join_spc _ _ _ _ _ _ _ H6 H7 (same_refl _)) as (s8 & -> & H8). cbn [bind].
  destruct (wrap_spc _ _ _ _ H8) as (s10 & -> & H10). cbn [bind].
  destruct (from_domain_ok _ _ _ H10) as (s9 & -> & H9). cbn [bind].
  destruct (from_range_ok _ _ _ H5) as (s11 & -> & H11). cbn [bind]. exact (join_spc _ _ _ _ _ _ _ H9 H11 (same_refl _)).
Qed.
Lemma zip_ok s P i d a b j e c f : spc s (V P (T i d (Some (a, b))) (T j e (Some (c, f)))) ->
  exists s', zip s = Some s' /\ spc s' (V P (wrapped a c) (wrapped b f)).
Proof.
  intros H. unfold zip, is_product. assert (N : T i d (Some (a, b)) <> no_tuple) by discriminate.
  rewrite (is_set_false _ _ _ _ H N), (domain_is_wrapping_ok _ _ _ _ H), (range_is_wrapping_ok _ _ _ _ H N). cbn [inner is_some andb negb].
  destruct (domain_ok _ _ _ _ H) as (s1 & -> & H1). cbn [bind]. destruct (unwrap_ok _ _ _ _ _ _ H1) as (s2 & -> & H2). cbn [bind].
  destruct (range_ok _ _ _ _ H) as (s3 & -> & H3). cbn [bind]. destruct (unwrap_ok _ _ _ _ _ _ H3) as (s4 & -> & H4). cbn [bind].
  destruct (domain_ok _ _ _ _ H2) as (dd & -> & Hdd). cbn [bind]. destruct (range_ok _ _ _ _ H2) as (dr & -> & Hdr). cbn [bind].
  destruct (domain_ok _ _ _ _ H4) as (rd & -> & Hrd). cbn [bind]. destruct (range_ok _ _ _ _ H4) as (rr & -> & Hrr). cbn [bind].
  destruct (from_domain_ok _ _ _ Hdd) as (s6 & -> & H6). cbn [bind]. destruct (from_range_ok _ _ _ Hrd) as (s7 & -> & H7). cbn [bind].
  destruct (join_spc _ _ _ _ _ _ _ H6 H7 (same_refl _)) as (s8 & -> & H8). cbn [bind].
  destruct (from_domain_ok _ _ _ Hdr) as (s9 & -> & H9). cbn [bind]. destruct (from_range_ok _ _ _ Hrr) as (s10 & -> & H10). cbn [bind].
  destruct (join_spc _ _ _ _ _ _ _ H9 H10 (same_refl _)) as (s11 & -> & H11). cbn [bind].
  destruct (wrap_spc _ _ _ _ H8) as (s12 & -> & H12). cbn [bind]. destruct (from_domain_ok _ _ _ H12) as (s13 & -> & H13). cbn [bind].
  destruct (wrap_spc _ _ _ _ H11) as (s14 & -> & H14). cbn [bind]. destruct (from_range_ok _ _ _ H14) as (s15 & -> & H15). cbn [bind].
  exact (join_spc _ _ _ _ _ _ _ H13 H15 (same_refl _)).
Qed.
(** ** domain_map, range_map *)
Lemma domain_map_ok s P a b : spc s (V P a b) -> exists s', domain_map s = Some s' /\ spc s' (V P (wrapped a b) a).
Proof.
  intros H. unfold domain_map. destruct (domain_ok _ _ _ _ H) as (s1 & -> & H1). cbn [bind].
  destruct (from_range_ok _ _ _ H1) as (s2 & -> & H2). cbn [bind]. destruct (wrap_spc _ _ _ _ H) as (s3 & -> & H3). cbn [bind].
  destruct (from_domain_ok _ _ _ H3) as (s4 & -> & H4). cbn [bind]. exact (join_spc _ _ _ _ _ _ _ H4 H2 (same_refl _)).
Qed.
Lemma range_map_ok s P a b : spc s (V P a b) -> exists s', range_map s = Some s' /\ spc s' (V P (wrapped a b) b).
Proof.
  intros H. unfold range_map. destruct (range_ok _ _ _ _ H) as (s1 & -> & H1). cbn [bind].
  destruct (from_range_ok _ _ _ H1) as (s2 & -> & H2). cbn [bind]. destruct (wrap_spc _ _ _ _ H) as (s3 & -> & H3). cbn [bind].
  destruct (from_domain_ok _ _ _ H3) as (s4 & -> & H4). cbn [bind]. exact (join_spc _ _ _ _ _ _ _ H4 H2 (same_refl _)).
Qed.

(** ** products *)
Lemma params_eq_ok l r P a b c d : spc l (V P a b) -> spc r (V P c d) -> has_equal_params l r = true.
Proof. intros Hl Hr. apply equal_params_ok. apply spc_parts in Hl as (_ & -> & _). apply spc_parts in Hr as (_ & -> & _). reflexivity. Qed.
Lemma range_product_ok l r P x y a b : spc l (V P x a) -> spc r (V P y b) -> same x y ->
  exists s, range_product l r = Some s /\ spc s (V P x (wrapped a b)).
Proof.
  intros Hl Hr S. unfold range_product. rewrite (params_eq_ok _ _ _ _ _ _ _ Hl Hr). cbn [negb].
  assert (E : tuple_is_equal l In r In = true).
  { apply tuple_is_equal_same. cbn [tup]. apply spc_parts in Hl as (_ & _ & -> & _). apply spc_parts in Hr as (_ & _ & -> & _). exact S. }
  rewrite E. cbn [negb].
  destruct (domain_ok _ _ _ _ Hl) as (s1 & -> & H1). cbn [bind]. destruct (range_ok _ _ _ _ Hl) as (s2 & -> & H2). cbn [bind].
  destruct (range_ok _ _ _ _ Hr) as (s3 & -> & H3). cbn [bind]. destruct (reverse_leaf_in _ _ _ _ H2 eq_refl) as (s4 & -> & H4). cbn [bind].
  destruct (join_spc _ _ _ _ _ _ _ H4 H3 (same_refl _)) as (s5 & -> & H5). cbn [bind]. destruct (wrap_spc _ _ _ _ H5) as (s6 & -> & H6). cbn [bind].
  destruct (reverse_leaf_in _ _ _ _ H1 eq_refl) as (s7 & -> & H7). cbn [bind]. exact (join_spc _ _ _ _ _ _ _ H7 H6 (same_refl _)).
Qed.
Lemma domain_product_ok l r P x y a b : spc l (V P a x) -> spc r (V P b y) -> same x y ->
  exists s, domain_product l r = Some s /\ spc s (V P (wrapped a b) x).
Proof.
  intros Hl Hr S. unfold domain_product. rewrite (params_eq_ok _ _ _ _ _ _ _ Hl Hr). cbn [negb].
  assert (E : tuple_is_equal l Out r Out = true).
  { apply tuple_is_equal_same. cbn [tup]. apply spc_parts in Hl as (_ & _ & _ & ->). apply spc_parts in Hr as (_ & _ & _ & ->). exact S. }
  rewrite E. cbn [negb].
  destruct (range_ok _ _ _ _ Hl) as (s1 & -> & H1). cbn [bind]. destruct (domain_ok _ _ _ _ Hl) as (s2 & -> & H2). cbn [bind].
  destruct (domain_ok _ _ _ _ Hr) as (s3 & -> & H3). cbn [bind]. destruct (reverse_leaf_in _ _ _ _ H2 eq_refl) as (s4 & -> & H4). cbn [bind].
  destruct (join_spc _ _ _ _ _ _ _ H4 H3 (same_refl _)) as (s5 & -> & H5). cbn [bind]. destruct (wrap_spc _ _ _ _ H5) as (s6 & -> & H6). cbn [bind].
  destruct (reverse_leaf_in _ _ _ _ H6 eq_refl) as (s7 & -> & H7). cbn [bind]. exact (join_spc _ _ _ _ _ _ _ H7 H1 (same_refl _)).
Qed.
Lemma product_map_ok l r P a b c d : spc l (V P a b) -> spc r (V P c d) -> a <> no_tuple -> c <> no_tuple ->
  exists s, product l r = Some s /\ spc s (V P (wrapped a c) (wrapped b d)).
Proof.
  intros Hl Hr Na Nc. unfold product. rewrite (is_set_false _ _ _ _ Hl Na), (is_set_false _ _ _ _ Hr Nc), (params_eq_ok _ _ _ _ _ _ _ Hl Hr). cbn [negb Bool.eqb].
  destruct (domain_ok _ _ _ _ Hl) as (s1 & -> & H1). cbn [bind]. destruct (domain_ok _ _ _ _ Hr) as (s2 & -> & H2). cbn [bind].
  destruct (reverse_leaf_in _ _ _ _ H1 eq_refl) as (s4 & -> & H4). cbn [bind].
  destruct (join_spc _ _ _ _ _ _ _ H4 H2 (same_refl _)) as (s5 & -> & H5). cbn [bind]. destruct (wrap_spc _ _ _ _ H5) as (s6 & -> & H6). cbn [bind].
  destruct (range_ok _ _ _ _ Hl) as (s11 & -> & H11). cbn [bind]. destruct (range_ok _ _ _ _ Hr) as (s12 & -> & H12). cbn [bind].
  destruct (reverse_leaf_in _ _ _ _ H11 eq_refl) as (s14 & -> & H14). cbn [bind].
  destruct (join_spc _ _ _ _ _ _ _ H14 H12 (same_refl _)) as (s15 & -> & H15). cbn [bind]. destruct (wrap_spc _ _ _ _ H15) as (s16 & -> & H16). cbn [bind].
  destruct (reverse_leaf_in _ _ _ _ H6 eq_refl) as (s7 & -> & H7). cbn [bind]. exact (join_spc _ _ _ _ _ _ _ H7 H16 (same_refl _)).
Qed.
Lemma product_set_ok l r P a b : spc l (V P no_tuple a) -> spc r (V P no_tuple b) ->
  exists s, product l r = Some s /\ spc s (V P no_tuple (wrapped a b)).
Proof.
  intros Hl Hr. unfold product. rewrite (is_set_true _ _ _ Hl), (is_set_true _ _ _ Hr). cbn [negb Bool.eqb].
  exact (range_product_ok _ _ _ _ _ _ _ Hl Hr (same_refl _)).
Qed.
