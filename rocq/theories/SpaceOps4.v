(** Factors, reversal and currying of the range, conditions for failure. *)
From Coq Require Import ZArith List Bool Lia Arith.
From Verif Require Import SpaceModel SpaceSpec SpaceBase SpaceOps SpaceOps2 SpaceOps3.
Import ListNotations.

Definition put (d : space) (t : dtype) (id : option Z) (n : option space) : space :=
  let d := match id with Some _ => with_tuple_id d t id | None => d end in
  match n with Some _ => with_nested d t n | None => d end.
Lemma put_ok d t id n c : t <> Param -> wf d -> tup d t = T None c None -> nestok n (length c) (dl d Param) ->
  wf (put d t id n) /\ dl (put d t id n) Param = dl d Param /\ tup (put d t id n) t = T id c (inn n) /\
  (forall t', t' <> t -> tup (put d t id n) t' = tup d t').
Proof.
  intros Ht W E N.
  assert (X : put d t id n = with_nested (with_tuple_id d t id) t n).
  { unfold put. rewrite tup_eq in E. injection E as E1 _ E2. destruct d as [p i o a b n0 n1 l]. destruct t; [congruence| |]; cbn in *.
    - destruct id, n, n0; try discriminate; subst; reflexivity.
    - destruct id, n, n1; try discriminate; subst; reflexivity. }
  rewrite X. set (r := with_nested (with_tuple_id d t id) t n).
  assert (D : forall t', dl r t' = dl d t') by (intros t'; apply dl_with; unfold r; destruct t, t'; reflexivity).
  assert (L : length c = dim d t). { rewrite tup_eq in E. injection E as _ E2 _. rewrite <- E2. apply dl_length. }
  apply wf_eq in W as (O & N0 & N1).
  split. { apply wf_eq. rewrite D. split; [unfold r; destruct t; exact O|]. unfold r. destruct t; [congruence| |]; cbn; rewrite L in N; cbn in N; auto. }
  split; [apply D|]. split.
  - rewrite tup_eq, D. rewrite tup_eq in E. injection E as _ E2 _. rewrite E2. unfold r. destruct t; [congruence| |]; reflexivity.
  - intros t' Q. rewrite !tup_eq, D. unfold r. destruct t, t'; try congruence; reflexivity.
Qed.
Lemma cut_tail d a b : length d = a + b -> cut d a b = firstn a d.
Proof. intros H. unfold cut. rewrite skipn_all2 by lia. apply app_nil_r. Qed.
Lemma cut_head d a : cut d 0 a = skipn a d.
Proof. reflexivity. Qed.
Lemma n_dims n P a b : spc n (V P a b) -> n_in n = length (dims a) /\ n_out n = length (dims b).
Proof. intros H. apply spc_parts in H as (_ & _ & <- & <-). rewrite tup_in_eq, tup_out_eq. cbn [dims]. rewrite !dl_length. auto. Qed.
Lemma nest_parts n P a b : spc n (V P a b) -> id0 n = tid a /\ id1 n = tid b /\ inn (nest0 n) = inner a /\ inn (nest1 n) = inner b /\
  nestok (nest0 n) (length (dims a)) P /\ nestok (nest1 n) (length (dims b)) P.
Proof.
  intros H. pose proof (n_dims _ _ _ _ H) as [L1 L2]. apply spc_parts in H as (W & <- & <- & <-). apply wf_eq in W as (_ & N0 & N1).
  rewrite <- L1, <- L2, tup_in_eq, tup_out_eq. cbn [tid inner]. auto 10.
Qed.

Lemma domain_factor_domain_ok s P i d a b c : spc s (V P (T i d (Some (a, b))) c) ->
  exists s', domain_factor_domain s = Some s' /\ spc s' (V P (part1 (T i d (Some (a, b))) a b) c).
Proof.
  intros H. unfold domain_factor_domain. rewrite (domain_is_wrapping_ok _ _ _ _ H). cbn [inner is_some].
  destruct (nested_in _ _ _ _ _ _ _ H) as (n & En & Hn & L). rewrite En.
  destruct (n_dims _ _ _ _ Hn) as [L1 L2]. destruct (nest_parts _ _ _ _ Hn) as (I0 & _ & N0 & _ & K0 & _).
  pose proof (in_parts _ _ _ _ _ _ H) as (_ & D & _). apply spc_parts in H as (W & A & B & C).
  assert (LD : n_in s = length d) by (rewrite <- D, dl_length; reflexivity).
  destruct (drop_dims_ok s In (n_in n) (n_out n)) as (s1 & E1 & W1 & P1 & T1 & T2); [congruence|exact W|cbn; lia|]. rewrite E1. cbn [bind].
  eexists. split; [reflexivity|]. change (spc (put s1 In (id0 n) (nest0 n)) (V P (part1 (T i d (Some (a, b))) a b) c)).
  rewrite D, cut_tail in T1 by lia.
  destruct (put_ok s1 In (id0 n) (nest0 n) _ ltac:(congruence) W1 T1) as (W2 & P2 & T3 & T4).
  { rewrite P1, A, firstn_length, L1, Nat.min_l by lia. exact K0. }
  apply spc_of; [exact W2|congruence| |].
  - change (tup_in (put s1 In (id0 n) (nest0 n))) with (tup (put s1 In (id0 n) (nest0 n)) In). rewrite T3, I0, N0, L1. reflexivity.
  - rewrite <- C. change (tup (put s1 In (id0 n) (nest0 n)) Out = tup s Out). rewrite T4 by congruence. apply T2. congruence.
Qed.
Lemma domain_factor_range_ok s P i d a b c : spc s (V P (T i d (Some (a, b))) c) ->
  exists s', domain_factor_range s = Some s' /\ spc s' (V P (part2 (T i d (Some (a, b))) a b) c).
Proof.
  intros H. unfold domain_factor_range. rewrite (domain_is_wrapping_ok _ _ _ _ H). cbn [inner is_some].
  destruct (nested_in _ _ _ _ _ _ _ H) as (n & En & Hn & L). rewrite En.
  destruct (n_dims _ _ _ _ Hn) as [L1 L2]. destruct (nest_parts _ _ _ _ Hn) as (_ & I0 & _ & N0 & _ & K0).
  pose proof (in_parts _ _ _ _ _ _ H) as (_ & D & _). apply spc_parts in H as (W & A & B & C).
  assert (LD : n_in s = length d) by (rewrite <- D, dl_length; reflexivity).
  destruct (drop_dims_ok s In 0 (n_in n)) as (s1 & E1 & W1 & P1 & T1 & T2); [congruence|exact W|cbn; lia|]. rewrite E1. cbn [bind].
  eexists. split; [reflexivity|]. change (spc (put s1 In (id1 n) (nest1 n)) (V P (part2 (T i d (Some (a, b))) a b) c)).
  rewrite D, cut_head in T1.
  destruct (put_ok s1 In (id1 n) (nest1 n) _ ltac:(congruence) W1 T1) as (W2 & P2 & T3 & T4).
  { rewrite P1, A, skipn_length, L1. replace (length d - length (dims a)) with (length (dims b)) by lia. exact K0. }
  apply spc_of; [exact W2|congruence| |].
  - change (tup_in (put s1 In (id1 n) (nest1 n))) with (tup (put s1 In (id1 n) (nest1 n)) In). rewrite T3, I0, N0, L1. reflexivity.
  - rewrite <- C. change (tup (put s1 In (id1 n) (nest1 n)) Out = tup s Out). rewrite T4 by congruence. apply T2. congruence.
Qed.
Lemma range_factor_domain__ok s P i d a b c : spc s (V P c (T i d (Some (a, b)))) ->
  exists s', range_factor_domain_ s = Some s' /\ spc s' (V P c (part1 (T i d (Some (a, b))) a b)).
Proof.
  intros H. unfold range_factor_domain_.
  destruct (nested_out _ _ _ _ _ _ _ H) as (n & En & Hn & L). rewrite En.
  destruct (n_dims _ _ _ _ Hn) as [L1 L2]. destruct (nest_parts _ _ _ _ Hn) as (I0 & _ & N0 & _ & K0 & _).
  pose proof (out_parts _ _ _ _ _ _ H) as (_ & D & _). apply spc_parts in H as (W & A & B & C).
  assert (LD : n_out s = length d) by (rewrite <- D, dl_length; reflexivity).
  destruct (drop_dims_ok s Out (n_in n) (n_out n)) as (s1 & E1 & W1 & P1 & T1 & T2); [congruence|exact W|cbn; lia|]. rewrite E1. cbn [bind].
  eexists. split; [reflexivity|]. change (spc (put s1 Out (id0 n) (nest0 n)) (V P c (part1 (T i d (Some (a, b))) a b))).
  rewrite D, cut_tail in T1 by lia.
  destruct (put_ok s1 Out (id0 n) (nest0 n) _ ltac:(congruence) W1 T1) as (W2 & P2 & T3 & T4).
  { rewrite P1, A, firstn_length, L1, Nat.min_l by lia. exact K0. }
  apply spc_of; [exact W2|congruence| |].
  - rewrite <- B. change (tup (put s1 Out (id0 n) (nest0 n)) In = tup s In). rewrite T4 by congruence. apply T2. congruence.
  - change (tup_out (put s1 Out (id0 n) (nest0 n))) with (tup (put s1 Out (id0 n) (nest0 n)) Out). rewrite T3, I0, N0, L1. reflexivity.
Qed.
Lemma range_factor_range__ok s P i d a b c : spc s (V P c (T i d (Some (a, b)))) ->
  exists s', range_factor_range_ s = Some s' /\ spc s' (V P c (part2 (T i d (Some (a, b))) a b)).
Proof.
  intros H. unfold range_factor_range_.
  destruct (nested_out _ _ _ _ _ _ _ H) as (n & En & Hn & L). rewrite En.
  destruct (n_dims _ _ _ _ Hn) as [L1 L2]. destruct (nest_parts _ _ _ _ Hn) as (_ & I0 & _ & N0 & _ & K0).
  pose proof (out_parts _ _ _ _ _ _ H) as (_ & D & _). apply spc_parts in H as (W & A & B & C).
  assert (LD : n_out s = length d) by (rewrite <- D, dl_length; reflexivity).
  destruct (drop_dims_ok s Out 0 (n_in n)) as (s1 & E1 & W1 & P1 & T1 & T2); [congruence|exact W|cbn; lia|]. rewrite E1. cbn [bind].
  eexists. split; [reflexivity|]. change (spc (put s1 Out (id1 n) (nest1 n)) (V P c (part2 (T i d (Some (a, b))) a b))).
  rewrite D, cut_head in T1.
  destruct (put_ok s1 Out (id1 n) (nest1 n) _ ltac:(congruence) W1 T1) as (W2 & P2 & T3 & T4).
  { rewrite P1, A, skipn_length, L1. replace (length d - length (dims a)) with (length (dims b)) by lia. exact K0. }
  apply spc_of; [exact W2|congruence| |].
  - rewrite <- B. change (tup (put s1 Out (id1 n) (nest1 n)) In = tup s In). rewrite T4 by congruence. apply T2. congruence.
  - change (tup_out (put s1 Out (id1 n) (nest1 n))) with (tup (put s1 Out (id1 n) (nest1 n)) Out). rewrite T3, I0, N0, L1. reflexivity.
Qed.
(** factors of maps and of sets *)
Lemma part1_not_none t a b : a <> no_tuple -> inner t = Some (a, b) -> length (dims t) = length (dims a) + length (dims b) -> part1 t a b <> no_tuple.
Proof.
  intros N I L E. apply N. unfold part1, no_tuple in *. injection E as A B C. destruct a as [i d n]. cbn in *. subst.
  f_equal. assert (length d = 0); [|now destruct d]. apply (f_equal (@length _)) in B. rewrite firstn_length in B. cbn in B. lia.
Qed.
Lemma part2_not_none t a b : b <> no_tuple -> inner t = Some (a, b) -> length (dims t) = length (dims a) + length (dims b) -> part2 t a b <> no_tuple.
Proof.
  intros N I L E. apply N. unfold part2, no_tuple in *. injection E as A B C. destruct b as [i d n]. cbn in *. subst.
  f_equal. assert (length d = 0); [|now destruct d]. apply (f_equal (@length _)) in B. rewrite skipn_length in B. cbn in B. lia.
Qed.
Lemma factor_domain_map_ok s P i d a b j e c f : spc s (V P (T i d (Some (a, b))) (T j e (Some (c, f)))) -> a <> no_tuple ->
  exists s', factor_domain s = Some s' /\ spc s' (V P (part1 (T i d (Some (a, b))) a b) (part1 (T j e (Some (c, f))) c f)).
Proof.
  intros H N. unfold factor_domain. rewrite (is_set_false _ _ _ _ H) by discriminate.
  destruct (nested_in _ _ _ _ _ _ _ H) as (_ & _ & _ & L).
  destruct (domain_factor_domain_ok _ _ _ _ _ _ _ H) as (s1 & -> & H1). cbn [bind]. unfold range_factor_domain.
  rewrite (range_is_wrapping_ok _ _ _ _ H1) by (apply part1_not_none; auto). cbn [inner is_some]. exact (range_factor_domain__ok _ _ _ _ _ _ _ H1).
Qed.
Lemma factor_range_map_ok s P i d a b j e c f : spc s (V P (T i d (Some (a, b))) (T j e (Some (c, f)))) -> b <> no_tuple ->
  exists s', factor_range s = Some s' /\ spc s' (V P (part2 (T i d (Some (a, b))) a b) (part2 (T j e (Some (c, f))) c f)).
Proof.
  intros H N. unfold factor_range. rewrite (is_set_false _ _ _ _ H) by discriminate.
  destruct (nested_in _ _ _ _ _ _ _ H) as (_ & _ & _ & L).
  destruct (domain_factor_range_ok _ _ _ _ _ _ _ H) as (s1 & -> & H1). cbn [bind]. unfold range_factor_range.
  rewrite (range_is_wrapping_ok _ _ _ _ H1) by (apply part2_not_none; auto). cbn [inner is_some]. exact (range_factor_range__ok _ _ _ _ _ _ _ H1).
Qed.
Lemma is_wrapping_ok s P b : spc s (V P no_tuple b) -> is_wrapping s = is_some (inner b).
Proof.
  intros H. unfold is_wrapping. rewrite (is_set_true _ _ _ H). destruct (inner b) as [[x y]|] eqn:I.
  - destruct b as [i d n]. cbn in I. subst n. destruct (nested_out _ _ _ _ _ _ _ H) as (n & -> & _). reflexivity.
  - now rewrite (nested_out_None _ _ _ _ H I).
Qed.
Lemma factor_domain_set_ok s P j e c f : spc s (V P no_tuple (T j e (Some (c, f)))) ->
  exists s', factor_domain s = Some s' /\ spc s' (V P no_tuple (part1 (T j e (Some (c, f))) c f)).
Proof.
  intros H. unfold factor_domain. rewrite (is_set_true _ _ _ H), (is_wrapping_ok _ _ _ H). cbn [inner is_some].
  exact (range_factor_domain__ok _ _ _ _ _ _ _ H).
Qed.
Lemma factor_range_set_ok s P j e c f : spc s (V P no_tuple (T j e (Some (c, f)))) ->
  exists s', factor_range s = Some s' /\ spc s' (V P no_tuple (part2 (T j e (Some (c, f))) c f)).
Proof.
  intros H. unfold factor_range. rewrite (is_set_true _ _ _ H), (is_wrapping_ok _ _ _ H). cbn [inner is_some].
  exact (range_factor_range__ok _ _ _ _ _ _ _ H).
Qed.
Lemma part1_wrapped a b : part1 (wrapped a b) a b = a.
Proof. unfold part1, wrapped. cbn. rewrite firstn_app, firstn_all, Nat.sub_diag. cbn. rewrite app_nil_r. now destruct a. Qed.
Lemma part2_wrapped a b : part2 (wrapped a b) a b = b.
Proof. unfold part2, wrapped. cbn. rewrite skipn_app, skipn_all, Nat.sub_diag. cbn. now destruct b. Qed.

(** ** range_reverse and range_curry *)
Lemma with_nested_ok s P a i d n b c : spc s (V P a (T i d (Some n))) -> forall m, spc m (V P b c) -> length (dims b) + length (dims c) = length d ->
  spc (with_nested s Out (Some m)) (V P a (T i d (Some (b, c)))).
Proof.
  intros H m Hm L. pose proof (n_dims _ _ _ _ Hm) as [L1 L2]. pose proof (out_parts _ _ _ _ _ _ H) as (I & D & _). apply spc_parts in H as (W & A & B & C).
  apply spc_parts in Hm as (Wm & Am & Bm & Cm).
  assert (DL : forall t, dl (with_nested s Out (Some m)) t = dl s t) by (intros t; apply dl_with; destruct t; reflexivity).
  assert (LD : n_out s = length d) by (rewrite <- D, dl_length; reflexivity).
  apply spc_of.
  - apply wf_eq. rewrite DL. apply wf_eq in W as (O & N0 & N1). split; [exact O|]. split; [exact N0|]. split; [exact Wm|]. split; [cbn; lia|congruence].
  - now rewrite DL.
  - rewrite tup_in_eq, DL, <- B, tup_in_eq. reflexivity.
  - rewrite tup_out_eq, DL. cbn [with_nested id1 nest1 inn]. rewrite tuples_eq, Bm, Cm, I, D. reflexivity.
Qed.
Lemma reset_id_out s P a i d n : spc s (V P a (T i d n)) -> spc (with_tuple_id s Out None) (V P a (T None d n)).
Proof.
  intros H. pose proof (out_parts _ _ _ _ _ _ H) as (I & D & N). apply spc_parts in H as (W & A & B & C).
  assert (DL : forall t, dl (with_tuple_id s Out None) t = dl s t) by (intros t; apply dl_with; destruct t; reflexivity).
  apply spc_of.
  - apply wf_eq. rewrite DL. apply wf_eq in W as (O & N0 & N1). split; [exact O|]. split; assumption.
  - now rewrite DL.
  - rewrite tup_in_eq, DL, <- B, tup_in_eq. reflexivity.
  - rewrite tup_out_eq, DL, D. cbn [with_tuple_id id1 nest1]. now rewrite N.
Qed.
Lemma range_reverse_ok s P a i d b c : spc s (V P a (T i d (Some (b, c)))) -> a <> no_tuple -> (same b c -> dims b = dims c -> b = c) ->
  exists s', range_reverse s = Some s' /\ (same b c -> spc s' (V P a (T i d (Some (c, b))))) /\ (~ same b c -> spc s' (V P a (T None d (Some (c, b))))).
Proof.
  intros H N X. unfold range_reverse. rewrite (range_is_wrapping_ok _ _ _ _ H N). cbn [inner is_some].
  destruct (nested_out _ _ _ _ _ _ _ H) as (n & En & Hn & L). rewrite En.
  destruct (reverse_gen _ _ _ _ Hn X) as (r & -> & Hr). cbn [bind]. eexists. split; [reflexivity|].
  pose proof (with_nested_ok _ _ _ _ _ _ _ _ H r Hr ltac:(lia)) as H1.
  assert (E : tuple_is_equal n In n Out = true <-> same b c).
  { rewrite tuple_is_equal_same. cbn [tup]. apply spc_parts in Hn as (_ & _ & -> & ->). reflexivity. }
  destruct (tuple_is_equal n In n Out) eqn:Q.
  - split; [intros _; exact H1|]. intros F. exfalso. apply F, E. reflexivity.
  - split; [intros F; apply E in F; discriminate|]. intros _. exact (reset_id_out _ _ _ _ _ _ H1).
Qed.
Lemma range_curry_ok s P a i d j e b c f : spc s (V P a (T i d (Some (T j e (Some (b, c)), f)))) -> a <> no_tuple ->
  exists s', range_curry s = Some s' /\ spc s' (V P a (T i d (Some (b, wrapped c f)))).
Proof.
  intros H N. unfold range_curry. rewrite (range_is_wrapping_ok _ _ _ _ H N). cbn [inner is_some].
  destruct (nested_out _ _ _ _ _ _ _ H) as (n & En & Hn & L). rewrite En. rewrite (domain_is_wrapping_ok _ _ _ _ Hn). cbn [inner is_some].
  destruct (nested_in _ _ _ _ _ _ _ Hn) as (_ & _ & _ & L2).
  destruct (curry_ok _ _ _ _ _ _ _ Hn) as (r & -> & Hr). cbn [bind]. eexists. split; [reflexivity|].
  refine (with_nested_ok _ _ _ _ _ _ _ _ H r Hr _). cbn [dims wrapped] in *. rewrite app_length. lia.
Qed.

(** ** parameters, flattening *)
Lemma mark_params_ok s P d n e m : spc s (V P (T d n None) (T e m None)) -> spc (mark_as_params s) (V P (T (Some id_none) n None) (T (Some id_none) m None)).
Proof.
  intros H. pose proof (in_parts _ _ _ _ _ _ H) as (_ & D & N). pose proof (out_parts _ _ _ _ _ _ H) as (_ & D' & N'). apply spc_parts in H as (W & A & B & C).
  assert (DL : forall t, dl (mark_as_params s) t = dl s t) by (intros t; apply dl_with; destruct t; reflexivity).
  apply spc_of.
  - apply wf_eq. rewrite DL. apply wf_eq in W as (O & N0 & N1). split; [exact O|]. split; assumption.
  - now rewrite DL.
  - rewrite tup_in_eq, DL, D. unfold mark_as_params, set_tuple_id. cbn [id0 nest0 with_tuple_id]. now rewrite N.
  - rewrite tup_out_eq, DL, D'. unfold mark_as_params, set_tuple_id. cbn [id1 nest1 with_tuple_id]. now rewrite N'.
Qed.
Lemma drop_in_n_out s k s' : drop_dims s In 0 k = Some s' -> n_out s' = n_out s.
Proof.
  destruct s as [p i o a b n0 n1 l]. cbn [drop_dims]. destruct (Nat.eqb k 0).
  - intros [= <-]. unfold reset. destruct (is_some _ || is_some _); reflexivity.
  - destruct (check_range _ _ _ _); [|discriminate]. intros [= <-]. unfold reset. destruct (is_some _ || is_some _); reflexivity.
Qed.
Lemma params_ok s P a b : spc s (V P a b) -> exists s', params s = Some s' /\ spc s' (V P no_tuple no_tuple).
Proof.
  intros H. unfold params. destruct (is_params s) eqn:E.
  - exists s. split; [reflexivity|]. apply is_params_ok in E as [E1 E2]. apply spc_parts in H as (W & A & B & C). apply spc_of; auto.
  - destruct (drop_in_all _ _ _ _ H) as (s1 & E1 & H1). rewrite E1. cbn [bind]. rewrite <- (drop_in_n_out _ _ _ E1).
    destruct (drop_out_all _ _ _ _ H1) as (s2 & -> & H2). cbn [bind]. eexists. split; [reflexivity|]. exact (mark_params_ok _ _ _ _ _ _ H2).
Qed.
Lemma set_from_params_ok s P : spc s (V P no_tuple no_tuple) -> exists s', set_from_params s = Some s' /\ spc s' (V P no_tuple unit_tuple).
Proof.
  intros H. unfold set_from_params. assert (E : is_params s = true). { apply is_params_ok. apply spc_parts in H as (_ & _ & A & B). auto. }
  rewrite E. eexists. split; [reflexivity|]. exact (reset_out _ _ _ _ _ _ H).
Qed.
Lemma flatten_ok s P a b : spc s (V P a b) -> spc (flatten_domain s) (V P (flat a) b) /\ spc (flatten_range s) (V P a (flat b)) /\ spc (flatten s) (V P (flat a) (flat b)).
Proof.
  assert (A : forall s P a b, spc s (V P a b) -> spc (flatten_domain s) (V P (flat a) b)).
  { intros s' P' a' b' H. unfold flatten_domain. destruct a' as [i d [[x y]|]]; unfold flat; cbn [inner dims].
    - destruct (nested_in _ _ _ _ _ _ _ H) as (n & -> & _). exact (reset_in _ _ _ _ _ _ H).
    - rewrite (nested_in_None _ _ _ _ H eq_refl). exact H. }
  assert (B : forall s P a b, spc s (V P a b) -> spc (flatten_range s) (V P a (flat b))).
  { intros s' P' a' b' H. unfold flatten_range. destruct b' as [i d [[x y]|]]; unfold flat; cbn [inner dims].
    - destruct (nested_out _ _ _ _ _ _ _ H) as (n & -> & _). exact (reset_out _ _ _ _ _ _ H).
    - rewrite (nested_out_None _ _ _ _ H eq_refl). exact H. }
  intros H. split; [exact (A _ _ _ _ H)|]. split; [exact (B _ _ _ _ H)|]. unfold flatten. apply B, A, H.
Qed.
Lemma is_equal_ok s1 s2 : is_equal s1 s2 = true <-> vparams (view_of s1) = vparams (view_of s2) /\ same (vin (view_of s1)) (vin (view_of s2)) /\ same (vout (view_of s1)) (vout (view_of s2)).
Proof. unfold is_equal. rewrite andb_true_iff, equal_params_ok, het_same. reflexivity. Qed.

(** ** failure *)
Lemma curry_None s P a b : spc s (V P a b) -> inner a = None -> curry s = None.
Proof. intros H N. unfold curry. now rewrite (domain_is_wrapping_ok _ _ _ _ H), N. Qed.
Lemma uncurry_None s P a b : spc s (V P a b) -> inner b = None \/ a = no_tuple -> uncurry s = None.
Proof.
  intros H [N| ->]; unfold uncurry.
  - destruct (range_is_wrapping s) eqn:E; [|reflexivity]. unfold range_is_wrapping in E. rewrite (nested_out_None _ _ _ _ H N), andb_false_r in E. discriminate.
  - now rewrite (range_is_wrapping_set _ _ _ H).
Qed.
Lemma zip_None s P a b : spc s (V P a b) -> inner a = None \/ inner b = None -> zip s = None.
Proof.
  intros H N. unfold zip. destruct (is_set s) eqn:E; [reflexivity|]. cbn [negb andb]. unfold is_product. rewrite E.
  assert (NT : a <> no_tuple). { intros ->. rewrite (is_set_true _ _ _ H) in E. discriminate. }
  rewrite (domain_is_wrapping_ok _ _ _ _ H), (range_is_wrapping_ok _ _ _ _ H NT). destruct N as [-> | ->]; cbn; [reflexivity|]. now rewrite andb_false_r.
Qed.
Lemma unwrap_None s P a b : spc s (V P a b) -> a <> no_tuple \/ inner b = None -> unwrap s = None.
Proof.
  intros H [N|N]; unfold unwrap, is_wrapping.
  - now rewrite (is_set_false _ _ _ _ H N).
  - now rewrite (nested_out_None _ _ _ _ H N), andb_false_r.
Qed.
Lemma range_reverse_None s P a b : spc s (V P a b) -> inner b = None \/ a = no_tuple -> range_reverse s = None.
Proof.
  intros H [N| ->]; unfold range_reverse.
  - destruct (range_is_wrapping s) eqn:E; [|reflexivity]. now rewrite (nested_out_None _ _ _ _ H N).
  - now rewrite (range_is_wrapping_set _ _ _ H).
Qed.
Lemma factor_domain_None s P a b : spc s (V P a b) -> (a <> no_tuple /\ inner a = None) \/ inner b = None -> factor_domain s = None.
Proof.
  intros H K. unfold factor_domain. destruct (is_set s) eqn:E.
  - apply is_set_ok in E. pose proof (spc_parts _ _ _ _ H) as (_ & _ & A & _). rewrite E in A. clear E. subst a. rewrite (is_wrapping_ok _ _ _ H).
    destruct K as [[K _]|K]; [congruence|now rewrite K].
  - unfold domain_factor_domain. rewrite (domain_is_wrapping_ok _ _ _ _ H).
    destruct a as [i d [[a1 a2]|]]; [|reflexivity]. destruct K as [[_ K]|K]; [discriminate|].
    destruct (domain_factor_domain_ok _ _ _ _ _ _ _ H) as (s1 & E1 & H1). unfold domain_factor_domain in E1. rewrite (domain_is_wrapping_ok _ _ _ _ H) in E1.
    rewrite E1. cbn [bind]. unfold range_factor_domain. destruct (range_is_wrapping s1) eqn:Q; [|reflexivity]. unfold range_is_wrapping in Q.
    rewrite (nested_out_None _ _ _ _ H1 K), andb_false_r in Q. discriminate.
Qed.
Lemma factor_range_None s P a b : spc s (V P a b) -> (a <> no_tuple /\ inner a = None) \/ inner b = None -> factor_range s = None.
Proof.
  intros H K. unfold factor_range. destruct (is_set s) eqn:E.
  - apply is_set_ok in E. pose proof (spc_parts _ _ _ _ H) as (_ & _ & A & _). rewrite E in A. clear E. subst a. rewrite (is_wrapping_ok _ _ _ H).
    destruct K as [[K _]|K]; [congruence|now rewrite K].
  - unfold domain_factor_range. rewrite (domain_is_wrapping_ok _ _ _ _ H).
    destruct a as [i d [[a1 a2]|]]; [|reflexivity]. destruct K as [[_ K]|K]; [discriminate|].
    destruct (domain_factor_range_ok _ _ _ _ _ _ _ H) as (s1 & E1 & H1). unfold domain_factor_range in E1. rewrite (domain_is_wrapping_ok _ _ _ _ H) in E1.
    rewrite E1. cbn [bind]. unfold range_factor_range. destruct (range_is_wrapping s1) eqn:Q; [|reflexivity]. unfold range_is_wrapping in Q.
    rewrite (nested_out_None _ _ _ _ H1 K), andb_false_r in Q. discriminate.
Qed.
