(** The statements about spaces. *)
From Coq Require Import ZArith List Bool Lia Arith.
From Verif Require Import SpaceModel SpaceSpec SpaceBase SpaceOps SpaceOps2 SpaceOps3 SpaceOps4.
Export SpaceOps2 SpaceOps3 SpaceOps4.
Import ListNotations.

Lemma reverse_consistent s P a b : spc s (V P a b) -> consistent a -> consistent b -> exists s', reverse s = Some s' /\ spc s' (V P b a).
Proof. intros H A B. apply reverse_gen; [exact H|]. intros S D. now apply same_consistent. Qed.
Lemma reverse_twice s : wf s -> exists s', reverse s = Some s' /\ wf s' /\ exists s'', reverse s' = Some s'' /\ spc s'' (view_of s).
Proof.
  intros W. destruct (reverse_ok s W) as (s' & E & W' & [(S & D & ->)|(N & Vw)]).
  - exists s. split; [exact E|]. split; [exact W|]. exists s. split; [exact E|]. now apply wf_spc.
  - exists s'. split; [exact E|]. split; [exact W'|]. destruct (reverse_ok s' W') as (s'' & E2 & W2 & [(S & D & ->)|(N2 & Vw2)]).
    + exfalso. apply N. unfold view_of, v_reverse in Vw. cbn [vparams vin vout] in Vw. injection Vw as V1 V2 V3. rewrite V2, V3 in S, D. split; [now apply same_sym|now symmetry].
    + exists s''. split; [exact E2|]. split; [exact W2|]. rewrite Vw2, Vw. reflexivity.
Qed.
Lemma wrap_unwrap s P a b : spc s (V P a b) -> exists w, wrap s = Some w /\ spc w (V P no_tuple (wrapped a b)) /\ unwrap w = Some s.
Proof.
  intros H. destruct (wrap_ok s (proj1 H)) as (w & E & Ww & Vw & N). exists w. split; [exact E|].
  assert (Hw : spc w (V P no_tuple (wrapped a b))). { split; [exact Ww|]. rewrite Vw, (proj2 H). reflexivity. }
  split; [exact Hw|]. unfold unwrap. rewrite (is_wrapping_ok _ _ _ Hw). exact N.
Qed.
Lemma unwrap_wrap s P i d a b : spc s (V P no_tuple (T i d (Some (a, b)))) ->
  exists n, unwrap s = Some n /\ spc n (V P a b) /\ exists w, wrap n = Some w /\ spc w (V P no_tuple (wrapped a b)).
Proof. intros H. destruct (unwrap_ok _ _ _ _ _ _ H) as (n & E & Hn). exists n. split; [exact E|]. split; [exact Hn|]. exact (wrap_spc _ _ _ _ Hn). Qed.
Lemma domain_range s P a b : spc s (V P a b) ->
  exists d r, domain s = Some d /\ range s = Some r /\ spc d (V P no_tuple a) /\ spc r (V P no_tuple b) /\
  exists s', map_from_domain_and_range d r = Some s' /\ spc s' (V P a b).
Proof.
  intros H. destruct (domain_ok _ _ _ _ H) as (d & E & Hd). destruct (range_ok _ _ _ _ H) as (r & E' & Hr). exists d, r.
  repeat (split; [assumption|]). exact (map_from_domain_and_range_ok _ _ _ _ _ Hd Hr).
Qed.
Lemma map_from_parts d r P a b : spc d (V P no_tuple a) -> spc r (V P no_tuple b) ->
  exists s, map_from_domain_and_range d r = Some s /\ spc s (V P a b) /\
    (exists d', domain s = Some d' /\ spc d' (V P no_tuple a)) /\ (exists r', range s = Some r' /\ spc r' (V P no_tuple b)).
Proof.
  intros Hd Hr. destruct (map_from_domain_and_range_ok _ _ _ _ _ Hd Hr) as (s & E & H). exists s. split; [exact E|]. split; [exact H|].
  split; [exact (domain_ok _ _ _ _ H)|exact (range_ok _ _ _ _ H)].
Qed.
Lemma map_from_None d r P Q a b a' b' : spc d (V P a' a) -> spc r (V Q b' b) ->
  a' <> no_tuple \/ b' <> no_tuple \/ P <> Q -> map_from_domain_and_range d r = None.
Proof.
  intros Hd Hr K. unfold map_from_domain_and_range. destruct (is_set d) eqn:E1; [|reflexivity]. destruct (is_set r) eqn:E2; [|now destruct (is_set d)].
  cbn [andb]. apply is_set_ok in E1, E2. pose proof (spc_parts _ _ _ _ Hd) as (W1 & P1 & A1 & B1). pose proof (spc_parts _ _ _ _ Hr) as (W2 & P2 & A2 & B2).
  assert (Hd' : spc d (V P no_tuple a)) by (apply spc_of; congruence).
  destruct (reverse_leaf_in _ _ _ _ Hd' eq_refl) as (s1 & -> & H1). cbn [bind]. apply join_None. intros [X _]. apply spc_parts in H1 as (_ & P3 & _).
  destruct K as [K|[K|K]]; congruence.
Qed.
Lemma from_domain_domain s P a : spc s (V P no_tuple a) ->
  exists s', from_domain s = Some s' /\ spc s' (V P a unit_tuple) /\ exists d, domain s' = Some d /\ spc d (V P no_tuple a).
Proof. intros H. destruct (from_domain_ok _ _ _ H) as (s' & E & H'). exists s'. split; [exact E|]. split; [exact H'|]. exact (domain_ok _ _ _ _ H'). Qed.
Lemma from_range_range s P a : spc s (V P no_tuple a) ->
  exists s', from_range s = Some s' /\ spc s' (V P unit_tuple a) /\ exists d, range s' = Some d /\ spc d (V P no_tuple a).
Proof. intros H. destruct (from_range_ok _ _ _ H) as (s' & E & H'). exists s'. split; [exact E|]. split; [exact H'|]. exact (range_ok _ _ _ _ H'). Qed.
Lemma from_None s P a b : spc s (V P a b) -> a <> no_tuple -> from_domain s = None /\ from_range s = None.
Proof. intros H N. unfold from_domain, from_range. rewrite (is_set_false _ _ _ _ H N). auto. Qed.
Lemma join_iff l r P Q a b c d : spc l (V P a b) -> spc r (V Q c d) ->
  (P = Q /\ same b c -> exists s, join l r = Some s /\ spc s (V P a d)) /\ (~ (P = Q /\ same b c) -> join l r = None).
Proof.
  intros Hl Hr. split.
  - intros [<- S]. exact (join_spc _ _ _ _ _ _ _ Hl Hr S).
  - intros N. apply join_None. apply spc_parts in Hl as (_ & -> & _ & ->). apply spc_parts in Hr as (_ & -> & -> & _). exact N.
Qed.
Lemma uncurry_curry s P a b c : spc s (V P (wrapped a b) c) -> a <> no_tuple ->
  exists s', curry s = Some s' /\ exists s'', uncurry s' = Some s'' /\ spc s'' (V P (wrapped a b) c).
Proof. intros H N. destruct (curry_ok _ _ _ _ _ _ _ H) as (s' & E & H'). exists s'. split; [exact E|]. exact (uncurry_ok _ _ _ _ _ _ _ H' N). Qed.
Lemma curry_uncurry s P a b c : spc s (V P a (wrapped b c)) -> a <> no_tuple ->
  exists s', uncurry s = Some s' /\ exists s'', curry s' = Some s'' /\ spc s'' (V P a (wrapped b c)).
Proof. intros H N. destruct (uncurry_ok _ _ _ _ _ _ _ H N) as (s' & E & H'). exists s'. split; [exact E|]. exact (curry_ok _ _ _ _ _ _ _ H'). Qed.
Lemma zip_twice s P a b c d : spc s (V P (wrapped a b) (wrapped c d)) ->
  exists s', zip s = Some s' /\ exists s'', zip s' = Some s'' /\ spc s'' (V P (wrapped a b) (wrapped c d)).
Proof. intros H. destruct (zip_ok _ _ _ _ _ _ _ _ _ _ H) as (s' & E & H'). exists s'. split; [exact E|]. exact (zip_ok _ _ _ _ _ _ _ _ _ _ H'). Qed.
Lemma product_sets l r P a b : spc l (V P no_tuple a) -> spc r (V P no_tuple b) ->
  exists s, product l r = Some s /\ spc s (V P no_tuple (wrapped a b)) /\
    (exists l', factor_domain s = Some l' /\ spc l' (V P no_tuple a)) /\ (exists r', factor_range s = Some r' /\ spc r' (V P no_tuple b)).
Proof.
  intros Hl Hr. destruct (product_set_ok _ _ _ _ _ Hl Hr) as (s & E & H). exists s. split; [exact E|]. split; [exact H|].
  pose proof (factor_domain_set_ok _ _ _ _ _ _ H) as F. pose proof (factor_range_set_ok _ _ _ _ _ _ H) as G.
  change (T None (dims a ++ dims b) (Some (a, b))) with (wrapped a b) in F, G. rewrite part1_wrapped in F. rewrite part2_wrapped in G. auto.
Qed.
Lemma product_maps l r P a b c d : spc l (V P a b) -> spc r (V P c d) -> a <> no_tuple -> c <> no_tuple ->
  exists s, product l r = Some s /\ spc s (V P (wrapped a c) (wrapped b d)) /\
    (exists l', factor_domain s = Some l' /\ spc l' (V P a b)) /\ (exists r', factor_range s = Some r' /\ spc r' (V P c d)).
Proof.
  intros Hl Hr Na Nc. destruct (product_map_ok _ _ _ _ _ _ _ Hl Hr Na Nc) as (s & E & H). exists s. split; [exact E|]. split; [exact H|].
  pose proof (factor_domain_map_ok _ _ _ _ _ _ _ _ _ _ H Na) as F. pose proof (factor_range_map_ok _ _ _ _ _ _ _ _ _ _ H Nc) as G.
  change (T None (dims a ++ dims c) (Some (a, c))) with (wrapped a c) in F, G. change (T None (dims b ++ dims d) (Some (b, d))) with (wrapped b d) in F, G.
  rewrite !part1_wrapped in F. rewrite !part2_wrapped in G. auto.
Qed.
Lemma product_None l r P Q a b c d : spc l (V P a b) -> spc r (V Q c d) ->
  P <> Q \/ (a = no_tuple /\ c <> no_tuple) \/ (a <> no_tuple /\ c = no_tuple) -> product l r = None.
Proof.
  intros Hl Hr K. unfold product, range_product.
  destruct K as [K|[[-> K]|[K ->]]].
  - assert (E : has_equal_params l r = false).
    { destruct (has_equal_params l r) eqn:E; [|reflexivity]. apply equal_params_ok in E. apply spc_parts in Hl as (_ & A & _). apply spc_parts in Hr as (_ & B & _). congruence. }
    rewrite E. cbn [negb]. destruct (negb (Bool.eqb _ _)); [reflexivity|]. destruct (is_set l); reflexivity.
  - rewrite (is_set_true _ _ _ Hl), (is_set_false _ _ _ _ Hr K). reflexivity.
  - rewrite (is_set_false _ _ _ _ Hl K), (is_set_true _ _ _ Hr). reflexivity.
Qed.
Lemma range_products l r P x y a b : spc l (V P x a) -> spc r (V P y b) -> same x y -> x <> no_tuple ->
  exists s, range_product l r = Some s /\ spc s (V P x (wrapped a b)) /\
    (exists l', range_factor_domain s = Some l' /\ spc l' (V P x a)) /\ (exists r', range_factor_range s = Some r' /\ spc r' (V P x b)).
Proof.
  intros Hl Hr S N. destruct (range_product_ok _ _ _ _ _ _ _ Hl Hr S) as (s & E & H). exists s. split; [exact E|]. split; [exact H|].
  unfold range_factor_domain, range_factor_range. rewrite (range_is_wrapping_ok _ _ _ _ H N). cbn [inner wrapped is_some].
  pose proof (range_factor_domain__ok _ _ _ _ _ _ _ H) as F. pose proof (range_factor_range__ok _ _ _ _ _ _ _ H) as G.
  change (T None (dims a ++ dims b) (Some (a, b))) with (wrapped a b) in F, G. rewrite part1_wrapped in F. rewrite part2_wrapped in G. auto.
Qed.
Lemma domain_products l r P x y a b : spc l (V P a x) -> spc r (V P b y) -> same x y ->
  exists s, domain_product l r = Some s /\ spc s (V P (wrapped a b) x) /\
    (exists l', domain_factor_domain s = Some l' /\ spc l' (V P a x)) /\ (exists r', domain_factor_range s = Some r' /\ spc r' (V P b x)).
Proof.
  intros Hl Hr S. destruct (domain_product_ok _ _ _ _ _ _ _ Hl Hr S) as (s & E & H). exists s. split; [exact E|]. split; [exact H|].
  pose proof (domain_factor_domain_ok _ _ _ _ _ _ _ H) as F. pose proof (domain_factor_range_ok _ _ _ _ _ _ _ H) as G.
  change (T None (dims a ++ dims b) (Some (a, b))) with (wrapped a b) in F, G. rewrite part1_wrapped in F. rewrite part2_wrapped in G. auto.
Qed.
Lemma factors s P i d a b j e c f : spc s (V P (T i d (Some (a, b))) (T j e (Some (c, f)))) -> a <> no_tuple -> b <> no_tuple ->
  (exists s', factor_domain s = Some s' /\ spc s' (V P (part1 (T i d (Some (a, b))) a b) (part1 (T j e (Some (c, f))) c f))) /\
  (exists s', factor_range s = Some s' /\ spc s' (V P (part2 (T i d (Some (a, b))) a b) (part2 (T j e (Some (c, f))) c f))).
Proof. intros H A B. split; [exact (factor_domain_map_ok _ _ _ _ _ _ _ _ _ _ H A)|exact (factor_range_map_ok _ _ _ _ _ _ _ _ _ _ H B)]. Qed.
Lemma factors_None s P a b : spc s (V P a b) -> (a <> no_tuple /\ inner a = None) \/ inner b = None -> factor_domain s = None /\ factor_range s = None.
Proof. intros H K. split; [exact (factor_domain_None _ _ _ _ H K)|exact (factor_range_None _ _ _ _ H K)]. Qed.
Lemma domain_wrapped s P i d a b c : spc s (V P (T i d (Some (a, b))) c) ->
  (exists s', domain_wrapped_domain s = Some s' /\ spc s' (V P no_tuple (part1 (T i d (Some (a, b))) a b))) /\
  (exists s', domain_wrapped_range s = Some s' /\ spc s' (V P no_tuple (part2 (T i d (Some (a, b))) a b))).
Proof.
  intros H. unfold domain_wrapped_domain, domain_wrapped_range. destruct (domain_ok _ _ _ _ H) as (s1 & -> & H1). cbn [bind].
  split; [exact (factor_domain_set_ok _ _ _ _ _ _ H1)|exact (factor_range_set_ok _ _ _ _ _ _ H1)].
Qed.
Lemma range_wrapped s P i d a b c : spc s (V P c (T i d (Some (a, b)))) ->
  (exists s', range_wrapped_domain s = Some s' /\ spc s' (V P no_tuple (part1 (T i d (Some (a, b))) a b))) /\
  (exists s', range_wrapped_range s = Some s' /\ spc s' (V P no_tuple (part2 (T i d (Some (a, b))) a b))).
Proof.
  intros H. unfold range_wrapped_domain, range_wrapped_range. destruct (range_ok _ _ _ _ H) as (s1 & -> & H1). cbn [bind].
  split; [exact (factor_domain_set_ok _ _ _ _ _ _ H1)|exact (factor_range_set_ok _ _ _ _ _ _ H1)].
Qed.
Lemma range_reverse_consistent s P a i d b c : spc s (V P a (T i d (Some (b, c)))) -> a <> no_tuple -> consistent b -> consistent c ->
  exists s', range_reverse s = Some s' /\ (same b c -> spc s' (V P a (T i d (Some (c, b))))) /\ (~ same b c -> spc s' (V P a (T None d (Some (c, b))))).
Proof. intros H N B C. apply (range_reverse_ok _ _ _ _ _ _ _ H N). intros S D. now apply same_consistent. Qed.
Lemma range_reverse_twice s P a d b c : spc s (V P a (T None d (Some (b, c)))) -> a <> no_tuple -> consistent b -> consistent c ->
  exists s', range_reverse s = Some s' /\ exists s'', range_reverse s' = Some s'' /\ spc s'' (V P a (T None d (Some (b, c)))).
Proof.
  intros H N B C. destruct (range_reverse_consistent _ _ _ _ _ _ _ H N B C) as (s' & E & H1 & H2). exists s'. split; [exact E|].
  assert (H3 : spc s' (V P a (T None d (Some (c, b))))).
  { destruct (nested_out _ _ _ _ _ _ _ H) as (n & _ & Hn & _);
    destruct (tuple_is_equal n In n Out) eqn:Q; pose proof (tuple_is_equal_same n In n Out) as X; cbn [tup] in X; pose proof (spc_parts _ _ _ _ Hn) as (_ & _ & Y1 & Y2); rewrite Y1, Y2, Q in X;
    try (apply H1, X; reflexivity); apply H2; intros K; apply X in K; discriminate. }
  destruct (range_reverse_consistent _ _ _ _ _ _ _ H3 N C B) as (s'' & E2 & H4 & H5). exists s''. split; [exact E2|].
  destruct (nested_out _ _ _ _ _ _ _ H3) as (n & _ & Hn & _).
  pose proof (tuple_is_equal_same n In n Out) as X; cbn [tup] in X; pose proof (spc_parts _ _ _ _ Hn) as (_ & _ & Y1 & Y2). rewrite Y1, Y2 in X.
  destruct (tuple_is_equal n In n Out) eqn:Q; [apply H4, X; reflexivity|]. apply H5. intros K. apply X in K. discriminate.
Qed.
Lemma set_from_params_params s P : spc s (V P no_tuple no_tuple) ->
  exists s', set_from_params s = Some s' /\ spc s' (V P no_tuple unit_tuple) /\ exists s'', params s' = Some s'' /\ spc s'' (V P no_tuple no_tuple).
Proof. intros H. destruct (set_from_params_ok _ _ H) as (s' & E & H'). exists s'. split; [exact E|]. split; [exact H'|]. exact (params_ok _ _ _ _ H'). Qed.
Lemma is_equal_iff s1 s2 P Q a b c d : spc s1 (V P a b) -> spc s2 (V Q c d) -> (is_equal s1 s2 = true <-> P = Q /\ same a c /\ same b d).
Proof. intros [_ E1] [_ E2]. rewrite is_equal_ok, E1, E2. reflexivity. Qed.
Lemma drop_dims_view s t first num : t <> Param -> wf s -> first + num <= dim s t ->
  exists s', drop_dims s t first num = Some s' /\ wf s' /\
    view_of s' = let c := T None (firstn first (dl s t) ++ skipn (first + num) (dl s t)) None in
      match t with In => V (dl s Param) c (tup_out s) | _ => V (dl s Param) (tup_in s) c end.
Proof.
  intros Ht W H. destruct (drop_dims_ok s t first num Ht W H) as (s' & E & W' & P & T1 & T2). exists s'. split; [exact E|]. split; [exact W'|].
  unfold view_of. cbv zeta. rewrite P. destruct t; [congruence| |]; f_equal; try exact T1; [apply (T2 Out)|apply (T2 In)]; congruence.
Qed.
Lemma drop_params_view s first num : wf s -> first + num <= nparam s ->
  exists s', drop_dims s Param first num = Some s' /\ wf s' /\
    view_of s' = V (firstn first (dl s Param) ++ skipn (first + num) (dl s Param)) (tup_in s) (tup_out s).
Proof.
  intros W H. destruct (drop_params_ok first num s W H) as (s' & E & W' & P & T1 & T2). exists s'. split; [exact E|]. split; [exact W'|].
  unfold view_of. now rewrite P, T1, T2.
Qed.

Lemma map_from_set_ok s P a : spc s (V P no_tuple a) -> exists s', map_from_set s = Some s' /\ spc s' (V P a a).
Proof.
  intros H. unfold map_from_set. rewrite (is_set_true _ _ _ H). cbn [negb]. cbv zeta.
  pose proof (dl_length s Param) as LP. pose proof (dl_length s Out) as LO. cbn [dim] in LP, LO.
  assert (FIN : forall r, dl r Param = dl s Param -> dl r In = dl s Out -> dl r Out = dl s Out -> okids r -> n_in r = n_out s -> n_out r = n_out s ->
     id1 r = id1 s -> nest1 r = nest1 s -> spc (with_nested (with_tuple_id r In (id1 s)) In (nest1 s)) (V P a a)).
  { intros r A B C O L1 L2 I1 N1. set (x := with_nested _ _ _).
    assert (DL : forall t, dl x t = dl r t) by (intros t; apply dl_with; destruct t; reflexivity).
    apply spc_parts in H as (W & Pp & _ & To). apply wf_eq in W as (_ & _ & K). apply spc_of.
    - apply wf_eq. rewrite DL, A. split; [exact O|]. unfold x. cbn [nest0 nest1 n_in n_out with_nested with_tuple_id]. rewrite L1, L2, N1. auto.
    - now rewrite DL, A.
    - rewrite tup_in_eq, DL, B, <- To, tup_out_eq. reflexivity.
    - rewrite tup_out_eq, DL, C, <- To, tup_out_eq. unfold x. cbn [id1 nest1 with_nested with_tuple_id]. now rewrite I1, N1. }
  change (get_ids s Param 0 (nparam s)) with (dl s Param). change (get_ids s Out 0 (n_out s)) with (dl s Out).
  destruct (ids s) as [l|] eqn:Ei.
  - destruct (Nat.ltb_spec 0 (nparam s + n_out s + n_out s)) as [Hn|Hn].
    + set (r := with_ids _ _).
      destruct (dl_of_idl r (dl s Param) (dl s Out) (repeat None (n_out s))) as (A & B & C & O); [reflexivity|exact LP|exact LO|apply repeat_length|].
      destruct (copy_ids_ok r Out 0 r In O) as (r' & -> & F & O' & G); [cbn; lia|]. cbn [bind]. eexists. split; [reflexivity|].
      destruct (frame_all _ _ F) as (F1 & F2 & F3 & F4 & F5 & F6 & F7). apply FIN; try assumption.
      * rewrite <- A. apply (frame_dl_other _ _ _ F). intros j. now rewrite G.
      * rewrite <- B. apply (frame_dl_other _ _ _ F). intros j. now rewrite G.
      * apply dl_is; rewrite (frame_dim _ _ _ F); [now rewrite LO|]. intros j Hj. rewrite G. cbn [dtype_eqb andb Nat.leb Nat.add].
        change (dim r Out) with (n_out s) in Hj. change (dim r In) with (n_out s). rewrite (proj2 (Nat.ltb_lt _ _)) by exact Hj.
        rewrite <- !nth_dl, B, C, nth_repeat, or_else_None, Nat.sub_0_r. reflexivity.
    + cbn [bind]. eexists. split; [reflexivity|]. set (r := with_dims _ _ _ _).
      assert (Z1 : dl s Param = []) by (apply dl_nil; cbn; lia). assert (Z2 : dl s Out = []) by (apply dl_nil; cbn; lia).
      apply FIN; try reflexivity; rewrite ?Z1, ?Z2; try (apply dl_nil; cbn; lia).
      pose proof (is_set_true _ _ _ H) as Q. destruct H as [W _]. apply wf_okids in W. unfold okids, n_id, dim_all, idl in *. cbn. rewrite Ei in *.
      assert (n_in s = 0); [|lia].
      unfold is_set in Q. destruct (Nat.eqb_spec (n_in s) 0); [assumption|discriminate].
  - cbn [bind]. eexists. split; [reflexivity|]. set (r := with_dims _ _ _ _). assert (Er : ids r = None) by exact Ei.
    apply FIN; try reflexivity; try (rewrite !dl_None by assumption; reflexivity). now apply okids_None.
Qed.
Lemma is_domain_iff s1 s2 P Q a b c d : spc s1 (V P a b) -> spc s2 (V Q c d) ->
  (is_domain s1 s2 = true <-> tid c <> Some id_none /\ tid d <> Some id_none /\ P = Q /\ a = no_tuple /\ same b c) /\
  (is_range s1 s2 = true <-> tid c <> Some id_none /\ tid d <> Some id_none /\ P = Q /\ a = no_tuple /\ same b d).
Proof.
  intros H1 H2. apply spc_parts in H1 as (_ & <- & <- & <-). apply spc_parts in H2 as (_ & <- & <- & <-).
  unfold is_domain, is_range, has_domain_tuples, has_range_tuples. rewrite !andb_true_iff, !equal_params_ok, !is_set_ok, !tuple_is_equal_same. cbn [tup].
  assert (M : is_map s2 = true <-> tid (tup_in s2) <> Some id_none /\ tid (tup_out s2) <> Some id_none).
  { unfold is_map, is_none. rewrite tup_in_eq, tup_out_eq. cbn [tid]. rewrite andb_true_iff, !negb_true_iff.
    assert (X : forall o, match o with Some z => (z =? id_none)%Z | None => false end = false <-> o <> Some id_none).
    { intros [z|]; [rewrite Z.eqb_neq; split; congruence|split; [discriminate|reflexivity]]. }
    rewrite !X. reflexivity. }
  rewrite M. split; tauto.
Qed.

(** [B[x] -> C[y]] -> [B[x'] -> C[y]], of which the outer names were made equal *)
Definition bad_in : space := mksp 0 1 1 (Some 2%Z) (Some 3%Z) None None (Some [Some 10%Z; Some 11%Z]).
Definition bad_out : space := mksp 0 1 1 (Some 2%Z) (Some 3%Z) None None (Some [Some 12%Z; Some 11%Z]).
Definition bad : space := mksp 0 2 2 None None (Some bad_in) (Some bad_out) (Some [Some 10%Z; Some 11%Z; Some 10%Z; Some 11%Z]).
Lemma reverse_refuted : ~ (forall s P a b, spc s (V P a b) -> exists s', reverse s = Some s' /\ spc s' (V P b a)).
Proof.
  intros H. assert (W : wf bad) by (repeat split; vm_compute; lia).
  destruct (H bad _ _ _ (wf_spc _ W)) as (s' & E & _ & Vw). vm_compute in E. injection E as <-. vm_compute in Vw. discriminate.
Qed.
Definition bc' : space := mksp 1 2 1 (Some 2%Z) (Some 3%Z) None None (Some [Some 10%Z; Some 12%Z; Some 13%Z; Some 14%Z]).
Definition abc' : space := mksp 1 1 3 (Some 1%Z) None None (Some bc') (Some [Some 10%Z; Some 11%Z; Some 12%Z; Some 13%Z; Some 14%Z]).
Lemma range_reverse_names_refuted :
  ~ (forall s P a b c s', spc s (V P a (wrapped b c)) -> a <> no_tuple -> range_reverse s = Some s' -> spc s' (V P a (wrapped c b))).
Proof.
  intros H. destruct (range_reverse abc') as [s'|] eqn:E; [|vm_compute in E; discriminate].
  assert (X : spc s' (V [Some 10%Z] (T (Some 1%Z) [Some 11%Z] None) (wrapped (T (Some 3%Z) [Some 14%Z] None) (T (Some 2%Z) [Some 12%Z; Some 13%Z] None)))).
  { apply (H abc' _ _ (T (Some 2%Z) [Some 12%Z; Some 13%Z] None) (T (Some 3%Z) [Some 14%Z] None)); [split; [repeat split; vm_compute; lia|reflexivity]|discriminate|exact E]. }
  vm_compute in E. injection E as <-. destruct X as [_ X]. vm_compute in X. discriminate.
Qed.
