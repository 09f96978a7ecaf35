(** C39: operations on spaces compute what they are documented to compute, are
    inverse to each other and reject other spaces. *)
From Coq Require Import ZArith List Bool Lia Arith.
From Verif Require Import SpaceModel SpaceSpec SpaceProofs.
Import ListNotations.

(** ** reverse *)
Theorem C39_reverse s P a b : spc s (V P a b) -> consistent a -> consistent b ->
  exists s', reverse s = Some s' /\ spc s' (V P b a).
Proof. exact (reverse_consistent s P a b). Qed.
Theorem C39_reverse_twice s : wf s ->
  exists s', reverse s = Some s' /\ wf s' /\ exists s'', reverse s' = Some s'' /\ spc s'' (view_of s).
Proof. exact (reverse_twice s). Qed.

(** ** wrap and unwrap *)
Theorem C39_wrap s P a b : spc s (V P a b) -> exists w, wrap s = Some w /\ spc w (V P no_tuple (wrapped a b)) /\ unwrap w = Some s.
Proof. exact (wrap_unwrap s P a b). Qed.
Theorem C39_unwrap s P i d a b : spc s (V P no_tuple (T i d (Some (a, b)))) ->
  exists n, unwrap s = Some n /\ spc n (V P a b) /\ exists w, wrap n = Some w /\ spc w (V P no_tuple (wrapped a b)).
Proof. exact (unwrap_wrap s P i d a b). Qed.
Theorem C39_unwrap_rejects s P a b : spc s (V P a b) -> a <> no_tuple \/ inner b = None -> unwrap s = None.
Proof. exact (unwrap_None s P a b). Qed.

(** ** domain and range *)
Theorem C39_domain_range s P a b : spc s (V P a b) ->
  exists d r, domain s = Some d /\ range s = Some r /\ spc d (V P no_tuple a) /\ spc r (V P no_tuple b) /\
  exists s', map_from_domain_and_range d r = Some s' /\ spc s' (V P a b).
Proof. exact (domain_range s P a b). Qed.
Theorem C39_map_from_domain_and_range d r P a b : spc d (V P no_tuple a) -> spc r (V P no_tuple b) ->
  exists s, map_from_domain_and_range d r = Some s /\ spc s (V P a b) /\
    (exists d', domain s = Some d' /\ spc d' (V P no_tuple a)) /\ (exists r', range s = Some r' /\ spc r' (V P no_tuple b)).
Proof. exact (map_from_parts d r P a b). Qed.
Theorem C39_map_from_domain_and_range_rejects d r P Q a b a' b' : spc d (V P a' a) -> spc r (V Q b' b) ->
  a' <> no_tuple \/ b' <> no_tuple \/ P <> Q -> map_from_domain_and_range d r = None.
Proof. exact (map_from_None d r P Q a b a' b'). Qed.
Theorem C39_from_domain s P a : spc s (V P no_tuple a) ->
  exists s', from_domain s = Some s' /\ spc s' (V P a unit_tuple) /\ exists d, domain s' = Some d /\ spc d (V P no_tuple a).
Proof. exact (from_domain_domain s P a). Qed.
Theorem C39_from_range s P a : spc s (V P no_tuple a) ->
  exists s', from_range s = Some s' /\ spc s' (V P unit_tuple a) /\ exists d, range s' = Some d /\ spc d (V P no_tuple a).
Proof. exact (from_range_range s P a). Qed.
Theorem C39_from_rejects s P a b : spc s (V P a b) -> a <> no_tuple -> from_domain s = None /\ from_range s = None.
Proof. exact (from_None s P a b). Qed.
Theorem C39_domain_map s P a b : spc s (V P a b) -> exists s', domain_map s = Some s' /\ spc s' (V P (wrapped a b) a).
Proof. exact (domain_map_ok s P a b). Qed.
Theorem C39_range_map s P a b : spc s (V P a b) -> exists s', range_map s = Some s' /\ spc s' (V P (wrapped a b) b).
Proof. exact (range_map_ok s P a b). Qed.
Theorem C39_join l r P Q a b c d : spc l (V P a b) -> spc r (V Q c d) ->
  (P = Q /\ same b c -> exists s, join l r = Some s /\ spc s (V P a d)) /\ (~ (P = Q /\ same b c) -> join l r = None).
Proof. exact (join_iff l r P Q a b c d). Qed.

(** ** curry and uncurry *)
Theorem C39_curry s P i d a b c : spc s (V P (T i d (Some (a, b))) c) ->
  exists s', curry s = Some s' /\ spc s' (V P a (wrapped b c)).
Proof. exact (curry_ok s P i d a b c). Qed.
Theorem C39_uncurry s P i d a b c : spc s (V P a (T i d (Some (b, c)))) -> a <> no_tuple ->
  exists s', uncurry s = Some s' /\ spc s' (V P (wrapped a b) c).
Proof. exact (uncurry_ok s P i d a b c). Qed.
Theorem C39_uncurry_curry s P a b c : spc s (V P (wrapped a b) c) -> a <> no_tuple ->
  exists s', curry s = Some s' /\ exists s'', uncurry s' = Some s'' /\ spc s'' (V P (wrapped a b) c).
Proof. exact (uncurry_curry s P a b c). Qed.
Theorem C39_curry_uncurry s P a b c : spc s (V P a (wrapped b c)) -> a <> no_tuple ->
  exists s', uncurry s = Some s' /\ exists s'', curry s' = Some s'' /\ spc s'' (V P a (wrapped b c)).
Proof. exact (curry_uncurry s P a b c). Qed.
Theorem C39_curry_rejects s P a b : spc s (V P a b) -> inner a = None -> curry s = None.
Proof. exact (curry_None s P a b). Qed.
Theorem C39_uncurry_rejects s P a b : spc s (V P a b) -> inner b = None \/ a = no_tuple -> uncurry s = None.
Proof. exact (uncurry_None s P a b). Qed.
Theorem C39_range_curry s P a i d j e b c f : spc s (V P a (T i d (Some (T j e (Some (b, c)), f)))) -> a <> no_tuple ->
  exists s', range_curry s = Some s' /\ spc s' (V P a (T i d (Some (b, wrapped c f)))).
Proof. exact (range_curry_ok s P a i d j e b c f). Qed.

(** ** zip *)
Theorem C39_zip s P i d a b j e c f : spc s (V P (T i d (Some (a, b))) (T j e (Some (c, f)))) ->
  exists s', zip s = Some s' /\ spc s' (V P (wrapped a c) (wrapped b f)).
Proof. exact (zip_ok s P i d a b j e c f). Qed.
Theorem C39_zip_twice s P a b c d : spc s (V P (wrapped a b) (wrapped c d)) ->
  exists s', zip s = Some s' /\ exists s'', zip s' = Some s'' /\ spc s'' (V P (wrapped a b) (wrapped c d)).
Proof. exact (zip_twice s P a b c d). Qed.
Theorem C39_zip_rejects s P a b : spc s (V P a b) -> inner a = None \/ inner b = None -> zip s = None.
Proof. exact (zip_None s P a b). Qed.

(** ** products and factors *)
Theorem C39_product_sets l r P a b : spc l (V P no_tuple a) -> spc r (V P no_tuple b) ->
  exists s, product l r = Some s /\ spc s (V P no_tuple (wrapped a b)) /\
    (exists l', factor_domain s = Some l' /\ spc l' (V P no_tuple a)) /\ (exists r', factor_range s = Some r' /\ spc r' (V P no_tuple b)).
Proof. exact (product_sets l r P a b). Qed.
Theorem C39_product_maps l r P a b c d : spc l (V P a b) -> spc r (V P c d) -> a <> no_tuple -> c <> no_tuple ->
  exists s, product l r = Some s /\ spc s (V P (wrapped a c) (wrapped b d)) /\
    (exists l', factor_domain s = Some l' /\ spc l' (V P a b)) /\ (exists r', factor_range s = Some r' /\ spc r' (V P c d)).
Proof. exact (product_maps l r P a b c d). Qed.
Theorem C39_product_rejects l r P Q a b c d : spc l (V P a b) -> spc r (V Q c d) ->
  P <> Q \/ (a = no_tuple /\ c <> no_tuple) \/ (a <> no_tuple /\ c = no_tuple) -> product l r = None.
Proof. exact (product_None l r P Q a b c d). Qed.
Theorem C39_range_product l r P x y a b : spc l (V P x a) -> spc r (V P y b) -> same x y -> x <> no_tuple ->
  exists s, range_product l r = Some s /\ spc s (V P x (wrapped a b)) /\
    (exists l', range_factor_domain s = Some l' /\ spc l' (V P x a)) /\ (exists r', range_factor_range s = Some r' /\ spc r' (V P x b)).
Proof. exact (range_products l r P x y a b). Qed.
Theorem C39_domain_product l r P x y a b : spc l (V P a x) -> spc r (V P b y) -> same x y ->
  exists s, domain_product l r = Some s /\ spc s (V P (wrapped a b) x) /\
    (exists l', domain_factor_domain s = Some l' /\ spc l' (V P a x)) /\ (exists r', domain_factor_range s = Some r' /\ spc r' (V P b x)).
Proof. exact (domain_products l r P x y a b). Qed.
Theorem C39_factors s P i d a b j e c f : spc s (V P (T i d (Some (a, b))) (T j e (Some (c, f)))) -> a <> no_tuple -> b <> no_tuple ->
  (exists s', factor_domain s = Some s' /\ spc s' (V P (part1 (T i d (Some (a, b))) a b) (part1 (T j e (Some (c, f))) c f))) /\
  (exists s', factor_range s = Some s' /\ spc s' (V P (part2 (T i d (Some (a, b))) a b) (part2 (T j e (Some (c, f))) c f))).
Proof. exact (factors s P i d a b j e c f). Qed.
Theorem C39_factors_reject s P a b : spc s (V P a b) -> (a <> no_tuple /\ inner a = None) \/ inner b = None ->
  factor_domain s = None /\ factor_range s = None.
Proof. exact (factors_None s P a b). Qed.
Theorem C39_wrapped_parts s P i d a b c : spc s (V P (T i d (Some (a, b))) c) ->
  (exists s', domain_wrapped_domain s = Some s' /\ spc s' (V P no_tuple (part1 (T i d (Some (a, b))) a b))) /\
  (exists s', domain_wrapped_range s = Some s' /\ spc s' (V P no_tuple (part2 (T i d (Some (a, b))) a b))).
Proof. exact (domain_wrapped s P i d a b c). Qed.
Theorem C39_range_wrapped_parts s P i d a b c : spc s (V P c (T i d (Some (a, b)))) ->
  (exists s', range_wrapped_domain s = Some s' /\ spc s' (V P no_tuple (part1 (T i d (Some (a, b))) a b))) /\
  (exists s', range_wrapped_range s = Some s' /\ spc s' (V P no_tuple (part2 (T i d (Some (a, b))) a b))).
Proof. exact (range_wrapped s P i d a b c). Qed.

(** ** range_reverse: the relation in the range is reversed; the names of
    the outer dimensions are not permuted (see the refuted statement below) *)
Theorem C39_range_reverse s P a i d b c : spc s (V P a (T i d (Some (b, c)))) -> a <> no_tuple -> consistent b -> consistent c ->
  exists s', range_reverse s = Some s' /\ (same b c -> spc s' (V P a (T i d (Some (c, b))))) /\ (~ same b c -> spc s' (V P a (T None d (Some (c, b))))).
Proof. exact (range_reverse_consistent s P a i d b c). Qed.
Theorem C39_range_reverse_twice s P a d b c : spc s (V P a (T None d (Some (b, c)))) -> a <> no_tuple -> consistent b -> consistent c ->
  exists s', range_reverse s = Some s' /\ exists s'', range_reverse s' = Some s'' /\ spc s'' (V P a (T None d (Some (b, c)))).
Proof. exact (range_reverse_twice s P a d b c). Qed.
Theorem C39_range_reverse_rejects s P a b : spc s (V P a b) -> inner b = None \/ a = no_tuple -> range_reverse s = None.
Proof. exact (range_reverse_None s P a b). Qed.

(** ** parameters, flattening, equality *)
Theorem C39_params s P a b : spc s (V P a b) -> exists s', params s = Some s' /\ spc s' (V P no_tuple no_tuple).
Proof. exact (params_ok s P a b). Qed.
Theorem C39_set_from_params s P : spc s (V P no_tuple no_tuple) ->
  exists s', set_from_params s = Some s' /\ spc s' (V P no_tuple unit_tuple) /\ exists s'', params s' = Some s'' /\ spc s'' (V P no_tuple no_tuple).
Proof. exact (set_from_params_params s P). Qed.
Theorem C39_flatten s P a b : spc s (V P a b) ->
  spc (flatten_domain s) (V P (flat a) b) /\ spc (flatten_range s) (V P a (flat b)) /\ spc (flatten s) (V P (flat a) (flat b)).
Proof. exact (flatten_ok s P a b). Qed.
Theorem C39_is_equal s1 s2 P Q a b c d : spc s1 (V P a b) -> spc s2 (V Q c d) ->
  (is_equal s1 s2 = true <-> P = Q /\ same a c /\ same b d).
Proof. exact (is_equal_iff s1 s2 P Q a b c d). Qed.
Theorem C39_drop_dims s t first num : t <> Param -> wf s -> first + num <= dim s t ->
  exists s', drop_dims s t first num = Some s' /\ wf s' /\
    view_of s' = let c := T None (firstn first (dl s t) ++ skipn (first + num) (dl s t)) None in
      match t with In => V (dl s Param) c (tup_out s) | _ => V (dl s Param) (tup_in s) c end.
Proof. exact (drop_dims_view s t first num). Qed.
Theorem C39_drop_params s first num : wf s -> first + num <= nparam s ->
  exists s', drop_dims s Param first num = Some s' /\ wf s' /\
    view_of s' = V (firstn first (dl s Param) ++ skipn (first + num) (dl s Param)) (tup_in s) (tup_out s).
Proof. exact (drop_params_view s first num). Qed.

Theorem C39_map_from_set s P a : spc s (V P no_tuple a) -> exists s', map_from_set s = Some s' /\ spc s' (V P a a).
Proof. exact (map_from_set_ok s P a). Qed.
Theorem C39_is_domain s1 s2 P Q a b c d : spc s1 (V P a b) -> spc s2 (V Q c d) ->
  (is_domain s1 s2 = true <-> tid c <> Some id_none /\ tid d <> Some id_none /\ P = Q /\ a = no_tuple /\ same b c) /\
  (is_range s1 s2 = true <-> tid c <> Some id_none /\ tid d <> Some id_none /\ P = Q /\ a = no_tuple /\ same b d).
Proof. exact (is_domain_iff s1 s2 P Q a b c d). Qed.

(** ** Examples *)
(** [n] -> { A[i] -> (B[j,k] -> C[l]) }: n = 10, i = 11, j = 12, k = 13, l = 14,
    A = 1, B = 2, C = 3 *)
Definition bc : space := mksp 1 2 1 (Some 2%Z) (Some 3%Z) None None (Some [Some 10%Z; Some 12%Z; Some 13%Z; Some 14%Z]).
Definition abc : space := mksp 1 1 3 (Some 1%Z) None None (Some bc) (Some [Some 10%Z; Some 11%Z; Some 12%Z; Some 13%Z; Some 14%Z]).
Definition tA := T (Some 1%Z) [Some 11%Z] None.
Definition tB := T (Some 2%Z) [Some 12%Z; Some 13%Z] None.
Definition tC := T (Some 3%Z) [Some 14%Z] None.
Example C39_ex_abc : spc abc (V [Some 10%Z] tA (wrapped tB tC)).
Proof. split; [repeat split; vm_compute; lia|reflexivity]. Qed.
Example C39_ex_consistent : consistent (wrapped tB tC) /\ tA <> no_tuple.
Proof. split; [repeat split|discriminate]. Qed.
Example C39_ex_uncurry : exists s, uncurry abc = Some s /\ view_of s = V [Some 10%Z] (wrapped tA tB) tC /\ domain_is_wrapping s = true.
Proof. eexists. split; [vm_compute; reflexivity|]. split; vm_compute; reflexivity. Qed.
Example C39_ex_reject : curry abc = None /\ zip abc = None /\ unwrap abc = None /\ factor_domain abc = None.
Proof. repeat split. Qed.
Example C39_ex_product : exists s, product bc bc = Some s /\ view_of s = V [Some 10%Z] (wrapped tB tB) (wrapped tC tC).
Proof. eexists. split; vm_compute; reflexivity. Qed.

(** isl_space_reverse considers two tuples as equal if the names of their
    dimensions are equal, without looking at the names inside wrapped relations
    (which may differ if the name of a set dimension was changed) *)
Example C39_bad_reachable : exists d r m, wrap bad_in = Some d /\ wrap bad_out = Some r /\ map_from_domain_and_range d r = Some m /\
  set_dim_id m Out 0 (Some 10%Z) = Some bad.
Proof. do 3 eexists. repeat (split; [vm_compute; reflexivity|]). vm_compute. reflexivity. Qed.
Theorem C39_reverse_refuted :
  ~ (forall s P a b, spc s (V P a b) -> exists s', reverse s = Some s' /\ spc s' (V P b a)).
Proof. exact reverse_refuted. Qed.
(** isl_space_range_reverse does not permute the names of the outer
    dimensions: A[i] -> (B[j,k] -> C[l]) becomes a space with range (C -> B) of
    which the dimensions are called j, k, l instead of l, j, k *)
Theorem C39_range_reverse_names_refuted :
  ~ (forall s P a b c s', spc s (V P a (wrapped b c)) -> a <> no_tuple -> range_reverse s = Some s' -> spc s' (V P a (wrapped c b))).
Proof. exact range_reverse_names_refuted. Qed.

Print Assumptions C39_reverse.
Print Assumptions C39_reverse_twice.
Print Assumptions C39_wrap.
Print Assumptions C39_unwrap.
Print Assumptions C39_unwrap_rejects.
Print Assumptions C39_domain_range.
Print Assumptions C39_map_from_domain_and_range.
Print Assumptions C39_map_from_domain_and_range_rejects.
Print Assumptions C39_from_domain.
Print Assumptions C39_from_range.
Print Assumptions C39_from_rejects.
Print Assumptions C39_domain_map.
Print Assumptions C39_range_map.
Print Assumptions C39_join.
Print Assumptions C39_curry.
Print Assumptions C39_uncurry.
Print Assumptions C39_uncurry_curry.
Print Assumptions C39_curry_uncurry.
Print Assumptions C39_curry_rejects.
Print Assumptions C39_uncurry_rejects.
Print Assumptions C39_range_curry.
Print Assumptions C39_zip.
Print Assumptions C39_zip_twice.
Print Assumptions C39_zip_rejects.
Print Assumptions C39_product_sets.
Print Assumptions C39_product_maps.
Print Assumptions C39_product_rejects.
Print Assumptions C39_range_product.
Print Assumptions C39_domain_product.
Print Assumptions C39_factors.
Print Assumptions C39_factors_reject.
Print Assumptions C39_wrapped_parts.
Print Assumptions C39_range_wrapped_parts.
Print Assumptions C39_range_reverse.
Print Assumptions C39_range_reverse_twice.
Print Assumptions C39_range_reverse_rejects.
Print Assumptions C39_params.
Print Assumptions C39_set_from_params.
Print Assumptions C39_flatten.
Print Assumptions C39_is_equal.
Print Assumptions C39_drop_dims.
Print Assumptions C39_drop_params.
Print Assumptions C39_map_from_set.
Print Assumptions C39_is_domain.
Print Assumptions C39_reverse_refuted.
Print Assumptions C39_range_reverse_names_refuted.
