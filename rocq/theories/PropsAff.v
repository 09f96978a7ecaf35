(** Theorems about affine expressions (C36).  [avalue f v r] states that [f]
    takes the value [r] at the integer point with homogeneous coordinates [v]; [nan_aff f] that [f] is NaN. *)
From Coq Require Import ZArith List Bool QArith Arith Lia.
From Verif Require Import SeqModel SeqSpec MatModel ValModel ValSpec LocalModel LocalSpec SpaceModel SpaceSpec QpModel QpSpec AffModel AffSpec AffProofs AffArith AffPull AffAlign AffMore AffRefute.
Import ListNotations.
Open Scope Z_scope.

(** an affine expression has exactly one value at each integer point *)
Theorem C36_defined f v : wf_aff f -> int_point (a_d f) v -> (exists r, avalue f v r) /\ forall r r', avalue f v r -> avalue f v r' -> (r == r')%Q.
Proof. intros W P. split; [exact (avalue_total f v W P)|intros r r'; exact (avalue_unique f v r r' W)]. Qed.
(** isl_aff_eval *)
Theorem C36_eval f v r : wf_aff f -> avalue f v r -> exists x, aff_eval f v = Ok x /\ means x (EFin r).
Proof. exact (eval_ok f v r). Qed.
Theorem C36_eval_rational f k t : wf_aff f -> a_div f = [] -> 0 < k -> length t = a_d f ->
  exists x r, aff_eval f (k :: t) = Ok x /\ means x (EFin r) /\ rat_value f (map (fun c => inject_Z c / inject_Z k)%Q (k :: t)) r.
Proof. exact (eval_rat f k t). Qed.
Theorem C36_eval_rational_div f v : a_div f <> [] -> v <> [] -> nth 0 v 0 <> 1 -> aff_eval f v = Null.
Proof. exact (eval_rat_div f v). Qed.
Theorem C36_eval_nan f v : nan_aff f -> (int_point (a_d f) v \/ v = []) -> exists x, aff_eval f v = Ok x /\ means x ENan.
Proof. exact (eval_nan f v). Qed.
(** isl_aff_zero_on_domain, isl_aff_val_on_domain, isl_aff_var_on_domain, isl_aff_nan_on_domain *)
Theorem C36_zero s M : wf_divs (dim_all s) M -> known M -> is_set s = true ->
  exists f, aff_zero s M = Ok f /\ a_sp f = s /\ a_div f = M /\ wf_aff f /\ forall v, int_point (dim_all s) v -> avalue f v 0.
Proof. exact (zero_ok s M). Qed.
Theorem C36_val s M x q : wf_divs (dim_all s) M -> known M -> is_set s = true -> means x (EFin q) ->
  exists f, aff_val s M x = Ok f /\ a_sp f = s /\ a_div f = M /\ wf_aff f /\ forall v, int_point (dim_all s) v -> avalue f v q.
Proof. exact (val_ok s M x q). Qed.
Theorem C36_var s M pos : wf_divs (dim_all s) M -> known M -> is_set s = true -> (pos < dim_all s + length M)%nat ->
  exists f, aff_var s M pos = Ok f /\ a_sp f = s /\ a_div f = M /\ wf_aff f /\ forall w, sat (dim_all s) M w -> avalue f (firstn (1 + dim_all s) w) (inject_Z (nth (1 + pos) w 0)).
Proof. exact (var_ok s M pos). Qed.
Theorem C36_nan s M : wf_divs (dim_all s) M -> known M -> is_set s = true -> exists f, aff_nan s M = Ok f /\ a_sp f = s /\ nan_aff f.
Proof. exact (nan_ok s M). Qed.
(** isl_aff_get_constant_val, isl_aff_get_coefficient_val *)
Theorem C36_get_constant f : wf_aff f -> means (aff_get_constant f) (EFin (coef f 1)).
Proof. exact (get_constant_ok f). Qed.
Theorem C36_get_coefficient f pos : wf_aff f -> (pos < a_d f + a_n f)%nat -> exists x, aff_get_coefficient f pos = Ok x /\ means x (EFin (coef f (2 + pos))).
Proof. exact (get_coefficient_ok f pos). Qed.
(** what a change of a coefficient does to the value *)
Theorem C36_changes f g c q : wf_aff f -> (1 <= c < length (a_v f))%nat -> changes f g c q ->
  forall v r x, avalue f v r -> position_value f v (c - 1) x -> avalue g v (r + (q - coef f c) * inject_Z x).
Proof. exact (changes_value f g c q). Qed.
(** isl_aff_add_constant_si, isl_aff_add_constant_val, isl_aff_set_constant_si, isl_aff_set_constant_val *)
Theorem C36_add_constant f k : wf_aff f -> changes f (aff_add_constant f k) 1 (coef f 1 + inject_Z k).
Proof. exact (add_constant_ok f k). Qed.
Theorem C36_add_constant_val f x q : wf_aff f -> means x (EFin q) -> exists g, aff_add_constant_val f x = Ok g /\ changes f g 1 (coef f 1 + q).
Proof. exact (add_constant_val_ok f x q). Qed.
Theorem C36_set_constant f k : wf_aff f -> changes f (aff_set_constant f k) 1 (inject_Z k / inject_Z (nth 0%nat (a_v f) 0%Z)).
Proof. exact (set_constant_ok f k). Qed.
Theorem C36_set_constant_val f x q : wf_aff f -> means x (EFin q) -> exists g, aff_set_constant_val f x = Ok g /\ changes f g 1 q.
Proof. exact (set_constant_val_ok f x q). Qed.
(** isl_aff_add_coefficient_si, isl_aff_add_coefficient_val, isl_aff_set_coefficient_si, isl_aff_set_coefficient_val *)
Theorem C36_add_coefficient f pos k : wf_aff f -> (pos < a_d f + a_n f)%nat -> exists g, aff_add_coefficient f pos k = Ok g /\ changes f g (2 + pos) (coef f (2 + pos) + inject_Z k).
Proof. exact (add_coefficient_ok f pos k). Qed.
Theorem C36_add_coefficient_val f pos x q : wf_aff f -> (pos < a_d f + a_n f)%nat -> means x (EFin q) ->
  exists g, aff_add_coefficient_val f pos x = Ok g /\ changes f g (2 + pos) (coef f (2 + pos) + q).
Proof. exact (add_coefficient_val_ok f pos x q). Qed.
Theorem C36_set_coefficient f pos k : wf_aff f -> (pos < a_d f + a_n f)%nat ->
  exists g, aff_set_coefficient f pos k = Ok g /\ changes f g (2 + pos) (inject_Z k / inject_Z (nth 0%nat (a_v f) 0%Z)).
Proof. exact (set_coefficient_ok f pos k). Qed.
Theorem C36_set_coefficient_val f pos x q : wf_aff f -> (pos < a_d f + a_n f)%nat -> means x (EFin q) ->
  exists g, aff_set_coefficient_val f pos x = Ok g /\ changes f g (2 + pos) q.
Proof. exact (set_coefficient_val_ok f pos x q). Qed.
(** isl_aff_neg, isl_aff_scale, isl_aff_scale_down, isl_aff_scale_val, isl_aff_scale_down_val *)
Theorem C36_neg f : wf_aff f -> wf_aff (aff_neg f) /\ forall v r, avalue f v r -> avalue (aff_neg f) v (- r).
Proof. exact (neg_ok f). Qed.
Theorem C36_scale f k : wf_aff f -> wf_aff (aff_scale f k) /\ forall v r, avalue f v r -> avalue (aff_scale f k) v (r * inject_Z k).
Proof. exact (scale_ok f k). Qed.
Theorem C36_scale_down f k : wf_aff f -> 0 < k -> exists g, aff_scale_down f k = Ok g /\ a_sp g = a_sp f /\ wf_aff g /\ forall v r, avalue f v r -> avalue g v (r / inject_Z k).
Proof. exact (scale_down_ok f k). Qed.
Theorem C36_scale_val f x : wf_aff f -> 0 < vd x -> exists g, aff_scale_val f x = Ok g /\ a_sp g = a_sp f /\ wf_aff g /\ forall v r, avalue f v r -> avalue g v (r * vq x).
Proof. exact (scale_val_ok f x). Qed.
Theorem C36_scale_down_val f x : wf_aff f -> 0 < vd x -> 0 < vn x -> exists g, aff_scale_down_val f x = Ok g /\ a_sp g = a_sp f /\ wf_aff g /\ forall v r, avalue f v r -> avalue g v (r / vq x).
Proof. exact (scale_down_val_ok f x). Qed.
(** isl_aff_floor, isl_aff_ceil, isl_aff_mod_val *)
Theorem C36_floor f : wf_aff f -> exists g, aff_floor f = Ok g /\ a_sp g = a_sp f /\ wf_aff g /\ forall v r n, avalue f v r -> is_floor r n -> avalue g v (inject_Z n).
Proof. exact (floor_ok f). Qed.
Theorem C36_ceil f : wf_aff f -> exists g, aff_ceil f = Ok g /\ a_sp g = a_sp f /\ wf_aff g /\ forall v r n, avalue f v r -> is_ceil r n -> avalue g v (inject_Z n).
Proof. exact (ceil_ok f). Qed.
Theorem C36_mod junk f x : wf_aff f -> vd x = 1 -> 0 < vn x ->
  exists g, aff_mod junk f x = Ok g /\ a_sp g = a_sp f /\ wf_aff g /\ forall v r n, avalue f v r -> is_floor (r / inject_Z (vn x)) n -> avalue g v (r - inject_Z (vn x) * inject_Z n).
Proof. exact (mod_val_ok junk f x). Qed.
(** isl_aff_add, isl_aff_sub, isl_aff_mul, isl_aff_div *)
Theorem C36_add junk f1 f2 : wf_aff f1 -> wf_aff f2 -> is_equal (a_sp f1) (a_sp f2) = true ->
  exists g, aff_add junk f1 f2 = Ok g /\ a_sp g = a_sp f1 /\ wf_aff g /\ forall v r1 r2, avalue f1 v r1 -> avalue f2 v r2 -> avalue g v (r1 + r2).
Proof. exact (add_ok junk f1 f2). Qed.
Theorem C36_sub junk f1 f2 : wf_aff f1 -> wf_aff f2 -> is_equal (a_sp f1) (a_sp f2) = true ->
  exists g, aff_sub junk f1 f2 = Ok g /\ a_sp g = a_sp f1 /\ wf_aff g /\ forall v r1 r2, avalue f1 v r1 -> avalue f2 v r2 -> avalue g v (r1 - r2).
Proof. exact (sub_ok junk f1 f2). Qed.
Theorem C36_mul f1 f2 : wf_aff f1 -> wf_aff f2 -> aff_is_cst f1 = true \/ aff_is_cst f2 = true -> a_d f1 = a_d f2 ->
  exists g, aff_mul f1 f2 = Ok g /\ wf_aff g /\ forall v r1 r2, avalue f1 v r1 -> avalue f2 v r2 -> avalue g v (r1 * r2).
Proof. exact (mul_ok f1 f2). Qed.
Theorem C36_div f1 f2 : wf_aff f1 -> wf_aff f2 -> aff_is_cst f2 = true -> a_d f1 = a_d f2 ->
  exists g, aff_div false f1 f2 = Ok g /\ ((exists v, avalue f2 v 0) -> nan_aff g) /\
    ((exists v r, avalue f2 v r /\ ~ r == 0)%Q -> wf_aff g /\ forall v r1 r2, avalue f1 v r1 -> avalue f2 v r2 -> avalue g v (r1 / r2)).
Proof. exact (div_ok f1 f2). Qed.
(** the arguments of isl_aff_div may share their coefficients, in which case the result may have a negative denominator,
    which isl_aff_ceil (and other functions) cannot handle: the ceiling of -1/-1 turns out to be 3 *)
Theorem C36_div_alias_refuted : exists f g h, wf_aff f /\ avalue f [1] (-1)%Q /\
  aff_div true f f = Ok g /\ ~ wf_aff g /\ avalue g [1] 1%Q /\ aff_ceil g = Ok h /\ avalue h [1] 3%Q.
Proof. destruct div_alias as (g & h & H). exists minus_one, g, h. exact H. Qed.
(** isl_aff_pullback_multi_aff *)
Theorem C36_pullback junk f m : wf_aff f -> wf_maff m -> has_equal_params (a_sp f) (m_sp m) = true -> has_range_tuples (a_sp f) (m_sp m) = true ->
  exists g, aff_pullback junk f m = Ok g /\ domain (m_sp m) = Some (a_sp g) /\ wf_aff g /\
    forall v xs r, int_point (a_d g) v -> length xs = n_out (m_sp m) -> (forall i, (i < n_out (m_sp m))%nat -> avalue (nth i (m_p m) f) v (nth i xs 0%Q)) ->
      rat_value f (map inject_Z (firstn (1 + nparam (m_sp m)) v) ++ xs) r -> avalue g v r.
Proof. exact (pullback_ok junk f m). Qed.
(** the result of replacing variables by NaN is not NaN: there may be a division by zero *)
Theorem C36_pullback_nan_refuted : exists f m, wf_aff f /\ (forall p, List.In p (m_p m) -> nan_aff p) /\ m_p m <> [] /\ (forall i, (2 <= i < length (a_v f))%nat -> nth i (a_v f) 0 = 1) /\ aff_pullback no_junk f m = UB.
Proof. destruct pullback_nan as ((A & B & C) & _). exists x_plus_y, nan_nan. split; [exact A|]. split; [exact B|]. split; [discriminate|]. split; [intros [|[|[|[|i]]]]; cbn; intros H; try lia; reflexivity|exact C]. Qed.
Theorem C36_pullback_nan_div_refuted : exists f p m, wf_aff f /\ nan_aff p /\ m_p m = [p] /\ aff_pullback no_junk f m = UB.
Proof. destruct pullback_nan as (_ & A & B & C). exists half_x, (mkaff (ssp 1) [] [0; 0; 0]), one_nan. split; [exact A|]. split; [apply B; left; reflexivity|]. split; [reflexivity|exact C]. Qed.
(** isl_multi_aff_align_divs *)
Theorem C36_align_divs junk m : wf_maff m ->
  exists m', maff_align_divs junk m = Ok m' /\ m_sp m' = m_sp m /\ wf_maff m' /\ aligned m' /\ length (m_p m') = length (m_p m) /\
    forall i d v r, (i < length (m_p m))%nat -> avalue (nth i (m_p m) d) v r -> avalue (nth i (m_p m') d) v r.
Proof. exact (maff_align_ok junk m). Qed.
(** NaN *)
Theorem C36_nan_unary f : nan_aff f -> nan_aff (aff_neg f) /\ aff_floor f = Ok f /\ aff_ceil f = Ok f /\ (forall k, aff_scale f k = f) /\ (forall k, aff_scale_down f k = Ok f) /\
  (forall k, aff_add_constant f k = f) /\ (forall x, aff_add_constant_val f x = Ok f).
Proof. exact (nan_unary f). Qed.
Theorem C36_nan_mod junk f x : nan_aff f -> vd x = 1 -> 0 < vn x -> aff_mod junk f x = Ok f.
Proof. exact (nan_mod junk f x). Qed.
Theorem C36_nan_binary junk f g : is_equal (a_sp f) (a_sp g) = true -> (nan_aff f /\ (wf_aff g \/ nan_aff g)) \/ (wf_aff f /\ nan_aff g) ->
  exists h, (aff_add junk f g = Ok h /\ nan_aff h) /\ (aff_sub junk f g = Ok h /\ nan_aff h) /\ (aff_mul f g = Ok h /\ nan_aff h) /\ (aff_div false f g = Ok h /\ nan_aff h).
Proof. exact (nan_binary junk f g). Qed.
Theorem C36_add_nan_constant f : wf_ls f -> exists g, aff_add_constant_val f v_nan = Ok g /\ (wf_aff f -> nan_aff g).
Proof. exact (add_nan_const f). Qed.
(** isl_aff_plain_is_equal *)
Theorem C36_plain_equal f g : wf_aff f -> wf_aff g -> aff_plain_is_equal f g = true -> forall v r, avalue f v r <-> avalue g v r.
Proof. exact (plain_equal_sound f g). Qed.
Theorem C36_plain_equal_nan f g : nan_aff f \/ nan_aff g -> aff_plain_is_equal f g = false.
Proof. exact (plain_equal_nan f g). Qed.
(** ** Examples *)
(** 3/2 + x/2 and (2 floor(x/2) + 1)/3 on the set { [x] } *)
Definition ex_f : aff := mkaff (ssp 1) [] [2; 3; 1].
Definition ex_g : aff := mkaff (ssp 1) [[2; 0; 1; 0]] [3; 1; 0; 2].
Definition ev (r : res aff) (v : list Z) : option (Z * Z) := match (let! f := r in aff_eval f v) with Ok x => Some (vn x, vd x) | _ => None end.
Example ex_wf_f : wf_aff ex_f.
Proof. apply wf_flat; [reflexivity|cbn; lia]. Qed.
Example ex_wf_g : wf_aff ex_g.
Proof.
  split; [|cbn; lia]. split; [|split; [|reflexivity]]; intros i Hi; cbn in Hi; assert (i = 0%nat) by lia; subst i; [|cbn; lia].
  split; [reflexivity|]. split; [cbn; lia|]. intros j Hj. cbn in Hj. destruct j as [|[|[|[|j]]]]; try lia; try reflexivity. cbn. destruct j; reflexivity.
Qed.
Example ex_spaces : is_equal (a_sp ex_f) (a_sp ex_g) = true /\ is_set (a_sp ex_f) = true /\ a_d ex_f = 1%nat /\ a_n ex_g = 1%nat.
Proof. vm_compute. repeat split. Qed.
Example ex_values : ev (Ok ex_f) [1; 7] = Some (5, 1) /\ ev (Ok ex_g) [1; 7] = Some (7, 3) /\ ev (aff_add no_junk ex_f ex_g) [1; 7] = Some (22, 3) /\ ev (aff_sub no_junk ex_f ex_g) [1; 7] = Some (8, 3).
Proof. vm_compute. repeat split. Qed.
Example ex_floor : ev (aff_floor ex_g) [1; 7] = Some (2, 1) /\ ev (aff_ceil ex_g) [1; 7] = Some (3, 1) /\ ev (aff_mod no_junk ex_g (mkv 2 1)) [1; 7] = Some (1, 3) /\ ev (aff_scale_val ex_g (mkv 3 2)) [1; 7] = Some (7, 2).
Proof. vm_compute. repeat split. Qed.
Example ex_coef : ev (aff_add_constant_val ex_f (mkv 1 3)) [1; 7] = Some (16, 3) /\ ev (aff_set_coefficient_val ex_f 0 (mkv 1 3)) [1; 7] = Some (23, 6) /\ ev (aff_val (ssp 1) [] (mkv 1 3)) [1; 7] = Some (1, 3) /\ ev (aff_var (ssp 1) [[2; 0; 1; 0]] 1) [1; 7] = Some (3, 1).
Proof. vm_compute. repeat split. Qed.
Example ex_mul : ev (aff_mul ex_f (mkaff (ssp 1) [] [3; 2; 0])) [1; 7] = Some (10, 3) /\ ev (aff_div false ex_f (mkaff (ssp 1) [] [3; -2; 0])) [1; 7] = Some (-15, 2) /\ ev (aff_div false ex_f (mkaff (ssp 1) [] [3; 0; 0])) [1; 7] = Some (0, 0).
Proof. vm_compute. repeat split. Qed.
(** floor(y/2) + z pulled back by { [x] -> [y = 3/2 + x/2, z = (2 floor(x/2) + 1)/3] } *)
Definition ex_h : aff := mkaff (ssp 2) [[2; 0; 1; 0; 0]] [1; 0; 0; 1; 1].
Definition ex_m : maff := mkmaff (msp 1 2) [ex_f; ex_g].
Example ex_wf_m : wf_maff ex_m.
Proof.
  split; [vm_compute; repeat split; try lia; try (intros; discriminate)|]. split; [reflexivity|]. split.
  - intros f [<-|[<-|[]]]; (split; [|reflexivity]); [exact ex_wf_f|exact ex_wf_g].
  - intros f g [<-|[<-|[]]] [<-|[<-|[]]]; reflexivity.
Qed.
Example ex_pull : has_equal_params (a_sp ex_h) (m_sp ex_m) = true /\ has_range_tuples (a_sp ex_h) (m_sp ex_m) = true /\ ev (aff_pullback no_junk ex_h ex_m) [1; 7] = Some (13, 3).
Proof. vm_compute. repeat split. Qed.
Example ex_nan : nan_aff (mkaff (ssp 1) [] [0; 0; 0]) /\ ev (aff_add no_junk ex_f (mkaff (ssp 1) [] [0; 0; 0])) [1; 7] = Some (0, 0).
Proof. split; [exact (nan_flat 1)|reflexivity]. Qed.
Example ex_equal : aff_plain_is_equal ex_g ex_g = true /\ aff_plain_is_equal ex_f ex_g = false.
Proof. vm_compute. repeat split. Qed.

Print Assumptions C36_defined.
Print Assumptions C36_eval.
Print Assumptions C36_eval_rational.
Print Assumptions C36_eval_rational_div.
Print Assumptions C36_eval_nan.
Print Assumptions C36_zero.
Print Assumptions C36_val.
Print Assumptions C36_var.
Print Assumptions C36_nan.
Print Assumptions C36_get_constant.
Print Assumptions C36_get_coefficient.
Print Assumptions C36_changes.
Print Assumptions C36_add_constant.
Print Assumptions C36_add_constant_val.
Print Assumptions C36_set_constant.
Print Assumptions C36_set_constant_val.
Print Assumptions C36_add_coefficient.
Print Assumptions C36_add_coefficient_val.
Print Assumptions C36_set_coefficient.
Print Assumptions C36_set_coefficient_val.
Print Assumptions C36_neg.
Print Assumptions C36_scale.
Print Assumptions C36_scale_down.
Print Assumptions C36_scale_val.
Print Assumptions C36_scale_down_val.
Print Assumptions C36_floor.
Print Assumptions C36_ceil.
Print Assumptions C36_mod.
Print Assumptions C36_add.
Print Assumptions C36_sub.
Print Assumptions C36_mul.
Print Assumptions C36_div.
Print Assumptions C36_div_alias_refuted.
Print Assumptions C36_pullback.
Print Assumptions C36_pullback_nan_refuted.
Print Assumptions C36_pullback_nan_div_refuted.
Print Assumptions C36_align_divs.
Print Assumptions C36_nan_unary.
Print Assumptions C36_nan_mod.
Print Assumptions C36_nan_binary.
Print Assumptions C36_add_nan_constant.
Print Assumptions C36_plain_equal.
Print Assumptions C36_plain_equal_nan.
