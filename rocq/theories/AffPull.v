(** Substituting affine expressions in an affine expression. *)
From Coq Require Import ZArith List Bool QArith Qround Arith Lia ZifyBool Setoid Lqa.
From Verif Require Import SeqModel SeqSpec SeqProofs MatModel ValModel LocalModel LocalSpec LocalProofs BMapModel BMapLists SpaceModel SpaceSpec SpaceBase SpaceOps SpaceOps3 PolySpec QpModel QpSpec QpProofs AffModel AffSpec AffBase AffNorm AffProofs AffArith.
Import ListNotations.
Open Scope Z_scope.

(** ** rational points *)
Lemma is_floor_ext r r' n : (r == r')%Q -> is_floor r n -> is_floor r' n.
Proof. intros E (A & B). split; rewrite <- E; assumption. Qed.
Lemma qdot_inject l : forall w, (qdot l (map inject_Z w) == inject_Z (dot l w))%Q.
Proof. induction l as [|a t IH]; intros [|b u]; cbn [qdot map dot]; try reflexivity. rewrite IH, inject_Z_plus, inject_Z_mult. reflexivity. Qed.
Lemma qdot_app l1 : forall l2 w1 w2, length l1 = length w1 -> (qdot (l1 ++ l2) (w1 ++ w2) == qdot l1 w1 + qdot l2 w2)%Q.
Proof. induction l1 as [|a t IH]; intros l2 [|b u] w2 L; cbn in L; try lia; cbn [app qdot]; [ring|]. rewrite IH by lia. ring. Qed.
Lemma rat_value_int f v r : wf_aff f -> nth 0 v 0 = 1 -> (rat_value f (map inject_Z v) r <-> avalue f v r).
Proof.
  intros ((W & K & L) & P) V0. unfold rat_value, avalue, aff_value, a_n. rewrite map_length. split.
  - intros (Lv & u & Lu & H & E). exists (v ++ u)%list. rewrite <- map_app, qdot_inject in E. split; [|split; [rewrite firstn_app, Lv, Nat.sub_diag, firstn_O, app_nil_r; apply firstn_all2; lia|exact E]].
    split; [rewrite app_length; lia|]. split; [rewrite app_nth1 by lia; exact V0|]. intros i Hi Hn. specialize (H i Hi). rewrite <- map_app in H. destruct (W i Hi) as (_ & P0 & _).
    apply (is_floor_div (nth 0 (nth i (a_div f) []) 0) (dot (skipn 1 (nth i (a_div f) [])) (v ++ u))) in H; [|lia|rewrite qdot_inject; field; apply inj_nz; exact Hn].
    rewrite app_nth2 by lia. rewrite <- H. f_equal. lia.
  - intros (w & (Lw & W0 & Sw) & Fw & E). assert (Lv : length v = (1 + a_d f)%nat) by (rewrite <- Fw, firstn_length; lia). split; [exact Lv|]. exists (skipn (1 + a_d f) w). split; [rewrite skipn_length; lia|].
    rewrite <- Fw, <- !map_app, firstn_skipn. split; [|rewrite qdot_inject; exact E]. intros i Hi. destruct (W i Hi) as (_ & P0 & _). specialize (K i Hi).
    apply (is_floor_div (nth 0 (nth i (a_div f) []) 0) (dot (skipn 1 (nth i (a_div f) [])) w)); [lia|rewrite qdot_inject; field; apply inj_nz; exact K|]. rewrite nth_skipn. apply Sw; [exact Hi|exact K].
Qed.

(** ** isl_seq_preimage *)
Lemma firstn_exact {A} n (a b : list A) : n = length a -> firstn n (a ++ b) = a.
Proof. intros ->. rewrite firstn_app, Nat.sub_diag, firstn_O, app_nil_r. apply firstn_all. Qed.
Lemma skipn_exact {A} n (a b : list A) : n = length a -> skipn n (a ++ b) = b.
Proof. intros ->. rewrite skipn_app, Nat.sub_diag, skipn_all. reflexivity. Qed.
Lemma skipn_twice {A} a : forall b (l : list A), skipn b (skipn a l) = skipn (a + b) l.
Proof. induction a as [|a IH]; intros b l; [reflexivity|]. destruct l; [rewrite skipn_nil; reflexivity|]. cbn [skipn Nat.add]. apply IH. Qed.
Lemma pre_combine_ok P I O D nf c1 c2 dst p : length dst = (1 + P + I + D + nf)%nat -> length p = (1 + P + I + D)%nat ->
  let r := pre_combine (mkpd P I O 0 0 D) c1 c2 dst p in
  length r = length dst /\ (forall j, (1 + P + I + D <= j)%nat -> nth j r 0 = c1 * nth j dst 0) /\
  forall w w', length w = (1 + P + I + D)%nat -> dot r (w ++ w') = c1 * dot dst (w ++ w') + c2 * dot p w.
Proof.
  intros Ld Lp. cbv zeta. rewrite <- (firstn_skipn (1 + P) dst). rewrite <- (firstn_skipn I (skipn (1 + P) dst)). rewrite <- (firstn_skipn D (skipn I (skipn (1 + P) dst))).
  rewrite <- (firstn_skipn (1 + P) p). rewrite <- (firstn_skipn I (skipn (1 + P) p)).
  assert (LA : length (firstn (1 + P) dst) = (1 + P)%nat) by (rewrite firstn_length; lia). assert (LB : length (firstn I (skipn (1 + P) dst)) = I) by (rewrite firstn_length, skipn_length; lia).
  assert (LC : length (firstn D (skipn I (skipn (1 + P) dst))) = D) by (rewrite firstn_length, !skipn_length; lia). assert (LE : length (skipn D (skipn I (skipn (1 + P) dst))) = nf) by (rewrite !skipn_length; lia).
  assert (LA' : length (firstn (1 + P) p) = (1 + P)%nat) by (rewrite firstn_length; lia). assert (LB' : length (firstn I (skipn (1 + P) p)) = I) by (rewrite firstn_length, skipn_length; lia).
  assert (LC' : length (skipn I (skipn (1 + P) p)) = D) by (rewrite !skipn_length; lia).
  set (A := firstn (1 + P) dst) in *. set (B := firstn I (skipn (1 + P) dst)) in *. set (C := firstn D (skipn I (skipn (1 + P) dst))) in *. set (E := skipn D (skipn I (skipn (1 + P) dst))) in *.
  set (A' := firstn (1 + P) p) in *. set (B' := firstn I (skipn (1 + P) p)) in *. set (C' := skipn I (skipn (1 + P) p)) in *. clearbody A B C E A' B' C'. clear dst p Ld Lp.
  assert (X : pre_combine (mkpd P I O 0 0 D) c1 c2 (A ++ B ++ C ++ E) (A' ++ B' ++ C') = (seq_combine true c1 A c2 A' ++ seq_combine true c1 B c2 B' ++ seq_combine true c1 C c2 C' ++ seq_scale E c1)%list).
  { unfold pre_combine. cbn [pd_param pd_in pd_out pd_before pd_after pd_dma]. cbv zeta. rewrite !Nat.add_0_r.
    rewrite (firstn_exact (1 + P) A), (firstn_exact (1 + P) A') by lia. rewrite (skipn_exact (1 + P) A), (skipn_exact (1 + P) A') by lia. rewrite (firstn_exact I B), (firstn_exact I B') by lia.
    rewrite (app_assoc A B). rewrite (skipn_exact (1 + P + I) (A ++ B)) by (rewrite app_length; lia). rewrite (firstn_exact D C) by lia. rewrite (app_assoc A' B'). rewrite (skipn_exact (1 + P + I) (A' ++ B')) by (rewrite app_length; lia). rewrite (firstn_all2 C') by lia.
    rewrite (app_assoc (A ++ B) C). rewrite (skipn_exact (1 + P + I + D) ((A ++ B) ++ C)) by (rewrite !app_length; lia). cbn [firstn seq_scale map app]. reflexivity. }
  rewrite X. pose proof (combine_ok true c1 A c2 A' ltac:(lia)) as KA. pose proof (combine_ok true c1 B c2 B' ltac:(lia)) as KB. pose proof (combine_ok true c1 C c2 C' ltac:(lia)) as KC.
  pose proof (proj1 KA) as MA. pose proof (proj1 KB) as MB. pose proof (proj1 KC) as MC. split; [unfold seq_scale; rewrite !app_length, map_length; lia|]. split.
  - intros j Hj. unfold seq_scale. do 3 (rewrite (app_nth2 (seq_combine _ _ _ _ _)) by lia). rewrite nth_scaled. rewrite (app_nth2 A), (app_nth2 B), (app_nth2 C) by lia. rewrite MA, MB, MC. ring.
  - intros w w' Lw. rewrite <- (firstn_skipn (1 + P) w). rewrite <- (firstn_skipn I (skipn (1 + P) w)). assert (L1 : length (firstn (1 + P) w) = (1 + P)%nat) by (rewrite firstn_length; lia). assert (L2 : length (firstn I (skipn (1 + P) w)) = I) by (rewrite firstn_length, skipn_length; lia). assert (L3 : length (skipn I (skipn (1 + P) w)) = D) by (rewrite !skipn_length; lia).
    set (wa := firstn (1 + P) w) in *. set (wb := firstn I (skipn (1 + P) w)) in *. set (wc := skipn I (skipn (1 + P) w)) in *. rewrite <- !app_assoc. rewrite !dot_app2 by lia.
    rewrite (combination_dot c1 A c2 A' _ wa ltac:(lia) KA), (combination_dot c1 B c2 B' _ wb ltac:(lia) KB), (combination_dot c1 C c2 C' _ wc ltac:(lia) KC), dot_scale. ring.
Qed.
Lemma pre_loop_ok P I O D nf w w' (Lw : length w = (1 + P + I + D)%nat) : forall ps bs xs den f dst,
  length bs = length ps -> length xs = length ps -> (forall p, List.In p ps -> 0 < nth 0 p 0 /\ length p = (2 + P + I + D)%nat) ->
  (forall i, (i < length ps)%nat -> (inject_Z (nth 0%nat (nth i ps []) 0%Z) * nth i xs 0 == inject_Z (dot (skipn 1%nat (nth i ps [])) w))%Q) ->
  length dst = (1 + P + I + D + nf)%nat -> 0 < den -> 0 < f ->
  exists F dst', pre_loop (mkpd P I O 0 0 D) ps bs den f dst = Ok (den * F, dst') /\ 0 < F /\ length dst' = length dst /\
    (forall j, (1 + P + I + D <= j)%nat -> nth j dst' 0 = F * nth j dst 0) /\
    (inject_Z (dot dst' (w ++ w')) == inject_Z F * (inject_Z (dot dst (w ++ w')) + inject_Z f * qdot bs xs))%Q.
Proof.
  induction ps as [|p ps IH]; intros bs xs den f dst Lb Lx Hp Hx Ld Pd Pf.
  { destruct bs; [|discriminate]. exists 1, dst. cbn [pre_loop]. split; [f_equal; f_equal; ring|]. split; [lia|]. split; [reflexivity|]. split; [intros; ring|]. cbn [qdot]. change (inject_Z 1) with 1%Q. ring. }
  destruct bs as [|b bs]; [discriminate|]. destruct xs as [|x xs]; [discriminate|]. cbn [length] in Lb, Lx. cbn [pre_loop qdot].
  assert (Hp' : forall q, List.In q ps -> 0 < nth 0 q 0 /\ length q = (2 + P + I + D)%nat) by (intros q Hq; apply Hp; right; exact Hq).
  assert (Hx' : forall i, (i < length ps)%nat -> (inject_Z (nth 0%nat (nth i ps []) 0%Z) * nth i xs 0 == inject_Z (dot (skipn 1%nat (nth i ps [])) w))%Q) by (intros i Hi; apply (Hx (S i)); cbn [length]; lia).
  destruct (Hp p (or_introl eq_refl)) as (Pm & Lp). pose proof (Hx 0%nat ltac:(cbn [length]; lia)) as X0. cbn [nth] in X0. set (m := nth 0 p 0) in *.
  destruct (Z.eqb_spec b 0) as [->|Nb].
  { destruct (IH bs xs den f dst ltac:(lia) ltac:(lia) Hp' Hx' Ld Pd Pf) as (F & dst' & E & PF & L' & Z' & V'). exists F, dst'. split; [exact E|]. split; [exact PF|]. split; [exact L'|]. split; [exact Z'|]. rewrite V'. change (inject_Z 0) with 0%Q. ring. }
  set (g := Z.gcd m (f * b)). assert (Gp : 0 < g). { pose proof (Z.gcd_nonneg m (f * b)). destruct (Z.eq_dec g 0) as [E|]; [apply Z.gcd_eq_0_l in E; lia|unfold g in *; lia]. }
  destruct (Z.eqb_spec g 0); [lia|]. pose proof (divexact_l g m (Z.gcd_divide_l _ _) ltac:(lia)) as Em. pose proof (divexact_l g (f * b) (Z.gcd_divide_r _ _) ltac:(lia)) as Eb. set (c1 := divexact m g) in *. set (c2 := divexact (f * b) g) in *.
  destruct (pre_combine_ok P I O D nf c1 c2 dst (skipn 1 p) Ld ltac:(rewrite skipn_length; lia)) as (L1 & Z1 & V1). cbv zeta in *. set (dst1 := pre_combine _ c1 c2 dst (skipn 1 p)) in *.
  destruct (IH bs xs (den * c1) (f * c1) dst1 ltac:(lia) ltac:(lia) Hp' Hx' ltac:(lia) ltac:(nia) ltac:(nia)) as (F & dst' & E & PF & L' & Z' & V').
  exists (c1 * F), dst'. split; [rewrite E; f_equal; f_equal; ring|]. split; [nia|]. split; [lia|]. split; [intros j Hj; rewrite Z', Z1 by exact Hj; ring|].
  rewrite V'. rewrite V1 by exact Lw. rewrite !inject_Z_plus, !inject_Z_mult, <- X0.
  assert (Eq1 : (inject_Z c2 * inject_Z m == inject_Z c1 * inject_Z f * inject_Z b)%Q). { rewrite <- !inject_Z_mult. apply inj_eq. apply (Z.mul_reg_l _ _ g); [lia|]. transitivity ((g * c2) * m); [ring|]. rewrite <- Eb. rewrite Em. ring. }
  transitivity (inject_Z F * (inject_Z c1 * inject_Z (dot dst (w ++ w')) + inject_Z c2 * inject_Z m * x + inject_Z f * inject_Z c1 * qdot bs xs))%Q; [ring|]. rewrite Eq1. ring.
Qed.
Lemma preimage_ok P I O D nf v u u' ps xs den src : length v = (1 + P + I)%nat -> length u = D -> length u' = nf -> length ps = O -> length xs = O ->
  (forall p, List.In p ps -> 0 < nth 0 p 0 /\ length p = (2 + P + I + D)%nat) ->
  (forall i, (i < length ps)%nat -> (inject_Z (nth 0%nat (nth i ps []) 0%Z) * nth i xs 0 == inject_Z (dot (skipn 1%nat (nth i ps [])) (v ++ u)))%Q) ->
  0 < den -> length src = (1 + P + O + nf)%nat ->
  exists F dst, seq_preimage (mkpd P I O 0 0 D) ps den src = Ok (den * F, dst) /\ 0 < F /\ length dst = (1 + P + I + D + nf)%nat /\
    (forall j, nth (1 + P + I + D + j) dst 0 = F * nth (1 + P + O + j) src 0) /\
    (inject_Z (dot dst ((v ++ u) ++ u')) == inject_Z F * qdot src ((map inject_Z (firstn (1 + P) v) ++ xs) ++ map inject_Z u'))%Q.
Proof.
  intros Lv Lu Lu' Lps Lxs Hp Hx Pd Ls. unfold seq_preimage. cbn [pd_param pd_in pd_out pd_before pd_after pd_dma]. rewrite !Nat.add_0_r.
  set (o := (1 + P)%nat) in *. set (k := mkpd P I O 0 0 D).
  assert (EI : pre_init k src = (firstn o src ++ seq_clr I ++ seq_clr D ++ skipn (o + O) src)%list).
  { unfold pre_init, k. cbn [pd_param pd_in pd_out pd_before pd_after pd_dma firstn]. cbv zeta. rewrite !Nat.add_0_r. reflexivity. }
  assert (L1 : length (firstn o src) = o) by (rewrite firstn_length; lia).
  assert (LI : length (pre_init k src) = (1 + P + I + D + nf)%nat). { rewrite EI. unfold seq_clr. rewrite !app_length, !repeat_length, L1, skipn_length. lia. }
  destruct (pre_loop_ok P I O D nf (v ++ u)%list u' ltac:(rewrite app_length; lia) ps (firstn O (skipn o src)) xs den 1 (pre_init k src) ltac:(rewrite firstn_length, skipn_length; lia) ltac:(lia) Hp Hx LI Pd ltac:(lia)) as (F & dst & E & PF & Ldst & Zd & Vd).
  exists F, dst. split; [exact E|]. split; [exact PF|]. split; [lia|]. split.
  - intros j. rewrite Zd by lia. f_equal. rewrite EI. unfold seq_clr. rewrite app_nth2 by lia. rewrite app_nth2 by (rewrite repeat_length; lia). rewrite app_nth2 by (rewrite !repeat_length; lia). rewrite !repeat_length, L1, nth_skipn. f_equal. unfold o. lia.
  - rewrite Vd. rewrite EI. rewrite <- (firstn_skipn o v) at 1. rewrite <- !app_assoc.
    rewrite (dot_app2 (firstn o src)) by (rewrite !firstn_length; lia). unfold seq_clr. rewrite (dot_app2 (repeat 0 I)) by (rewrite repeat_length, skipn_length; lia). rewrite (dot_app2 (repeat 0 D)) by (rewrite repeat_length; lia). rewrite !dot_repeat0.
    assert (Es : src = (firstn o src ++ firstn O (skipn o src) ++ skipn (o + O) src)%list).
    { rewrite <- (firstn_skipn o src) at 1. f_equal. rewrite <- (firstn_skipn O (skipn o src)) at 1. f_equal. rewrite skipn_twice. reflexivity. }
    assert (Eq : (qdot src (map inject_Z (firstn o v) ++ xs ++ map inject_Z u') == inject_Z (dot (firstn o src) (firstn o v)) + (qdot (firstn O (skipn o src)) xs + inject_Z (dot (skipn (o + O) src) u')))%Q).
    { rewrite Es at 1. rewrite qdot_app by (rewrite map_length, !firstn_length; lia). rewrite qdot_app by (rewrite firstn_length, skipn_length; lia). rewrite !qdot_inject. reflexivity. }
    rewrite Eq. rewrite !Z.add_0_l, inject_Z_plus. change (inject_Z 1) with 1%Q. ring.
Qed.

(** ** isl_local_space_preimage_multi_aff *)
Lemma rows_ok P I O D nf ps : length ps = O -> (forall p, List.In p ps -> 0 < nth 0 p 0 /\ length p = (2 + P + I + D)%nat) ->
  forall l i0, (i0 + length l = nf)%nat -> (forall i, (i < length l)%nat -> div_row (P + O) nf (i0 + i) (nth i l []) /\ nth 0 (nth i l []) 0 <> 0) ->
  exists l', preimage_rows (mkpd P I O 0 0 D) ps l = Ok l' /\ length l' = length l /\
    (forall i, (i < length l)%nat -> div_row (P + I) (D + nf) (D + i0 + i) (nth i l' []) /\ nth 0 (nth i l' []) 0 <> 0) /\
    forall v u u' xs, length v = (1 + P + I)%nat -> nth 0 v 0 = 1 -> length u = D -> length u' = nf -> length xs = O ->
      (forall i, (i < length ps)%nat -> (inject_Z (nth 0%nat (nth i ps []) 0%Z) * nth i xs 0 == inject_Z (dot (skipn 1%nat (nth i ps [])) (v ++ u)))%Q) ->
      forall i n, (i < length l)%nat -> is_floor (qdot (skipn 1 (nth i l [])) ((map inject_Z (firstn (1 + P) v) ++ xs) ++ map inject_Z u') / inject_Z (nth 0%nat (nth i l []) 0%Z)) n ->
        n = dot (skipn 1 (nth i l' [])) ((v ++ u) ++ u') / nth 0 (nth i l' []) 0.
Proof.
  intros Lps Hp. induction l as [|r l IH]; intros i0 Hn H; [exists []; cbn [preimage_rows length]; split; [reflexivity|]; split; [reflexivity|]; split; intros; lia|].
  cbn [length] in Hn. destruct (IH (S i0) ltac:(lia)) as (l' & E & Ll & HR & HV). { intros i Hi. replace (S i0 + i)%nat with (i0 + S i)%nat by lia. apply (H (S i)). cbn [length]. lia. }
  destruct (H 0%nat ltac:(cbn [length]; lia)) as ((Lr & Pr & Zr) & Nr). cbn [nth] in Lr, Pr, Zr, Nr. set (m := nth 0 r 0) in *.
  cbn [preimage_rows]. fold m. destruct (Z.eqb_spec m 0) as [E0|N0]; [lia|].
  assert (GE : exists F dst, seq_preimage (mkpd P I O 0 0 D) ps m (skipn 1 r) = Ok (m * F, dst) /\ 0 < F /\ length dst = (1 + P + I + D + nf)%nat /\ (forall j, nth (1 + P + I + D + j) dst 0 = F * nth (1 + P + O + j) (skipn 1 r) 0) /\
     forall v u u' xs, length v = (1 + P + I)%nat -> length u = D -> length u' = nf -> length xs = O ->
      (forall i, (i < length ps)%nat -> (inject_Z (nth 0%nat (nth i ps []) 0%Z) * nth i xs 0 == inject_Z (dot (skipn 1%nat (nth i ps [])) (v ++ u)))%Q) ->
      (inject_Z (dot dst ((v ++ u) ++ u')) == inject_Z F * qdot (skipn 1 r) ((map inject_Z (firstn (1 + P) v) ++ xs) ++ map inject_Z u'))%Q).
  { assert (Ls : length (skipn 1 r) = (1 + P + O + nf)%nat) by (rewrite skipn_length; lia).
    set (v0 := repeat 0 (1 + P + I)). set (u0 := repeat 0 D). set (u0' := repeat 0 nf). set (xs0 := map (fun p => (inject_Z (dot (skipn 1%nat p) (v0 ++ u0)) / inject_Z (nth 0%nat p 0%Z))%Q) ps).
    destruct (preimage_ok P I O D nf v0 u0 u0' ps xs0 m (skipn 1 r) ltac:(apply repeat_length) ltac:(apply repeat_length) ltac:(apply repeat_length) Lps ltac:(unfold xs0; rewrite map_length; exact Lps) Hp) as (F & dst & E1 & PF & Ld & Zd & _); [|lia|exact Ls|].
    - intros i Hi. unfold xs0. rewrite (nth_indep _ 0%Q ((fun p => (inject_Z (dot (skipn 1%nat p) (v0 ++ u0)) / inject_Z (nth 0%nat p 0%Z))%Q) [])) by (rewrite map_length; exact Hi). rewrite (map_nth (fun p => (inject_Z (dot (skipn 1%nat p) (v0 ++ u0)) / inject_Z (nth 0%nat p 0%Z))%Q)). field. apply inj_nz. destruct (Hp (nth i ps []) (nth_In _ _ Hi)). lia.
    - exists F, dst. split; [exact E1|]. split; [exact PF|]. split; [exact Ld|]. split; [exact Zd|]. intros v u u' xs Lv Lu Lu' Lxs Hx.
      destruct (preimage_ok P I O D nf v u u' ps xs m (skipn 1 r) Lv Lu Lu' Lps Lxs Hp Hx ltac:(lia) Ls) as (F2 & dst2 & E2 & PF2 & _ & _ & V2). rewrite E1 in E2. injection E2 as EF ED. subst dst2. assert (F2 = F) by nia. subst F2. exact V2. }
  destruct GE as (F & dst & E1 & PF & Ld & Zd & V1). rewrite E1. cbn [LocalModel.bind].
  destruct (normalize_div_ok (m * F :: dst)) as (r' & Er & Lr' & Pr' & Zr' & Vr'); [cbn [length]; lia|cbn [nth]; nia|]. rewrite Er. cbn [LocalModel.bind]. rewrite E. cbn [LocalModel.bind].
  exists (r' :: l'). split; [reflexivity|]. split; [cbn [length]; lia|]. split.
  - intros [|i] Hi; cbn [nth].
    + split; [|lia]. cbn [length] in Lr'. split; [lia|]. split; [lia|]. intros j Hj. apply Zr'; [lia|]. destruct j as [|j]; [lia|]. cbn [nth]. replace j with (1 + P + I + D + (j - (1 + P + I + D)))%nat by lia. rewrite Zd, nth_skipn. rewrite (Zr (1 + (1 + P + O + (j - (1 + P + I + D))))%nat) by lia. ring.
    + cbn [length] in Hi. replace (D + i0 + S i)%nat with (D + S i0 + i)%nat by lia. apply HR. lia.
  - intros v u u' xs Lv V0 Lu Lu' Lxs Hx [|i] n Hi Hf; cbn [nth length] in *; [|apply (HV v u u' xs Lv V0 Lu Lu' Lxs Hx i n); [lia|exact Hf]].
    rewrite Vr' by (rewrite <- app_assoc, app_nth1 by lia; exact V0). cbn [nth]. change (skipn 1 (m * F :: dst)) with dst. fold m in Hf.
    refine (proj1 (is_floor_div (m * F) (dot dst ((v ++ u) ++ u')) _ ltac:(nia) _ n) Hf). rewrite V1 with (xs := xs) by assumption. rewrite inject_Z_mult. field. apply inj_nz. lia.
Qed.
Definition pull (f : aff) (m : maff) : res aff :=
  let! M := ls_preimage (a_sp f) (a_div f) m in
  match domain (m_sp m) with
  | None => Null
  | Some s =>
    let! g := aff_alloc s M [] in
    let! (den, dst) := seq_preimage (maff_dims m) (map a_v (m_p m)) (nth 0 (a_v f) 0) (skipn 1 (a_v f)) in
    aff_normalize (with_v g (den :: dst))
  end.
Lemma domain_dims s : wf s -> exists s', domain s = Some s' /\ is_set s' = true /\ dim_all s' = (nparam s + n_in s)%nat.
Proof.
  intros W. destruct (domain_ok s (dl s Param) (tup_in s) (tup_out s)) as (s' & E & H); [split; [exact W|reflexivity]|]. exists s'. split; [exact E|]. split; [exact (is_set_true _ _ _ H)|].
  apply spc_parts in H as (W' & P & A & B). unfold dim_all. pose proof (dl_length s' Param) as L1. pose proof (dl_length s Param) as L1'. rewrite P, L1' in L1. cbn [dim] in L1.
  pose proof (dl_length s' Out) as L3. pose proof (dl_length s In) as L3'. pose proof (dl_length s' In) as L2. rewrite tup_in_eq in A. rewrite (tup_in_eq s), tup_out_eq in B. cbn [dim] in *. injection A as _ A _. injection B as _ B _. rewrite B in L3. rewrite L3' in L3. rewrite A in L2. cbn [length] in L2. lia.
Qed.
Lemma known_b M : known M -> divs_known M = true.
Proof. intros K. unfold divs_known. apply forallb_forall. intros r Hr. apply (In_nth _ _ []) in Hr as (i & Hi & <-). specialize (K i Hi). lia. Qed.
Lemma pull_dims f m : has_equal_params (a_sp f) (m_sp m) = true -> has_range_tuples (a_sp f) (m_sp m) = true -> a_d f = (nparam (m_sp m) + n_out (m_sp m))%nat.
Proof.
  intros E1 E2. unfold has_equal_params, match_ in E1. destruct (tuple_is_equal (a_sp f) Param (m_sp m) Param) eqn:T1; [|discriminate]. unfold has_range_tuples in E2. apply andb_true_iff in E2 as (S1 & T2).
  unfold tuple_is_equal in T1, T2. rewrite !andb_true_iff in T1, T2. destruct T1 as ((T1 & _) & _). destruct T2 as ((T2 & _) & _). apply Nat.eqb_eq in T1, T2. cbn [dim] in T1, T2. unfold is_set in S1. destruct (Nat.eqb_spec (n_in (a_sp f)) 0) as [E|E]; [|discriminate]. unfold a_d, dim_all. lia.
Qed.
Theorem pull_ok f m : wf_aff f -> wf_maff m -> aligned m -> has_equal_params (a_sp f) (m_sp m) = true -> has_range_tuples (a_sp f) (m_sp m) = true ->
  exists g, pull f m = Ok g /\ domain (m_sp m) = Some (a_sp g) /\ wf_aff g /\
    forall v xs r, int_point (a_d g) v -> length xs = n_out (m_sp m) -> (forall i, (i < n_out (m_sp m))%nat -> avalue (nth i (m_p m) f) v (nth i xs 0%Q)) ->
      rat_value f (map inject_Z (firstn (1 + nparam (m_sp m)) v) ++ xs) r -> avalue g v r.
Proof.
  intros Wf (Ws & Lm & Wm & Em) Al E1 E2. pose proof (pull_dims f m E1 E2) as Ed. destruct (domain_dims _ Ws) as (s & Es & Ss & Ds).
  unfold pull, ls_preimage. rewrite E1, E2. cbn [andb negb]. unfold maff_dims, maff_n_div. change (dim (m_sp m) Param) with (nparam (m_sp m)). change (dim (m_sp m) In) with (n_in (m_sp m)). change (dim (m_sp m) Out) with (n_out (m_sp m)).
  set (P := nparam (m_sp m)) in *. set (I := n_in (m_sp m)) in *. set (O := n_out (m_sp m)) in *. set (Md := match m_p m with [] => [] | p :: _ => a_div p end).
  assert (ED : match m_p m with [] => 0%nat | p :: _ => a_n p end = length Md) by (unfold Md, a_n; destruct (m_p m); reflexivity). rewrite ED. set (D := length Md).
  assert (EM : forall p, List.In p (m_p m) -> a_div p = Md). { intros p Hp. unfold Md. destruct (m_p m) as [|q l] eqn:Q; [destruct Hp|]. apply Al; rewrite Q; [exact Hp|left; reflexivity]. }
  assert (WMd : wf_divs (P + I) Md /\ known Md). { unfold Md. destruct (m_p m) as [|q l] eqn:Q; [split; intros i Hi; cbn in Hi; lia|]. destruct (Wm q (or_introl eq_refl)) as (((A & B & _) & _) & C). rewrite <- C. split; assumption. }
  destruct WMd as (WMd & KMd). set (ps := map a_v (m_p m)). assert (Lps : length ps = O) by (unfold ps; rewrite map_length; exact Lm).
  assert (Hps : forall p, List.In p ps -> 0 < nth 0 p 0 /\ length p = (2 + P + I + D)%nat).
  { intros p Hp. unfold ps in Hp. apply in_map_iff in Hp as (q & <- & Hq). destruct (Wm q Hq) as (((_ & _ & A) & B) & C). split; [exact B|]. rewrite A, C. unfold a_n. rewrite (EM q Hq). unfold D. lia. }
  pose proof Wf as ((WD & K & L) & Pd). rewrite Ed in WD, L. set (nf := a_n f) in *.
  destruct (rows_ok P I O D nf ps Lps Hps (a_div f) 0 eq_refl) as (l' & El & Ll & HR & HV). { intros i Hi. split; [exact (WD i Hi)|exact (K i Hi)]. }
  rewrite El. cbn [LocalModel.bind]. rewrite Es. set (M := (map _ Md ++ l')%list).
  assert (LM : length M = (D + nf)%nat) by (unfold M; rewrite app_length, map_length, Ll; reflexivity).
  assert (N1 : forall i, (i < D)%nat -> nth i M [] = (nth i Md [] ++ repeat 0 nf)%list). { intros i Hi. unfold M. rewrite app_nth1 by (rewrite map_length; exact Hi). rewrite (nth_indep _ [] ((fun r => r ++ repeat 0 (length (a_div f))) [])) by (rewrite map_length; exact Hi). rewrite (map_nth (fun r => r ++ repeat 0 (length (a_div f)))). reflexivity. }
  assert (N2 : forall i, nth (D + i) M [] = nth i l' []). { intros i. unfold M. rewrite app_nth2 by (rewrite map_length; fold D; lia). rewrite map_length. f_equal. fold D. lia. }
  assert (NE : forall (r : list Z) n j, nth j (r ++ repeat 0 n) 0 = nth j r 0). { intros r n j. destruct (Nat.ltb_spec j (length r)); [apply app_nth1; lia|]. rewrite app_nth2 by lia. rewrite nth_repeat. symmetry. apply nth_overflow. lia. }
  assert (WM : wf_divs (P + I) M).
  { intros i Hi. rewrite LM in Hi |- *. destruct (Nat.ltb_spec i D) as [Hd|Hd].
    - rewrite N1 by exact Hd. destruct (WMd i Hd) as (A & B & C). split; [rewrite app_length, repeat_length, A; fold D; lia|]. split; [rewrite NE; exact B|]. intros j Hj. rewrite NE. apply C. exact Hj.
    - replace i with (D + (i - D))%nat by lia. rewrite N2. destruct (HR (i - D)%nat ltac:(unfold nf, a_n in Hi; lia)) as (A & _). replace (D + 0 + (i - D))%nat with (D + (i - D))%nat in A by lia. exact A. }
  assert (KM : known M).
  { intros i Hi. rewrite LM in Hi. destruct (Nat.ltb_spec i D) as [Hd|Hd]; [rewrite N1 by exact Hd; rewrite NE; apply KMd; exact Hd|]. replace i with (D + (i - D))%nat by lia. rewrite N2. apply HR. unfold nf, a_n in Hi. lia. }
  unfold aff_alloc. rewrite (known_b M KM), Ss. cbn [negb LocalModel.bind].
  assert (Lsrc : length (skipn 1 (a_v f)) = (1 + P + O + nf)%nat) by (rewrite skipn_length; lia).
  assert (GE : exists F dst, seq_preimage (mkpd P I O 0 0 D) ps (nth 0 (a_v f) 0) (skipn 1 (a_v f)) = Ok (nth 0 (a_v f) 0 * F, dst) /\ 0 < F /\ length dst = (1 + P + I + D + nf)%nat /\
     forall v u u' xs, length v = (1 + P + I)%nat -> length u = D -> length u' = nf -> length xs = O ->
      (forall i, (i < length ps)%nat -> (inject_Z (nth 0%nat (nth i ps []) 0%Z) * nth i xs 0 == inject_Z (dot (skipn 1%nat (nth i ps [])) (v ++ u)))%Q) ->
      (inject_Z (dot dst ((v ++ u) ++ u')) == inject_Z F * qdot (skipn 1 (a_v f)) ((map inject_Z (firstn (1 + P) v) ++ xs) ++ map inject_Z u'))%Q).
  { set (v0 := repeat 0 (1 + P + I)). set (u0 := repeat 0 D). set (u0' := repeat 0 nf). set (xs0 := map (fun p => (inject_Z (dot (skipn 1%nat p) (v0 ++ u0)) / inject_Z (nth 0%nat p 0%Z))%Q) ps).
    destruct (preimage_ok P I O D nf v0 u0 u0' ps xs0 (nth 0 (a_v f) 0) (skipn 1 (a_v f)) ltac:(apply repeat_length) ltac:(apply repeat_length) ltac:(apply repeat_length) Lps ltac:(unfold xs0; rewrite map_length; exact Lps) Hps) as (F & dst & X1 & PF & Ld & Zd & _); [|exact Pd|exact Lsrc|].
    - intros i Hi. unfold xs0. rewrite (nth_indep _ 0%Q ((fun p => (inject_Z (dot (skipn 1%nat p) (v0 ++ u0)) / inject_Z (nth 0%nat p 0%Z))%Q) [])) by (rewrite map_length; exact Hi). rewrite (map_nth (fun p => (inject_Z (dot (skipn 1%nat p) (v0 ++ u0)) / inject_Z (nth 0%nat p 0%Z))%Q)). field. apply inj_nz. destruct (Hps (nth i ps []) (nth_In _ _ Hi)). lia.
    - exists F, dst. split; [exact X1|]. split; [exact PF|]. split; [exact Ld|]. intros v u u' xs Lv Lu Lu' Lxs Hx.
      destruct (preimage_ok P I O D nf v u u' ps xs (nth 0 (a_v f) 0) (skipn 1 (a_v f)) Lv Lu Lu' Lps Lxs Hps Hx Pd Lsrc) as (F2 & dst2 & X2 & PF2 & _ & _ & V2). rewrite X1 in X2. injection X2 as EF EDD. subst dst2. assert (F2 = F) by nia. subst F2. exact V2. }
  destruct GE as (F & dst & X1 & PF & Ld & V1). rewrite X1. cbn [LocalModel.bind].
  destruct (normalize_keeps (with_v (mkaff s M []) (nth 0 (a_v f) 0 * F :: dst))) as (g & Eg & Sg & Kg).
  { unfold good, with_v, a_d. cbn [a_sp a_div a_v]. rewrite Ds. split; [exact WM|]. split; [exact KM|]. split; [cbn [length]; rewrite LM; lia|]. cbn [nth]. nia. }
  exists g. split; [exact Eg|]. cbn [with_v a_sp] in Sg. split; [rewrite Sg; reflexivity|]. destruct (keeps_wf (with_v (mkaff s M []) (nth 0 (a_v f) 0 * F :: dst)) g Sg Kg) as (Wg & Hg). split; [exact Wg|].
  intros v xs r (Lv & V0) Lxs Hx (_ & u' & Lu' & Hu' & Er). apply Hg. unfold a_d in Lv. rewrite Sg, Ds in Lv.
  destruct (extend_sat (P + I) Md v WMd KMd Lv V0) as (Sw & Fw). set (w := extend_loop Md v) in *. pose proof Sw as (Lw & W0 & Hw). set (u := skipn (1 + (P + I)) w).
  assert (Ew : w = (v ++ u)%list) by (unfold u; rewrite <- Fw at 1; symmetry; apply firstn_skipn).
  assert (Lu : length u = D) by (unfold u; rewrite skipn_length; fold D in Lw; lia).
  assert (Hxs : forall i, (i < length ps)%nat -> (inject_Z (nth 0%nat (nth i ps []) 0%Z) * nth i xs 0 == inject_Z (dot (skipn 1%nat (nth i ps [])) (v ++ u)))%Q).
  { intros i Hi. rewrite Lps in Hi. destruct (Hx i Hi) as (w1 & Sw1 & Fw1 & Ev). assert (Hq : List.In (nth i (m_p m) f) (m_p m)) by (apply nth_In; lia). rewrite (EM _ Hq) in Sw1. destruct (Wm _ Hq) as (_ & Dq). rewrite Dq in Sw1, Fw1.
    assert (w1 = w) by (apply (sat_unique (P + I) Md w1 w WMd KMd Sw1 Sw); congruence). subst w1. rewrite <- Ew. unfold ps. rewrite (nth_indep _ [] (a_v f)) by (rewrite map_length; lia). rewrite (map_nth a_v). exact Ev. }
  exists (w ++ u')%list. unfold with_v, a_d. cbn [a_sp a_div a_v]. rewrite Ds. split; [|split].
  - split; [rewrite app_length, LM; lia|]. split; [rewrite app_nth1 by lia; exact W0|]. intros i Hi Hn. rewrite LM in Hi. destruct (Nat.ltb_spec i D) as [Hd|Hd].
    + rewrite N1 in * by exact Hd. rewrite NE in *. destruct (WMd i Hd) as (A & _). rewrite app_nth1 by (fold D in Lw; lia). rewrite (Hw i Hd Hn). f_equal. destruct (nth i Md []) as [|m0 t]; [cbn in A; lia|]. cbn [app skipn]. cbn [length] in A. rewrite dot_app2 by (rewrite Lw; fold D in A; lia). rewrite dot_repeat0. ring.
    + replace i with (D + (i - D))%nat by lia. rewrite N2. rewrite app_nth2 by (rewrite Lw; fold D; lia). rewrite Ew.
      replace (1 + (P + I) + (D + (i - D)) - length (v ++ u))%nat with (i - D)%nat by (rewrite app_length; lia). apply (HV v u u' xs ltac:(lia) V0 Lu Lu' Lxs Hxs (i - D)%nat); [unfold nf, a_n in Hi; lia|]. apply Hu'. fold nf. lia.
  - rewrite firstn_app, Lw. replace (1 + (P + I) - (1 + (P + I) + length Md))%nat with 0%nat by lia. rewrite firstn_O, app_nil_r. exact Fw.
  - cbn [nth]. change (skipn 1 (nth 0 (a_v f) 0 * F :: dst)) with dst. rewrite Ew, (V1 v u u' xs ltac:(lia) Lu Lu' Lxs Hxs), <- Er, inject_Z_mult. ring.
Qed.
