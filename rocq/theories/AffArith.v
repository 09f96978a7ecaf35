(** Coefficients, rounding, sums and evaluation of affine expressions. *)
From Coq Require Import ZArith List Bool QArith Qround Arith Lia ZifyBool Setoid Lqa.
From Verif Require Import SeqModel SeqSpec SeqProofs MatModel ValModel LocalModel LocalSpec LocalProofs BMapModel BMapLists SpaceModel PolySpec QpModel QpSpec QpProofs AffModel AffSpec AffBase AffNorm AffProofs.
Import ListNotations.
Open Scope Z_scope.

Lemma nth_scaled k l : forall i, nth i (map (fun y => y * k) l) 0 = nth i l 0 * k.
Proof. induction l as [|a t IH]; intros [|i]; cbn [map nth]; try reflexivity. apply IH. Qed.
(** ** coefficients *)
(** position [c] of the coefficients has been given the value [q] *)
Definition recoef (l l' : list Z) (c : nat) (q : Q) : Prop :=
  length l' = length l /\ 0 < nth 0 l' 0 /\ (forall i, (1 <= i)%nat -> i <> c -> nth 0 l 0 * nth i l' 0 = nth 0 l' 0 * nth i l 0) /\
  (inject_Z (nth c l' 0%Z) == q * inject_Z (nth 0%nat l' 0%Z))%Q.
Lemma recoef_value f l' c q : wf_aff f -> (1 <= c < length (a_v f))%nat -> recoef (a_v f) l' c q ->
  wf_aff (with_v f l') /\
  (forall i, (1 <= i)%nat -> (coef (with_v f l') i == if Nat.eqb i c then q else coef f i)%Q) /\
  forall v r x, avalue f v r -> position_value f v (c - 1) x -> avalue (with_v f l') v (r + (q - coef f c) * inject_Z x).
Proof.
  intros ((W & K & L) & P) Hc (L' & P' & A & B). split; [split; [split; [exact W|]; split; [exact K|]; unfold with_v, a_d, a_n in *; cbn [a_v a_sp a_div]; lia|exact P']|]. split.
  { intros i Hi. unfold coef. cbn [with_v a_v]. destruct (Nat.eqb_spec i c) as [->|N].
    - rewrite B. field. apply inj_nz. lia.
    - specialize (A i Hi N). set (m := nth 0 (a_v f) 0) in *. set (m' := nth 0 l' 0) in *. set (a := nth i (a_v f) 0) in *. set (b := nth i l' 0) in *.
      assert (E : (inject_Z m * inject_Z b == inject_Z m' * inject_Z a)%Q) by (rewrite <- !inject_Z_mult; apply inj_eq; exact A).
      transitivity (inject_Z m * inject_Z b / (inject_Z m * inject_Z m'))%Q; [field; split; apply inj_nz; lia|]. rewrite E. field. split; apply inj_nz; lia. }
  intros v r x (w & Sw & Fw & E) (w' & Sw' & Fw' & Ex). assert (w' = w) by (eapply sat_unique; eauto; congruence). subst w'. exists w. split; [exact Sw|]. split; [exact Fw|]. unfold with_v. cbn [a_v]. unfold coef.
  set (m := nth 0 (a_v f) 0) in *. set (m' := nth 0 l' 0) in *. destruct c as [|c]; [lia|]. replace (S c - 1)%nat with c in Ex by lia. set (a := nth (S c) (a_v f) 0) in *. set (b := nth (S c) l' 0) in *.
  assert (D : m * dot (skipn 1 l') w = m' * dot (skipn 1 (a_v f)) w + (m * b - m' * a) * x).
  { rewrite <- !dot_map_mul. set (u := map (fun y => y * m') (skipn 1 (a_v f))). set (u' := map (fun y => y * m) (skipn 1 l')).
    assert (Lu : length u = (length (a_v f) - 1)%nat) by (unfold u; rewrite map_length, skipn_length; reflexivity).
    assert (Nu : forall i, nth i u 0 = nth (S i) (a_v f) 0 * m'). { intros i. unfold u. rewrite nth_scaled. rewrite nth_skipn. reflexivity. }
    assert (Nu' : forall i, nth i u' 0 = nth (S i) l' 0 * m). { intros i. unfold u'. rewrite nth_scaled. rewrite nth_skipn. reflexivity. }
    assert (EU : u' = zupd u c (b * m)).
    { apply list_eq_nth; [rewrite zupd_length, Lu; unfold u'; rewrite map_length, skipn_length; lia|]. intros i Hi. rewrite nth_zupd, Nu, Nu'. destruct (Nat.eqb_spec i c) as [->|N]; cbn [andb].
      - destruct (Nat.ltb_spec c (length u)); [reflexivity|lia].
      - pose proof (A (S i) ltac:(lia) ltac:(lia)) as Ai. rewrite (Z.mul_comm _ m), Ai. ring. }
    rewrite EU, dot_zupd by lia. rewrite Nu. fold a. rewrite Ex. ring. }
  apply (Qmult_inj_l _ _ (inject_Z m)); [apply inj_nz; lia|]. rewrite <- (inject_Z_mult m (dot _ _)), D, inject_Z_plus, !inject_Z_mult, <- E. unfold Z.sub. rewrite inject_Z_plus, inject_Z_opp, !inject_Z_mult.
  setoid_replace (inject_Z b) with (q * inject_Z m')%Q by exact B. field. apply inj_nz. lia.
Qed.
Lemma recoef_norm l l' c q : recoef l l' c q -> recoef l (seq_normalize l') c q.
Proof.
  intros (L & P & A & B). destruct (normalize_ok l') as (g & (G0 & _) & Ln & E & _). set (l2 := seq_normalize l') in *. pose proof (E 0%nat) as E0.
  assert (Gp : 0 < g). { destruct (Z.eq_dec g 0) as [X|]; [rewrite X in E0; lia|lia]. }
  split; [lia|]. split; [nia|]. split.
  - intros i Hi N. specialize (A i Hi N). rewrite E, E0 in A. nia.
  - rewrite E, E0 in B. rewrite !inject_Z_mult in B. apply (Qmult_inj_l _ _ (inject_Z g)); [apply inj_nz; lia|]. rewrite B. ring.
Qed.
Lemma upd_recoef l c a q : (1 <= c < length l)%nat -> 0 < nth 0 l 0 -> (inject_Z a == q * inject_Z (nth 0%nat l 0%Z))%Q -> recoef l (zupd l c a) c q.
Proof.
  intros Hc P E. assert (N0 : nth 0 (zupd l c a) 0 = nth 0 l 0). { rewrite nth_zupd. destruct (Nat.eqb_spec 0 c); [lia|]. reflexivity. }
  split; [apply zupd_length|]. rewrite N0. split; [exact P|]. split.
  - intros i Hi N. rewrite nth_zupd. destruct (Nat.eqb_spec i c); [lia|]. reflexivity.
  - rewrite nth_zupd, Nat.eqb_refl. destruct (Nat.ltb_spec c (length l)); [|lia]. exact E.
Qed.
Lemma scaled_recoef l c a k q : (1 <= c < length l)%nat -> 0 < nth 0 l 0 -> 0 < k -> (inject_Z a == q * inject_Z (nth 0%nat l 0%Z * k))%Q ->
  recoef l (zupd (zupd (nth 0 l 0 :: seq_scale (skipn 1 l) k) c a) 0 (nth 0 l 0 * k)) c q.
Proof.
  intros Hc P Hk E. destruct l as [|m t]; [cbn in Hc; lia|]. destruct c as [|c]; [lia|]. cbn [nth skipn zupd length] in *. unfold recoef. cbn [nth length].
  unfold seq_scale. split; [rewrite zupd_length, map_length; reflexivity|]. split; [nia|]. split.
  - intros i Hi N. destruct i as [|i]; [lia|]. cbn [nth]. rewrite nth_zupd. destruct (Nat.eqb_spec i c); [lia|]. cbn [andb]. rewrite nth_scaled. ring.
  - rewrite nth_zupd, Nat.eqb_refl, map_length. destruct (Nat.ltb_spec c (length t)); [|lia]. exact E.
Qed.
Lemma coef_raw f c : wf_aff f -> (inject_Z (nth c (a_v f) 0%Z) == coef f c * inject_Z (nth 0%nat (a_v f) 0%Z))%Q.
Proof. intros (_ & P). unfold coef. field. apply inj_nz. lia. Qed.
Lemma add_num_recoef f c k : wf_aff f -> (1 <= c < length (a_v f))%nat -> exists l', aff_add_num f c k = with_v f l' /\ recoef (a_v f) l' c (coef f c + inject_Z k).
Proof.
  intros W Hc. unfold aff_add_num. rewrite not_nan by exact W. eexists. split; [reflexivity|]. apply upd_recoef; [exact Hc|apply W|]. rewrite inject_Z_plus, inject_Z_mult, (coef_raw f c W). ring.
Qed.
Lemma add_rat_recoef f c x : wf_aff f -> (1 <= c < length (a_v f))%nat -> 0 < vd x -> exists l', aff_add_rat f c x = with_v f l' /\ recoef (a_v f) l' c (coef f c + vq x).
Proof.
  intros W Hc Hx. assert (P : 0 < nth 0 (a_v f) 0) by apply W. pose proof (coef_raw f c W) as CR. unfold aff_add_rat. cbv zeta.
  assert (VQ : (vq x * inject_Z (vd x) == inject_Z (vn x))%Q) by (unfold vq; field; apply inj_nz; lia).
  destruct (Z.eqb_spec (vd x) 1) as [E1|N1].
  { eexists. split; [reflexivity|]. apply upd_recoef; [exact Hc|exact P|]. rewrite E1 in VQ. rewrite inject_Z_plus, inject_Z_mult, CR, <- VQ. change (inject_Z 1) with 1%Q. ring. }
  destruct (Z.eqb_spec (nth 0 (a_v f) 0) (vd x)) as [E2|N2].
  { eexists. split; [reflexivity|]. apply recoef_norm. apply upd_recoef; [exact Hc|exact P|]. rewrite inject_Z_plus, CR, <- VQ, E2. ring. }
  eexists. split; [reflexivity|]. apply recoef_norm. apply scaled_recoef; [exact Hc|exact P|exact Hx|].
  assert (EN : nth c (nth 0 (a_v f) 0 :: seq_scale (skipn 1 (a_v f)) (vd x)) 0 = nth c (a_v f) 0 * vd x).
  { destruct c as [|c]; [lia|]. cbn [nth]. unfold seq_scale. rewrite nth_scaled, nth_skipn. reflexivity. }
  rewrite EN, inject_Z_plus, !inject_Z_mult, CR, <- VQ. ring.
Qed.
Lemma set_rat_recoef f c x : wf_aff f -> (1 <= c < length (a_v f))%nat -> 0 < vd x -> exists l', aff_set_rat f c x = with_v f l' /\ recoef (a_v f) l' c (vq x).
Proof.
  intros W Hc Hx. assert (P : 0 < nth 0 (a_v f) 0) by apply W. unfold aff_set_rat. cbv zeta.
  assert (VQ : (vq x * inject_Z (vd x) == inject_Z (vn x))%Q) by (unfold vq; field; apply inj_nz; lia).
  destruct ((nth c (a_v f) 0 =? vn x) && (nth 0 (a_v f) 0 =? vd x)) eqn:E0.
  { exists (a_v f). split; [destruct f; reflexivity|]. split; [reflexivity|]. split; [exact P|]. split; [intros; ring|]. assert (Ec : nth c (a_v f) 0 = vn x) by lia. assert (Ed : nth 0 (a_v f) 0 = vd x) by lia. rewrite Ec, Ed, VQ. reflexivity. }
  destruct (Z.eqb_spec (nth 0 (a_v f) 0) (vd x)) as [E2|N2].
  { eexists. split; [reflexivity|]. apply upd_recoef; [exact Hc|exact P|]. rewrite <- VQ, E2. reflexivity. }
  destruct (Z.eqb_spec (vd x) 1) as [E1|N1].
  { eexists. split; [reflexivity|]. apply upd_recoef; [exact Hc|exact P|]. rewrite E1 in VQ. rewrite inject_Z_mult, <- VQ. change (inject_Z 1) with 1%Q. ring. }
  eexists. split; [reflexivity|]. apply recoef_norm. apply scaled_recoef; [exact Hc|exact P|exact Hx|]. rewrite !inject_Z_mult, <- VQ. ring.
Qed.

(** ** floor and ceil *)
Lemma ls_add_div_ok d M l : good d M l -> wf_divs d (ls_add_div M l) /\ known (ls_add_div M l) /\ length (ls_add_div M l) = S (length M) /\
  forall w, sat d M w -> sat d (ls_add_div M l) (w ++ [dot (skipn 1 l) w / nth 0 l 0]).
Proof.
  intros (W & K & L & P). unfold ls_add_div. set (r0 := fun r : list Z => (r ++ [0])%list).
  assert (LL : length (map r0 M ++ [l ++ [0]]) = S (length M)) by (rewrite app_length, map_length; cbn [length]; lia).
  assert (N1 : forall i, (i < length M)%nat -> nth i (map r0 M ++ [l ++ [0]]) [] = nth i M [] ++ [0]).
  { intros i Hi. rewrite app_nth1 by (rewrite map_length; exact Hi). rewrite (nth_indep _ [] (r0 [])) by (rewrite map_length; exact Hi). apply (map_nth r0). }
  assert (N2 : nth (length M) (map r0 M ++ [l ++ [0]]) [] = l ++ [0]). { rewrite app_nth2 by (rewrite map_length; lia). rewrite map_length, Nat.sub_diag. reflexivity. }
  assert (NZ : forall (r : list Z) j, (length r <= j)%nat -> nth j (r ++ [0]) 0 = 0). { intros r j Hj. rewrite app_nth2 by exact Hj. destruct (j - length r)%nat as [|[|k]]; reflexivity. }
  assert (NE : forall (r : list Z) j, nth j (r ++ [0]) 0 = nth j r 0). { intros r j. destruct (Nat.ltb_spec j (length r)); [apply app_nth1; lia|]. rewrite NZ by lia. symmetry. apply nth_overflow. lia. }
  assert (DE : forall (r w : list Z) x, (0 < length r)%nat -> length r = S (length w) -> dot (skipn 1 (r ++ [0])) (w ++ [x]) = dot (skipn 1 r) w).
  { intros r w x Hr HL. destruct r as [|m t]; [cbn in Hr; lia|]. cbn [app skipn length] in *. rewrite dot_app2 by lia. cbn [dot]. ring. }
  split; [|split; [|split; [exact LL|]]].
  - intros i Hi. rewrite LL in Hi. destruct (Nat.eq_dec i (length M)) as [->|N].
    + rewrite N2, LL. split; [rewrite app_length; cbn [length]; lia|]. split; [rewrite NE; lia|]. intros j Hj. apply NZ. lia.
    + rewrite N1 by lia. destruct (W i ltac:(lia)) as (A & B & C). rewrite LL. split; [rewrite app_length; cbn [length]; lia|]. split; [rewrite NE; exact B|]. intros j Hj. rewrite NE. apply C. exact Hj.
  - intros i Hi. rewrite LL in Hi. destruct (Nat.eq_dec i (length M)) as [->|N]; [rewrite N2, NE; lia|]. rewrite N1 by lia. rewrite NE. apply K. lia.
  - intros w (Lw & W0 & Sw). split; [rewrite app_length, LL; cbn [length]; lia|]. split; [rewrite app_nth1 by lia; exact W0|]. intros i Hi Hn. rewrite LL in Hi. destruct (Nat.eq_dec i (length M)) as [->|N].
    + rewrite N2, NE. rewrite DE by lia. rewrite app_nth2 by lia. replace (1 + d + length M - length w)%nat with 0%nat by lia. reflexivity.
    + rewrite N1 in * by lia. rewrite NE in *. destruct (W i ltac:(lia)) as (A & _). rewrite DE by lia. rewrite app_nth1 by lia. apply Sw; [lia|exact Hn].
Qed.
Lemma is_floor_div m n r : 0 < m -> (inject_Z m * r == inject_Z n)%Q -> forall k, is_floor r k <-> k = n / m.
Proof.
  intros P E k. assert (Er : (r == inject_Z n / inject_Z m)%Q) by (rewrite <- E; field; apply inj_nz; lia). assert (Pm : (0 < inject_Z m)%Q) by (unfold Qlt; cbn; lia).
  unfold is_floor. rewrite Er. split.
  - intros (A & B). apply (Qmult_le_r _ _ (inject_Z m)) in A; [|exact Pm]. apply (Qmult_lt_r _ _ (inject_Z m)) in B; [|exact Pm].
    setoid_replace (inject_Z n / inject_Z m * inject_Z m)%Q with (inject_Z n) in A by (field; apply inj_nz; lia). setoid_replace (inject_Z n / inject_Z m * inject_Z m)%Q with (inject_Z n) in B by (field; apply inj_nz; lia).
    rewrite <- inject_Z_mult in A, B. rewrite <- Zle_Qle in A. rewrite <- Zlt_Qlt in B. apply (Z.div_unique_pos n m k (n - k * m)); lia.
  - intros ->. pose proof (Z.div_mod n m ltac:(lia)). pose proof (Z.mod_pos_bound n m P). split.
    + apply (Qmult_le_r _ _ (inject_Z m)); [exact Pm|]. setoid_replace (inject_Z n / inject_Z m * inject_Z m)%Q with (inject_Z n) by (field; apply inj_nz; lia). rewrite <- inject_Z_mult, <- Zle_Qle. nia.
    + apply (Qmult_lt_r _ _ (inject_Z m)); [exact Pm|]. setoid_replace (inject_Z n / inject_Z m * inject_Z m)%Q with (inject_Z n) by (field; apply inj_nz; lia). rewrite <- inject_Z_mult, <- Zlt_Qlt. nia.
Qed.
Lemma floor_coef_dot m half l : 0 < m -> forall w, dot l w = dot (map fst (map (floor_coef m half) l)) w + m * dot (map snd (map (floor_coef m half) l)) w.
Proof.
  intros P. induction l as [|a t IH]; intros w; [cbn; lia|]. destruct w as [|b u]; [cbn; lia|]. cbn [map dot]. rewrite (IH u).
  assert (E : a = fst (floor_coef m half a) + m * snd (floor_coef m half a)). { unfold floor_coef, fdiv_r, fdiv_q. pose proof (Z.div_mod a m ltac:(lia)). destruct (Z.ltb half (a mod m)); cbn [fst snd]; lia. }
  rewrite E at 1. ring.
Qed.
Theorem floor_ok f : wf_aff f -> exists g, aff_floor f = Ok g /\ a_sp g = a_sp f /\ wf_aff g /\ forall v r n, avalue f v r -> is_floor r n -> avalue g v (inject_Z n).
Proof.
  intros W. unfold aff_floor. rewrite not_nan by exact W. pose proof W as ((WD & K & L) & P). set (m := nth 0 (a_v f) 0) in *.
  destruct (Z.eqb_spec m 1) as [E1|N1].
  { exists f. split; [reflexivity|]. split; [reflexivity|]. split; [exact W|]. intros v r n A F. apply (avalue_ext f v r); [|exact A]. destruct A as (w & _ & _ & E). fold m in E. apply (is_floor_div m _ r P E) in F. subst n. rewrite E1 in *. rewrite Z.div_1_r, <- E. change (inject_Z 1) with 1%Q. ring. }
  destruct (aff_is_cst f) eqn:C.
  { eexists. split; [reflexivity|]. split; [reflexivity|]. rewrite is_cst_ok in C. split.
    - split; [|reflexivity]. split; [exact WD|]. split; [exact K|]. unfold with_v, a_d, a_n in *. cbn [a_v a_sp a_div length]. rewrite skipn_length. lia.
    - intros v r n (w & Sw & Fw & E) F. exists w. split; [exact Sw|]. split; [exact Fw|]. fold m in E. apply (is_floor_div m _ r P E) in F. subst n. unfold with_v; cbn [a_v nth]; match goal with |- context[skipn 1 (1 :: ?a)] => change (skipn 1 (1 :: a)) with a end. pose proof Sw as (Lw & W0 & _).
      assert (D : forall a, dot (a :: skipn 2 (a_v f)) w = a). { intros a. destruct w as [|b u]; cbn in W0; [discriminate|subst b]. cbn [dot]. rewrite dot_zeros; [lia|]. intros j. rewrite nth_skipn. apply C. lia. }
      rewrite D. assert (D2 : dot (skipn 1 (a_v f)) w = nth 1 (a_v f) 0). { rewrite <- (D (nth 1 (a_v f) 0)). f_equal. destruct (a_v f) as [|? [|? ?]]; cbn in L; try lia. reflexivity. }
      rewrite D2. change (inject_Z 1) with 1%Q. unfold fdiv_q. ring. }
  cbv zeta. set (half := fdiv_q m 2). set (l := map (floor_coef m half) (skipn 1 (a_v f))).
  assert (Ll : length l = (1 + a_d f + a_n f)%nat) by (unfold l; rewrite map_length, skipn_length; lia).
  assert (Gd : good (a_d f) (a_div f) (m :: map fst l)). { split; [exact WD|]. split; [exact K|]. split; [cbn [length]; rewrite map_length, Ll; unfold a_n; lia|exact P]. }
  destruct (ls_add_div_ok _ _ _ Gd) as (W' & K' & L' & H'). set (M' := ls_add_div (a_div f) (m :: map fst l)) in *.
  destruct (normalize_keeps (mkaff (a_sp f) M' (1 :: map snd l ++ [1]))) as (g & Eg & Sg & Kg).
  { split; [exact W'|]. split; [exact K'|]. cbn [a_v a_sp a_div]. split; [cbn [length]; rewrite app_length, map_length, Ll, L'; cbn [length]; unfold a_n, a_d; cbn [a_sp]; lia|reflexivity]. }
  exists g. split; [exact Eg|]. split; [exact Sg|]. destruct (keeps_wf _ _ Sg Kg) as (Wg & Hg). split; [exact Wg|]. intros v r n (w & Sw & Fw & E) F. apply Hg. fold m in E. apply (is_floor_div m _ r P E) in F. subst n.
  exists (w ++ [dot (map fst l) w / m])%list. specialize (H' w Sw). cbn [skipn nth] in H'. split; [exact H'|]. pose proof Sw as (Lw & _). split.
  { unfold a_d in *. cbn [a_sp]. rewrite firstn_app. replace (1 + dim_all (a_sp f) - length w)%nat with 0%nat by lia. rewrite firstn_O, app_nil_r. exact Fw. }
  cbn [a_v nth]. match goal with |- context[skipn 1 (1 :: ?a)] => change (skipn 1 (1 :: a)) with a end. rewrite dot_app2 by (rewrite map_length, Ll, Lw; unfold a_n; lia). cbn [dot]. rewrite (floor_coef_dot m half (skipn 1 (a_v f)) P w). fold l.
  rewrite (Z.mul_comm m), Z.div_add by lia. rewrite Qmult_1_l. apply inj_eq. ring.
Qed.
Theorem ceil_ok f : wf_aff f -> exists g, aff_ceil f = Ok g /\ a_sp g = a_sp f /\ wf_aff g /\ forall v r n, avalue f v r -> is_ceil r n -> avalue g v (inject_Z n).
Proof.
  intros W. unfold aff_ceil. rewrite not_nan by exact W. pose proof W as ((WD & K & L) & P). set (m := nth 0 (a_v f) 0) in *.
  assert (CE : forall r D, (inject_Z m * r == inject_Z D)%Q -> forall n, is_ceil r n -> D <= n * m /\ (n - 1) * m < D).
  { intros r D E n (A & B). assert (Pm : (0 < inject_Z m)%Q) by (unfold Qlt; cbn; lia). apply (Qmult_le_r _ _ (inject_Z m)) in A; [|exact Pm]. apply (Qmult_lt_r _ _ (inject_Z m)) in B; [|exact Pm]. rewrite (Qmult_comm r), E in A. rewrite (Qmult_comm r), E in B. rewrite <- inject_Z_mult, <- Zle_Qle in A. rewrite <- inject_Z_mult, <- Zlt_Qlt in B. split; assumption. }
  destruct (Z.eqb_spec m 1) as [E1|N1].
  { exists f. split; [reflexivity|]. split; [reflexivity|]. split; [exact W|]. intros v r n A F. apply (avalue_ext f v r); [|exact A]. destruct A as (w & _ & _ & E). fold m in E. destruct (CE r _ E n F) as (X & Y). rewrite E1 in *. assert (En : n = dot (skipn 1 (a_v f)) w) by lia. rewrite En, <- E. change (inject_Z 1) with 1%Q. ring. }
  set (f2 := with_v f _). assert (W2 : wf_aff f2).
  { split; [split; [exact WD|]; split; [exact K|]; unfold f2, with_v, a_d, a_n in *; cbn [a_v a_sp a_div]; rewrite zupd_length; exact L|]. unfold f2. cbn [with_v a_v]. rewrite nth_zupd. exact P. }
  destruct (floor_ok f2 W2) as (g & Eg & Sg & Wg & Hg). exists g. split; [exact Eg|]. split; [exact Sg|]. split; [exact Wg|]. intros v r n (w & Sw & Fw & E) F. fold m in E. pose proof (CE r _ E n F) as (X & Y). set (D := dot (skipn 1 (a_v f)) w) in *.
  assert (E2 : (inject_Z m * (inject_Z (D + m - 1) / inject_Z m) == inject_Z (D + m - 1))%Q) by (field; apply inj_nz; lia).
  apply (Hg v (inject_Z (D + m - 1) / inject_Z m)%Q n).
  - exists w. split; [exact Sw|]. split; [exact Fw|]. unfold f2. cbn [with_v a_v]. rewrite nth_zupd. cbn [Nat.eqb andb]. fold m. rewrite E2. rewrite skipn_zupd, dot_zupd by (rewrite skipn_length; lia). fold D. rewrite nth_skipn. apply inj_eq.
    destruct Sw as (_ & W0 & _). rewrite W0. cbn [Nat.add]. ring.
  - apply (is_floor_div m (D + m - 1) _ P E2). apply (Z.div_unique_pos _ _ n (D + m - 1 - n * m)); lia.
Qed.

(** ** sums *)
Lemma increasing_ge e : increasing e -> forall i, (i < length e)%nat -> (i <= nth i e 0)%nat.
Proof. intros I. induction i as [|i IH]; intros H; [lia|]. specialize (IH ltac:(lia)). specialize (I i (S i) ltac:(lia) H). lia. Qed.
Lemma increasing_id e n : increasing e -> length e = n -> (forall i, (i < n)%nat -> (nth i e 0 < n)%nat) -> forall i, (i < n)%nat -> nth i e 0%nat = i.
Proof.
  intros I L B. assert (H : forall k i, (i + k < n)%nat -> (nth i e 0 + k <= nth (i + k) e 0)%nat).
  { induction k as [|k IH]; intros i Hi; [rewrite !Nat.add_0_r; apply Nat.le_refl|]. specialize (IH i ltac:(lia)). pose proof (I (i + k)%nat (i + S k)%nat ltac:(lia) ltac:(lia)). lia. }
  intros i Hi. pose proof (increasing_ge e I i ltac:(lia)). specialize (H (n - 1 - i)%nat i ltac:(lia)). specialize (B (i + (n - 1 - i))%nat ltac:(lia)). lia.
Qed.
Lemma expand_els_ok e : increasing e -> forall i j l, (j <= length e)%nat -> (j <= i)%nat -> (i <= length l)%nat -> (forall k, (k < j)%nat -> (nth k e 0 < i)%nat) ->
  let l' := expand_els i j e l in
  length l' = length l /\ (forall k, (i <= k)%nat -> nth k l' 0 = nth k l 0) /\ (forall k, (k < j)%nat -> nth (nth k e 0%nat) l' 0 = nth k l 0) /\
  (forall k, (k < i)%nat -> (forall s, (s < j)%nat -> nth s e 0%nat <> k) -> nth k l' 0 = 0).
Proof.
  intros I. induction i as [|i IH]; intros j l Hj Hji Hl B; cbv zeta.
  - cbn [expand_els]. split; [reflexivity|]. split; [reflexivity|]. split; [lia|lia].
  - assert (Z0 : (forall k, (k < j)%nat -> (nth k e 0 < i)%nat) -> (j <= i)%nat -> let l' := expand_els i j e (zupd l i 0) in
      length l' = length l /\ (forall k, (S i <= k)%nat -> nth k l' 0 = nth k l 0) /\ (forall k, (k < j)%nat -> nth (nth k e 0%nat) l' 0 = nth k l 0) /\
      (forall k, (k < S i)%nat -> (forall s, (s < j)%nat -> nth s e 0%nat <> k) -> nth k l' 0 = 0)).
    { intros B' Hji'. cbv zeta. destruct (IH j (zupd l i 0) Hj Hji' ltac:(rewrite zupd_length; lia) B') as (A1 & A2 & A3 & A4). cbv zeta in *. rewrite zupd_length in A1. split; [exact A1|]. split; [|split].
      - intros k Hk. rewrite A2 by lia. rewrite nth_zupd. destruct (Nat.eqb_spec k i); [lia|]. reflexivity.
      - intros k Hk. rewrite A3 by exact Hk. rewrite nth_zupd. destruct (Nat.eqb_spec k i); [lia|]. reflexivity.
      - intros k Hk Hs. destruct (Nat.eq_dec k i) as [->|N]; [|apply A4; [lia|exact Hs]]. rewrite A2 by lia. rewrite nth_zupd, Nat.eqb_refl. destruct (Nat.ltb_spec i (length l)); [reflexivity|lia]. }
    cbn [expand_els]. destruct j as [|j]; [apply Z0; lia|]. destruct (Nat.eqb_spec (nth j e 0%nat) i) as [Ee|Ne].
    + set (l1 := if Nat.eqb i j then l else swap_els l i j). assert (L1 : length l1 = length l) by (unfold l1; destruct (Nat.eqb i j); [reflexivity|apply swap_length]).
      assert (N1 : forall k, nth k l1 0 = if Nat.eqb k i then nth j l 0 else if Nat.eqb k j then nth i l 0 else nth k l 0).
      { intros k. unfold l1. destruct (Nat.eqb_spec i j) as [->|Nij]; [destruct (Nat.eqb_spec k j) as [->|]; reflexivity|]. unfold swap_els. rewrite !nth_zupd, zupd_length. assert (Ti : Nat.ltb i (length l) = true) by lia. assert (Tj : Nat.ltb j (length l) = true) by lia. rewrite Ti, Tj, !andb_true_r. destruct (Nat.eqb_spec k i), (Nat.eqb_spec k j); try lia; reflexivity. }
      destruct (IH j l1 ltac:(lia) ltac:(lia) ltac:(lia)) as (A1 & A2 & A3 & A4). { intros k Hk. rewrite <- Ee. apply I; lia. } cbv zeta in *. split; [lia|]. split; [|split].
      * intros k Hk. rewrite A2 by lia. rewrite N1. destruct (Nat.eqb_spec k i); [lia|]. destruct (Nat.eqb_spec k j); [lia|]. reflexivity.
      * intros k Hk. destruct (Nat.eq_dec k j) as [->|N]; [rewrite Ee, A2 by lia; rewrite N1, Nat.eqb_refl; reflexivity|]. rewrite A3 by lia. rewrite N1. destruct (Nat.eqb_spec k i); [lia|]. destruct (Nat.eqb_spec k j); [lia|]. reflexivity.
      * intros k Hk Hs. destruct (Nat.eq_dec k i) as [->|N]; [exfalso; apply (Hs j); [lia|exact Ee]|]. apply A4; [lia|]. intros s Hss. apply Hs. lia.
    + assert (Bj : (nth j e 0 < i)%nat) by (specialize (B j ltac:(lia)); lia). apply Z0; [|pose proof (increasing_ge e I j ltac:(lia)); lia].
      intros k Hk. destruct (Nat.eq_dec k j) as [->|N]; [exact Bj|]. pose proof (I k j ltac:(lia) ltac:(lia)). lia.
Qed.
Lemma scatter_dot e : increasing e -> forall j orig res u, (j <= length e)%nat -> (j <= length orig)%nat -> (forall k, (k < j)%nat -> (nth k e 0 < length res)%nat) ->
  (forall k, (k < j)%nat -> nth (nth k e 0%nat) res 0 = nth k orig 0) -> (forall k, (k < length res)%nat -> (forall s, (s < j)%nat -> nth s e 0%nat <> k) -> nth k res 0 = 0) ->
  dot res u = dot (firstn j orig) (map (fun k => nth k u 0) (firstn j e)).
Proof.
  intros I. induction j as [|j IH]; intros orig res u He Ho B A Z0.
  - cbn [firstn dot]. apply dot_zeros. intros k. destruct (Nat.ltb_spec k (length res)); [apply Z0; lia|apply nth_overflow; lia].
  - set (p := nth j e 0%nat). pose proof (B j ltac:(lia)) as Bp. fold p in Bp. specialize (IH orig (zupd res p 0) u ltac:(lia) ltac:(lia)).
    rewrite dot_zupd in IH by exact Bp. rewrite zupd_length in IH.
    rewrite (firstn_S orig 0) by lia. rewrite (firstn_S e 0%nat) by lia. rewrite map_app, dot_app2 by (rewrite map_length, !firstn_length; lia). cbn [map dot]. fold p.
    rewrite <- IH.
    + rewrite <- (A j ltac:(lia)). fold p. ring.
    + intros k Hk. apply B. lia.
    + intros k Hk. rewrite nth_zupd. pose proof (I k j ltac:(lia) ltac:(lia)). destruct (Nat.eqb_spec (nth k e 0%nat) p); [unfold p in *; lia|]. cbn [andb]. apply A. lia.
    + intros k Hk Hs. rewrite nth_zupd. destruct (Nat.eqb_spec k p) as [->|N]; cbn [andb].
      * destruct (Nat.ltb_spec p (length res)); [reflexivity|lia].
      * apply Z0; [exact Hk|]. intros s Hss. destruct (Nat.eq_dec s j) as [->|]; [fold p; lia|apply Hs; lia].
Qed.
Lemma select_id d e w : length w = (1 + d + length e)%nat -> (forall i, (i < length e)%nat -> nth i e 0%nat = i) -> select d e w = w.
Proof.
  intros L H. apply list_eq_nth; [rewrite select_length; lia|]. intros k Hk0. destruct (Nat.ltb_spec k (1 + d)).
  - unfold select. rewrite app_nth1 by (rewrite firstn_length; lia). rewrite nth_firstn. destruct (Nat.ltb_spec k (1 + d)); [reflexivity|lia].
  - destruct (Nat.ltb_spec k (length w)); [|rewrite !nth_overflow; rewrite ?select_length; try lia; reflexivity].
    replace k with (1 + d + (k - (1 + d)))%nat at 1 by lia. rewrite select_nth by lia. rewrite H by lia. f_equal. lia.
Qed.
Lemma vec_expand_ok junk d l n e N : length l = (2 + d + n)%nat -> length e = n -> increasing e -> (forall i, (i < n)%nat -> (nth i e 0 < N)%nat) ->
  exists l', vec_expand junk l (2 + d) n e N = Ok l' /\ length l' = (2 + d + N)%nat /\ nth 0 l' 0 = nth 0 l 0 /\ forall w, length w = (1 + d + N)%nat -> dot (skipn 1 l') w = dot (skipn 1 l) (select d e w).
Proof.
  intros Ll Le I B. assert (HN : (n <= N)%nat). { destruct n as [|n]; [lia|]. pose proof (increasing_ge e I n ltac:(lia)). specialize (B n ltac:(lia)). lia. }
  unfold vec_expand. destruct (Nat.ltb_spec N n); [lia|]. destruct (Nat.eqb_spec N n) as [->|Nn].
  { exists l. split; [reflexivity|]. split; [exact Ll|]. split; [reflexivity|]. intros w Lw. rewrite select_id; [reflexivity|lia|]. intros i Hi. apply (increasing_id e n I Le B). lia. }
  set (orig := (skipn (2 + d) l ++ map junk (seq 0 (N - n)))%list). assert (Lo : length orig = N) by (unfold orig; rewrite app_length, skipn_length, map_length, seq_length; lia).
  destruct (expand_els_ok e I N n orig ltac:(lia) ltac:(lia) ltac:(lia) B) as (A1 & _ & A3 & A4). cbv zeta in *. set (res := expand_els N n e orig) in *. rewrite Lo in A1.
  eexists. split; [reflexivity|]. assert (Lf : length (firstn (2 + d) l) = (2 + d)%nat) by (rewrite firstn_length; lia). split; [rewrite app_length, Lf; lia|]. split; [rewrite app_nth1 by lia; rewrite nth_firstn; reflexivity|].
  intros w Lw. destruct l as [|m t]; [cbn in Ll; lia|]. cbn [firstn Nat.add app skipn length] in *. change (firstn (S d) t) with (firstn (1 + d) t) in *.
  rewrite <- (firstn_skipn (1 + d) w) at 1. rewrite dot_app2 by (rewrite !firstn_length; cbn in Ll; lia). unfold select.
  rewrite <- (firstn_skipn (1 + d) t) at 2. rewrite dot_app2 by (rewrite !firstn_length; cbn in Ll; lia). f_equal.
  rewrite (scatter_dot e I n (skipn (1 + d) t) res (skipn (1 + d) w)).
  - rewrite !firstn_all2 by (rewrite ?skipn_length; lia). f_equal. apply map_ext. intros k. apply nth_skipn.
  - lia.
  - rewrite skipn_length. lia.
  - intros k Hk. rewrite A1. apply B. exact Hk.
  - intros k Hk. rewrite A3 by exact Hk. change orig with (skipn (1 + d) t ++ map junk (seq 0 (N - n)))%list. rewrite app_nth1 by (rewrite skipn_length; lia). reflexivity.
  - intros k Hk. apply A4. lia.
Qed.
Lemma add_expanded_ok f1 f2 : wf_aff f1 -> wf_aff f2 -> a_d f2 = a_d f1 -> a_div f2 = a_div f1 -> exists g, add_expanded f1 f2 = Ok g /\ a_sp g = a_sp f1 /\ wf_aff g /\ forall v r1 r2, avalue f1 v r1 -> avalue f2 v r2 -> avalue g v (r1 + r2).
Proof.
  intros W1 W2 Ed Em. pose proof W1 as ((WD & K & L1) & P1). pose proof W2 as ((_ & _ & L2) & P2). unfold add_expanded. cbv zeta. set (d1 := nth 0 (a_v f1) 0) in *. set (d2 := nth 0 (a_v f2) 0) in *. set (g := Z.gcd d1 d2).
  assert (Gp : 0 < g). { pose proof (Z.gcd_nonneg d1 d2). destruct (Z.eq_dec g 0) as [E|]; [apply Z.gcd_eq_0_l in E; lia|unfold g in *; lia]. }
  pose proof (divexact_l g d1 (Z.gcd_divide_l _ _) ltac:(lia)) as E1. pose proof (divexact_l g d2 (Z.gcd_divide_r _ _) ltac:(lia)) as E2. set (q1 := divexact d1 g) in *. set (q2 := divexact d2 g) in *.
  set (l := seq_addmul _ _ _). assert (Ll : length l = length (skipn 1 (a_v f1))). { unfold l, seq_addmul, seq_scale. rewrite map2_length; rewrite map_length; [reflexivity|]. rewrite !skipn_length. unfold a_n in *. rewrite Em, Ed in L2. lia. }
  rewrite skipn_length in Ll. assert (Hl : forall w, dot l w = q2 * dot (skipn 1 (a_v f1)) w + q1 * dot (skipn 1 (a_v f2)) w).
  { intros w. unfold l, seq_addmul. rewrite <- (dot_scale (skipn 1 (a_v f1)) q2 w). rewrite <- (Z.mul_1_l (dot (seq_scale _ _) w)). rewrite <- dot_map2.
    - f_equal. clear. generalize (seq_scale (skipn 1 (a_v f1)) q2) as a. generalize (skipn 1 (a_v f2)) as b. intros b a. revert b. induction a as [|x a IH]; intros [|y b]; cbn [map2]; try reflexivity. rewrite IH. f_equal. ring.
    - unfold seq_scale. rewrite map_length, !skipn_length. unfold a_n in *. rewrite Em, Ed in L2. lia. }
  destruct (normalize_keeps (with_v f1 (d1 * q2 :: l))) as (h & Eh & Sh & Kh).
  { split; [exact WD|]. split; [exact K|]. split; [|cbn [with_v a_v nth]; nia]. unfold a_d, a_n in *. cbn [with_v a_v a_div a_sp length]. rewrite Ll. lia. }
  exists h. split; [exact Eh|]. split; [exact Sh|]. destruct (keeps_wf _ _ Sh Kh) as (Wh & Hh). split; [exact Wh|]. intros v r1 r2 (w & Sw & Fw & A1) (w' & Sw' & Fw' & A2). rewrite Ed, Em in Sw'. rewrite Ed in Fw'.
  assert (w' = w) by (eapply sat_unique; eauto; congruence). subst w'. apply Hh. exists w. split; [exact Sw|]. split; [exact Fw|]. cbn [with_v a_v nth skipn]. fold d1 in A1. fold d2 in A2. rewrite Hl, inject_Z_plus, !inject_Z_mult, <- A1, <- A2, E1, E2, !inject_Z_mult. ring.
Qed.
Lemma expand_divs_ok junk f div e : wf_aff f -> wf_divs (a_d f) div -> known div -> length e = a_n f -> increasing e -> (forall i, (i < length e)%nat -> (nth i e 0 < length div)%nat) ->
  (forall w, sat (a_d f) div w -> sat (a_d f) (a_div f) (select (a_d f) e w)) ->
  exists l', aff_expand_divs junk f div e = Ok (mkaff (a_sp f) div l') /\ wf_aff (mkaff (a_sp f) div l') /\ forall v r, avalue f v r -> avalue (mkaff (a_sp f) div l') v r.
Proof.
  intros W WD K Le I B HS. pose proof W as ((_ & _ & L) & P). unfold aff_expand_divs. destruct (vec_expand_ok junk (a_d f) (a_v f) (a_n f) e (length div) L Le I ltac:(intros i Hi; apply B; lia)) as (l' & E & Ll & N0 & D). rewrite E. cbn [LocalModel.bind].
  exists l'. split; [reflexivity|]. split; [split; [split; [exact WD|]; split; [exact K|exact Ll]|cbn [a_v]; rewrite N0; exact P]|].
  intros v r A. pose proof (avalue_point f v r A) as (Lv & V0). destruct A as (w & Sw & Fw & Ew). destruct (extend_sat _ _ _ WD K Lv V0) as (Su & Fu). set (u := extend_loop div v) in *. pose proof Su as (Lu & _).
  assert (w = select (a_d f) e u). { destruct W as ((WD0 & K0 & _) & _). apply (sat_unique (a_d f) (a_div f) w _ WD0 K0 Sw (HS u Su)). rewrite Fw. unfold select. rewrite firstn_app, firstn_firstn, Nat.min_id. rewrite firstn_length. replace (1 + a_d f - Nat.min (1 + a_d f) (length u))%nat with 0%nat by lia. rewrite firstn_O, app_nil_r. symmetry. exact Fu. }
  subst w. exists u. split; [exact Su|]. split; [exact Fu|]. cbn [a_v]. rewrite N0, D by exact Lu. exact Ew.
Qed.
Theorem add_ok junk f1 f2 : wf_aff f1 -> wf_aff f2 -> is_equal (a_sp f1) (a_sp f2) = true ->
  exists g, aff_add junk f1 f2 = Ok g /\ a_sp g = a_sp f1 /\ wf_aff g /\ forall v r1 r2, avalue f1 v r1 -> avalue f2 v r2 -> avalue g v (r1 + r2).
Proof.
  intros W1 W2 E. unfold aff_add. rewrite E. cbn [negb]. rewrite !not_nan by assumption. assert (Ed : a_d f2 = a_d f1) by (symmetry; apply (is_equal_dim _ _ E)).
  destruct (Nat.eqb (a_n f1) 0 && Nat.eqb (a_n f2) 0) eqn:E0.
  { apply add_expanded_ok; try assumption. unfold a_n in E0. destruct (a_div f1), (a_div f2); cbn in E0; try lia. reflexivity. }
  pose proof W1 as ((WD1 & K1 & L1) & P1). pose proof W2 as ((WD2 & K2 & L2) & P2). rewrite Ed in WD2.
  destruct (merge_divs_ok _ _ _ WD1 WD2) as (M & e1 & e2 & Em & WM & KM & Le1 & Le2 & I1 & I2 & B1 & B2 & _ & HS). rewrite Em. cbn [LocalModel.bind].
  destruct (expand_divs_ok junk f1 M e1 W1 WM (KM K1 K2) Le1 I1 B1 ltac:(intros w Sw; apply HS; exact Sw)) as (l1 & X1 & Y1 & V1). rewrite X1. cbn [LocalModel.bind].
  destruct (expand_divs_ok junk f2 M e2 W2 ltac:(rewrite Ed; exact WM) (KM K1 K2) Le2 I2 B2 ltac:(rewrite Ed; intros w Sw; apply HS; exact Sw)) as (l2 & X2 & Y2 & V2). rewrite X2. cbn [LocalModel.bind].
  destruct (add_expanded_ok (mkaff (a_sp f1) M l1) (mkaff (a_sp f2) M l2) Y1 Y2 Ed eq_refl) as (g & Eg & Sg & Wg & Hg). exists g. split; [exact Eg|]. split; [exact Sg|]. split; [exact Wg|]. intros v r1 r2 A1 A2. apply Hg; [apply V1; exact A1|apply V2; exact A2].
Qed.
Lemma neg_sp f : a_sp (aff_neg f) = a_sp f.
Proof. unfold aff_neg. destruct (aff_is_nan f); reflexivity. Qed.
Theorem sub_ok junk f1 f2 : wf_aff f1 -> wf_aff f2 -> is_equal (a_sp f1) (a_sp f2) = true ->
  exists g, aff_sub junk f1 f2 = Ok g /\ a_sp g = a_sp f1 /\ wf_aff g /\ forall v r1 r2, avalue f1 v r1 -> avalue f2 v r2 -> avalue g v (r1 - r2).
Proof.
  intros W1 W2 E. unfold aff_sub. destruct (neg_ok f2 W2) as (Wn & Hn). destruct (add_ok junk f1 (aff_neg f2) W1 Wn ltac:(rewrite neg_sp; exact E)) as (g & Eg & Sg & Wg & Hg). exists g. split; [exact Eg|]. split; [exact Sg|]. split; [exact Wg|]. intros v r1 r2 A1 A2. apply (Hg v r1 (- r2)%Q A1 (Hn v r2 A2)).
Qed.
Lemma int_val x : v_is_int x = true -> vd x = 1.
Proof. unfold v_is_int. lia. Qed.
Lemma is_floor_ex r : is_floor r (Qfloor r).
Proof. split; [apply Qfloor_le|apply Qlt_floor]. Qed.
Theorem mod_ok junk f x : wf_aff f -> vd x = 1 -> 0 < vn x -> is_equal (a_sp f) (a_sp f) = true ->
  exists g, aff_mod junk f x = Ok g /\ a_sp g = a_sp f /\ wf_aff g /\ forall v r n, avalue f v r -> is_floor (r / inject_Z (vn x)) n -> avalue g v (r - inject_Z (vn x) * inject_Z n).
Proof.
  intros W Hd Hn Es. unfold aff_mod. unfold v_is_int. rewrite Hd. change (1 =? 1) with true. cbn [negb].
  destruct (scale_down_val_ok f x W ltac:(lia) Hn) as (g1 & E1 & S1 & W1 & H1). rewrite E1. cbn [LocalModel.bind].
  destruct (floor_ok g1 W1) as (g2 & E2 & S2 & W2 & H2). rewrite E2. cbn [LocalModel.bind].
  destruct (scale_val_ok g2 x W2 ltac:(lia)) as (g3 & E3 & S3 & W3 & H3). rewrite E3. cbn [LocalModel.bind].
  destruct (sub_ok junk f g3 W W3 ltac:(rewrite S3, S2, S1; exact Es)) as (g & Eg & Sg & Wg & Hg). exists g. split; [exact Eg|]. split; [exact Sg|]. split; [exact Wg|]. intros v r n A F.
  assert (Q1 : (vq x == inject_Z (vn x))%Q) by (unfold vq; rewrite Hd; change (inject_Z 1) with 1%Q; field).
  apply (avalue_ext g v (r - inject_Z n * vq x)%Q); [rewrite Q1; ring|]. apply Hg; [exact A|]. apply H3. apply (H2 v (r / vq x)%Q); [apply H1; exact A|]. unfold is_floor in *. rewrite Q1. exact F.
Qed.
